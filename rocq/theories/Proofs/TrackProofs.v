(** Proofs about track registration and track history. *)
From Coq Require Import List ZArith QArith Bool Lia Sorting.Permutation.
From Verif.Model Require Import ListMem Mpi Subhalo Tracks.
From Verif.Proofs Require Import ListMemProofs MpiProofs ListExtra.
Import ListNotations.
Local Open Scope nat_scope.

Section P.
  Context {X R : Type}.
  Definition isbound (s : sub X R) : bool := Nat.ltb 1 (s_nbound s).

  Lemma compact_spec nbirth (subs : list (sub X R)) : nbirth <= length subs ->
    compact nbirth subs = Some (firstn (length subs - nbirth) subs ++ filter isbound (skipn (length subs - nbirth) subs), length subs - nbirth).
  Proof.
    intros Hn. unfold compact. destruct (Nat.ltb_spec (length subs) nbirth); [lia|]. set (old := length subs - nbirth).
    destruct (for_range_inv (fun k st => length (fst st) = length subs /\
        firstn (snd st) (fst st) = firstn old subs ++ filter isbound (firstn (k - old) (skipn old subs)) /\ snd st <= k /\ old <= snd st /\
        (forall j, k <= j -> nth_error (fst st) j = nth_error subs j)) old nbirth compact_step (subs, old)) as ([l n] & E & H1 & H2 & H3 & H4 & H5).
    - cbn [fst snd]. rewrite Nat.sub_diag. cbn. rewrite app_nil_r. repeat split; lia.
    - intros i [l n] Hi (H1 & H2 & H3 & H4 & H5). cbn [fst snd] in *. unfold compact_step. cbn [fst snd].
      rewrite (H5 i ltac:(lia)). destruct (nth_error_in_range subs i) as [s Hs]; [lia|]. rewrite Hs.
      assert (Hf : firstn (S i - old) (skipn old subs) = firstn (i - old) (skipn old subs) ++ [s]).
      { replace (S i - old) with (S (i - old)) by lia. apply firstn_snoc. rewrite nth_skipn. replace (old + (i - old)) with i by lia. exact Hs. }
      destruct (Nat.ltb 1 (s_nbound s)) eqn:Eb.
      + assert (Hflt : filter isbound (firstn (S i - old) (skipn old subs)) = filter isbound (firstn (i - old) (skipn old subs)) ++ [s]).
        { rewrite Hf, filter_app. f_equal. cbn [filter]. replace (isbound s) with true by (symmetry; exact Eb). reflexivity. }
        destruct (Nat.eqb_spec i n) as [->|Hne].
        * exists (l, S n). split; [reflexivity|]. cbn [fst snd]. split; [exact H1|]. split; [|split; [lia|split; [lia|]]].
          -- rewrite Hflt, app_assoc, <- H2. apply firstn_snoc. rewrite H5 by lia. exact Hs.
          -- intros j Hj. apply H5. lia.
        * destruct (upd_some l n s) as [l' HU]; [lia|]. rewrite HU. exists (l', S n). split; [reflexivity|]. cbn [fst snd].
          split; [rewrite (upd_length _ _ _ _ HU); exact H1|]. split; [|split; [lia|split; [lia|]]].
          -- rewrite Hflt, app_assoc, <- H2. rewrite (firstn_snoc _ _ _ (upd_same _ _ _ _ HU)). f_equal.
             eapply upd_firstn; [exact HU|lia].
          -- intros j Hj. rewrite (upd_other _ _ _ _ _ HU) by lia. apply H5. lia.
      + exists (l, n). split; [reflexivity|]. cbn [fst snd]. split; [exact H1|]. split; [|split; [lia|split; [lia|]]].
        * rewrite Hf, filter_app. cbn [filter]. replace (isbound s) with false by (symmetry; exact Eb). rewrite app_nil_r. exact H2.
        * intros j Hj. apply H5. lia.
    - rewrite E. cbn [fst snd] in *. rewrite H2. do 3 f_equal. replace (old + nbirth - old) with nbirth by lia.
      f_equal. apply firstn_all2. rewrite skipn_length. unfold old. lia.
  Qed.

  Lemma number_from_length n (l : list (sub X R)) : length (number_from n l) = length l.
  Proof. revert n; induction l; intros n; cbn; [reflexivity|]. f_equal; auto. Qed.
  Lemma number_from_nth n (l : list (sub X R)) i : nth_error (number_from n l) i = option_map (set_track (n + Z.of_nat i)) (nth_error l i).
  Proof.
    revert n i; induction l as [|s l IH]; intros n [|i]; cbn [number_from nth_error]; try reflexivity; [cbn; f_equal; f_equal; lia|].
    rewrite IH. replace (n + 1 + Z.of_nat i)%Z with (n + Z.of_nat (S i))%Z by lia. reflexivity.
  Qed.
  Lemma number_from_tracks n (l : list (sub X R)) : map s_track (number_from n l) = map (fun k => (n + Z.of_nat k)%Z) (seq 0 (length l)).
  Proof.
    apply nth_error_ext. intros i. rewrite !nth_error_map, number_from_nth, nth_seq. destruct (Nat.ltb_spec i (length l)) as [Hi|Hi].
    - destruct (nth_error_in_range l i Hi) as [s ->]. reflexivity.
    - rewrite (proj2 (nth_error_None _ _) Hi). reflexivity.
  Qed.

  Lemma number_all_tracks base (ps : list (list (sub X R) * nat)) : Forall (fun p => snd p <= length (fst p)) ps ->
    Permutation (map s_track (concat (number_all base ps)))
      (map s_track (concat (map (fun p => firstn (snd p) (fst p)) ps)) ++
       map (fun k => (base + Z.of_nat k)%Z) (seq 0 (nsum (map (fun p => length (fst p) - snd p) ps)))).
  Proof.
    revert base; induction ps as [|[l old] ps IH]; intros base HF; [reflexivity|]. inversion HF as [|? ? H1 H2]; subst. cbn [fst snd] in *.
    cbn [number_all concat map nsum fst snd]. rewrite !map_app, <- !app_assoc. apply Permutation_app_head.
    replace (base + Z.of_nat (length l - old) - Z.of_nat (length l - old))%Z with base by lia.
    rewrite number_from_tracks, skipn_length, seq_app, map_app. cbn [plus].
    rewrite (IH (base + Z.of_nat (length l - old))%Z H2).
    rewrite !app_assoc. rewrite (Permutation_app_comm (map _ (seq 0 (length l - old)))), <- !app_assoc. apply Permutation_app_head.
    apply Permutation_app_head. replace (seq (length l - old) (nsum (map (fun p => length (fst p) - snd p) ps))) with
      (map (fun k => length l - old + k) (seq 0 (nsum (map (fun p : list (sub X R) * nat => length (fst p) - snd p) ps)))).
    - rewrite map_map. erewrite map_ext; [reflexivity|]. intros k. cbn. lia.
    - apply nth_error_ext. intros i. rewrite nth_error_map, !nth_seq. destruct (_ <? _); reflexivity.
  Qed.
  Lemma number_all_nth base (ps : list (list (sub X R) * nat)) r l old : nth_error ps r = Some (l, old) -> old <= length l ->
    nth_error (number_all base ps) r = Some (firstn old l ++ number_from (base + Z.of_nat (nsum (map (fun p => length (fst p) - snd p) (firstn r ps)))) (skipn old l)).
  Proof.
    revert base r; induction ps as [|[l' old'] ps IH]; intros base [|r] E Ho; cbn [nth_error] in E; try discriminate.
    - injection E as -> ->. cbn [number_all nth_error firstn map nsum]. do 3 f_equal. cbn. lia.
    - cbn [number_all nth_error]. rewrite (IH _ r E Ho). cbn [firstn map nsum fst snd]. do 3 f_equal. cbn. lia.
  Qed.

  (** what registration does: survivors in place, bound new-borns numbered consecutively *)
  Definition old_of (p : list (sub X R) * nat) : list (sub X R) := firstn (length (fst p) - snd p) (fst p).
  Definition new_of (p : list (sub X R) * nat) : list (sub X R) := filter isbound (skipn (length (fst p) - snd p) (fst p)).
  Definition base_of (ps : list (list (sub X R) * nat)) r := nsum (map (fun p => length (old_of p)) ps) + nsum (map (fun p => length (new_of p)) (firstn r ps)).
  Lemma register_spec (ps : list (list (sub X R) * nat)) : Forall (fun p => snd p <= length (fst p)) ps ->
    exists out, register ps = Some out /\ length out = length ps /\
      (forall r p, nth_error ps r = Some p -> nth_error out r = Some (old_of p ++ number_from (Z.of_nat (base_of ps r)) (new_of p))) /\
      Permutation (map s_track (concat out))
        (map s_track (concat (map old_of ps)) ++ map (fun k => Z.of_nat (nsum (map (fun p => length (old_of p)) ps) + k)) (seq 0 (nsum (map (fun p => length (new_of p)) ps)))).
  Proof.
    intros HF.
    set (q := fun p : list (sub X R) * nat => (old_of p ++ new_of p, length (fst p) - snd p)).
    assert (HM : mapM (fun p => compact (snd p) (fst p)) ps = Some (map q ps)).
    { clear - HF. induction HF as [|p ps H1 H2 IH]; [reflexivity|]. cbn [mapM map]. rewrite compact_spec by exact H1. rewrite IH. reflexivity. }
    unfold register. rewrite HM.
    assert (Hold : forall p, In p ps -> length (old_of p) = length (fst p) - snd p) by (intros p _; unfold old_of; rewrite firstn_length; lia).
    assert (Hsum : map snd (map q ps) = map (fun p => length (old_of p)) ps) by (rewrite map_map; apply map_ext_in; intros p Hp; cbn; symmetry; auto).
    assert (Hnew : forall l, (forall p, In p l -> In p ps) -> map (fun p => length (fst p) - snd p) (map q l) = map (fun p => length (new_of p)) l).
    { intros l Hl. rewrite map_map. apply map_ext_in. intros p Hp. cbn [q fst snd]. rewrite app_length, Hold by auto. lia. }
    assert (HF' : Forall (fun p => snd p <= length (fst p)) (map q ps)).
    { rewrite Forall_forall. intros x Hx. apply in_map_iff in Hx as (p & <- & Hp). cbn. rewrite app_length, Hold by exact Hp. lia. }
    rewrite Hsum. eexists. split; [reflexivity|]. split; [|split].
    - clear. generalize (Z.of_nat (nsum (map (fun p => length (old_of p)) ps))). induction ps as [|p ps IH]; intros z; [reflexivity|]. cbn. f_equal. apply IH.
    - intros r p Hp. pose proof (map_nth_error q r ps Hp) as Hq. unfold q in Hq at 1.
      rewrite (number_all_nth _ _ _ _ _ Hq) by (rewrite app_length, Hold by (eapply nth_error_In; eauto); lia).
      rewrite firstn_map, Hnew by (intros x Hx; eapply (firstn_incl ps); eauto).
      pose proof (Hold p (nth_error_In _ _ Hp)) as HL. rewrite <- HL. rewrite firstn_app, skipn_app, firstn_all, skipn_all, Nat.sub_diag. cbn [firstn skipn app].
      rewrite app_nil_r. unfold base_of. do 3 f_equal. lia.
    - rewrite (number_all_tracks _ _ HF'). rewrite Hnew by auto. rewrite map_map.
      erewrite (map_ext_in (fun x => firstn (snd (q x)) (fst (q x))) old_of).
      + apply Permutation_app_head. erewrite map_ext; [reflexivity|]. intros k. cbn. lia.
      + intros p Hp. cbn. rewrite <- (Hold p Hp). rewrite firstn_app, firstn_all, Nat.sub_diag. cbn. apply app_nil_r.
  Qed.
End P.
