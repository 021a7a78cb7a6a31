(** Proofs about the membership table. *)
From Coq Require Import List ZArith QArith Bool Lia Sorting.Permutation Sorting.Sorted.
From Verif.Model Require Import ListMem Mpi Subhalo.
From Verif.Proofs Require Import ListMemProofs MpiProofs.
Import ListNotations.
Local Open Scope nat_scope.

Lemma modify_some {A} (l : list A) i f x : nth_error l i = Some x -> exists l', modify l i f = Some l'.
Proof. intros H. unfold modify. rewrite H. apply upd_some. eapply nth_error_lt; eauto. Qed.
Lemma modify_nth {A} (l l' : list A) i f j : modify l i f = Some l' ->
  nth_error l' j = if Nat.eqb j i then option_map f (nth_error l j) else nth_error l j.
Proof.
  unfold modify. destruct (nth_error l i) as [x|] eqn:E; [|discriminate]. intros H. rewrite (upd_nth _ _ _ j _ H).
  destruct (Nat.eqb_spec j i) as [->|]; [rewrite E; reflexivity|reflexivity].
Qed.
Lemma modify_length {A} (l l' : list A) i f : modify l i f = Some l' -> length l' = length l.
Proof. unfold modify. destruct (nth_error l i); [|discriminate]. apply upd_length. Qed.
Lemma zmodify_nat {A} (l : list A) i f : (0 <= i)%Z -> zmodify l i f = modify l (Z.to_nat i) f.
Proof. intros H. unfold zmodify. destruct (Z.ltb_spec i 0); [lia|reflexivity]. Qed.

Section Table.
  Context {X R : Type}.
  Variable sort : list nat -> list nat.
  Variable incl : bool.
  Variable nh : nat.
  Local Notation G := (S nh).
  Definition gi (s : sub X R) : nat := Z.to_nat (s_host s + 1).
  Definition host_ok (s : sub X R) : Prop := (-1 <= s_host s < Z.of_nat nh)%Z.
  Lemma gi_lt s : host_ok s -> gi s < G.
  Proof. unfold host_ok, gi. lia. Qed.
  Definition mem (g : nat) (s : sub X R) : bool := counted incl s && Nat.eqb (gi s) g.
  Fixpoint ids (g i : nat) (subs : list (sub X R)) : list nat :=
    match subs with [] => [] | s :: r => if mem g s then i :: ids g (S i) r else ids g (S i) r end.
  Lemma ids_app g i a b : ids g i (a ++ b) = ids g i a ++ ids g (i + length a) b.
  Proof.
    revert i; induction a as [|s a IH]; intros i; [cbn; rewrite Nat.add_0_r; reflexivity|]. cbn [app ids length].
    rewrite IH. replace (i + S (length a)) with (S i + length a) by lia. destruct (mem g s); reflexivity.
  Qed.
  Lemma ids_length_indep g i j subs : length (ids g i subs) = length (ids g j subs).
  Proof. revert i j; induction subs as [|s r IH]; intros i j; [reflexivity|]. cbn. destruct (mem g s); cbn; [f_equal|]; apply IH. Qed.

  Lemma nsum_modify (c c' : list nat) g : modify c g S = Some c' -> nsum c' = S (nsum c).
  Proof.
    unfold modify. revert g c'; induction c as [|x c IH]; intros [|g] c' H; cbn in H; try discriminate.
    - injection H as <-. reflexivity.
    - destruct (nth_error c g) as [y|] eqn:E; [|discriminate]. destruct (upd c g (S y)) as [r|] eqn:E2; [|discriminate].
      injection H as <-. cbn. specialize (IH g r). rewrite E in IH. rewrite (IH E2). lia.
  Qed.
  Lemma nsum_repeat0 n : nsum (repeat 0 n) = 0.
  Proof. induction n; cbn; auto. Qed.
  Lemma nth_repeat0 n g : g < n -> nth_error (repeat 0 n) g = Some 0.
  Proof. revert g; induction n; intros [|g] H; cbn; try lia; [reflexivity|]. apply IHn. lia. Qed.

  Lemma count_spec subs : Forall host_ok subs ->
    exists counts, count_members incl nh subs = Some counts /\ length counts = G /\ nsum counts <= length subs /\
      forall g, g < G -> nth_error counts g = Some (length (ids g 0 subs)).
  Proof.
    intros Hh. unfold count_members.
    destruct (for_each_inv (fun pre c => length c = G /\ nsum c <= length pre /\ forall g, g < G -> nth_error c g = Some (length (ids g 0 pre)))
                subs (fun s c => if counted incl s then zmodify c (s_host s + 1) S else Some c) (repeat 0 G)) as (c & H1 & H2 & H3 & H4).
    - split; [apply repeat_length|]. split; [rewrite nsum_repeat0; reflexivity|]. intros g Hg. apply nth_repeat0; exact Hg.
    - intros pre s post c E (H1 & H2 & H3).
      assert (Hs : host_ok s) by (rewrite Forall_forall in Hh; apply Hh; rewrite E; apply in_or_app; right; left; reflexivity).
      destruct (counted incl s) eqn:Ec.
      + rewrite zmodify_nat by (unfold host_ok in Hs; lia). fold (gi s).
        destruct (modify_some c (gi s) S _ (H3 (gi s) (gi_lt s Hs))) as [c' Hc']. exists c'. split; [exact Hc'|].
        split; [rewrite (modify_length _ _ _ _ Hc'); exact H1|]. split; [rewrite (nsum_modify _ _ _ Hc'), app_length; cbn; lia|].
        intros g Hg. rewrite (modify_nth _ _ _ _ g Hc'), (H3 g Hg), ids_app. cbn [ids]. unfold mem. rewrite Ec. cbn.
        rewrite Nat.eqb_sym. destruct (gi s =? g); rewrite app_length; cbn; f_equal; lia.
      + exists c. split; [reflexivity|]. split; [exact H1|]. split; [rewrite app_length; lia|]. intros g Hg. rewrite (H3 g Hg), ids_app.
        cbn [ids]. unfold mem. rewrite Ec. cbn. rewrite app_nil_r. reflexivity.
    - exists c. auto.
  Qed.

  Lemma bind_from_eq o c : bind_from o c = offs_from o c.
  Proof. revert o; induction c; intros o; cbn; [reflexivity|]. f_equal; auto. Qed.
  Lemma nsum_firstn_S c g x : nth_error c g = Some x -> nsum (firstn (S g) c) = nsum (firstn g c) + x.
  Proof. revert g; induction c as [|y c IH]; intros [|g] H; cbn in *; try discriminate; [injection H as ->; cbn; lia|]. rewrite (IH g H). lia. Qed.
  Lemma nsum_firstn_mono c g h : g <= h -> nsum (firstn g c) <= nsum (firstn h c).
  Proof. revert g h; induction c as [|y c IH]; intros [|g] [|h] H; cbn; try lia. specialize (IH g h). lia. Qed.
  Lemma nsum_firstn_le c g : nsum (firstn g c) <= nsum c.
  Proof. revert g; induction c as [|y c IH]; intros [|g]; cbn; try lia. specialize (IH g). lia. Qed.

  Lemma fill_spec subs counts : Forall host_ok subs -> length counts = G -> nsum counts <= length subs ->
    (forall g, g < G -> nth_error counts g = Some (length (ids g 0 subs))) ->
    exists all szs, fill_from incl (bind_from 0 counts) 0 subs (repeat 0 (length subs), repeat 0 G) = Some (all, szs) /\
      length all = length subs /\ length szs = G /\
      forall g, g < G -> nth_error szs g = Some (length (ids g 0 subs)) /\
        forall k, k < length (ids g 0 subs) -> nth_error all (nsum (firstn g counts) + k) = nth_error (ids g 0 subs) k.
  Proof.
    intros Hh HG Hn HC. rewrite bind_from_eq.
    set (P := fun (pre : list (sub X R)) (st : list nat * list nat) =>
      length (fst st) = length subs /\ length (snd st) = G /\
      forall g, g < G -> nth_error (snd st) g = Some (length (ids g 0 pre)) /\
        forall k, k < length (ids g 0 pre) -> nth_error (fst st) (nsum (firstn g counts) + k) = nth_error (ids g 0 pre) k).
    assert (Hgen : forall post pre st, subs = pre ++ post -> P pre st ->
      exists st', fill_from incl (offs_from 0 counts) (length pre) post st = Some st' /\ P subs st').
    { induction post as [|s post IH]; intros pre st E HP.
      - exists st. split; [reflexivity|]. rewrite app_nil_r in E. rewrite E. exact HP.
      - cbn [fill_from].
        assert (Hs : host_ok s) by (rewrite Forall_forall in Hh; apply Hh; rewrite E; apply in_or_app; right; left; reflexivity).
        assert (Hstep : exists st', push_member incl (offs_from 0 counts) (length pre) s st = Some st' /\ P (pre ++ [s]) st').
        { destruct HP as (H1 & H2 & H3). unfold push_member. destruct (counted incl s) eqn:Ec.
          - pose proof (gi_lt s Hs) as Hg. rewrite !zget_nat by (unfold host_ok in Hs; lia). rewrite zmodify_nat by (unfold host_ok in Hs; lia). fold (gi s).
            rewrite offs_from_nth by lia. cbn [Nat.add]. destruct (H3 (gi s) Hg) as [H4 H5]. rewrite H4.
            assert (Hlt : length (ids (gi s) 0 pre) < length (ids (gi s) 0 subs)).
            { rewrite E, ids_app. cbn [ids]. unfold mem at 1. rewrite Ec, Nat.eqb_refl. cbn [andb]. rewrite app_length. cbn. lia. }
            assert (Hpos : nsum (firstn (gi s) counts) + length (ids (gi s) 0 pre) < length subs).
            { pose proof (nsum_firstn_S counts (gi s) _ (HC (gi s) Hg)). pose proof (nsum_firstn_le counts (S (gi s))). lia. }
            destruct (upd_some (fst st) (nsum (firstn (gi s) counts) + length (ids (gi s) 0 pre)) (length pre)) as [all' HU]; [lia|]. rewrite HU.
            destruct (modify_some (snd st) (gi s) S _ H4) as [szs' HS]. rewrite HS. exists (all', szs'). split; [reflexivity|].
            unfold P. cbn [fst snd]. split; [rewrite (upd_length _ _ _ _ HU); exact H1|]. split; [rewrite (modify_length _ _ _ _ HS); exact H2|].
            intros g Hgg. rewrite (modify_nth _ _ _ _ g HS). destruct (H3 g Hgg) as [H6 H7]. rewrite H6.
            assert (Eg : ids g 0 (pre ++ [s]) = if gi s =? g then ids g 0 pre ++ [length pre] else ids g 0 pre).
            { rewrite ids_app. cbn [ids]. unfold mem. rewrite Ec. cbn [andb Nat.add]. destruct (gi s =? g); [reflexivity|apply app_nil_r]. }
            rewrite Eg, (Nat.eqb_sym g). destruct (Nat.eqb_spec (gi s) g) as [Ee|Ee].
            + subst g. split; [cbn; rewrite app_length; cbn; f_equal; lia|]. intros k Hk. rewrite app_length in Hk. cbn in Hk.
              rewrite (upd_nth _ _ _ _ _ HU). destruct (Nat.eqb_spec (nsum (firstn (gi s) counts) + k) (nsum (firstn (gi s) counts) + length (ids (gi s) 0 pre))) as [Ek|Ek].
              * replace k with (length (ids (gi s) 0 pre)) by lia. rewrite nth_error_app2, Nat.sub_diag by lia. reflexivity.
              * rewrite nth_error_app1 by lia. apply H5. lia.
            + split; [reflexivity|]. intros k Hk. rewrite (upd_other _ _ _ _ _ HU); [apply H7; exact Hk|].
              assert (Hg1 : length (ids g 0 pre) <= length (ids g 0 subs)) by (rewrite E, ids_app, app_length; lia).
              pose proof (nsum_firstn_S counts (gi s) _ (HC (gi s) Hg)). pose proof (nsum_firstn_S counts g _ (HC g Hgg)).
              destruct (Nat.lt_ge_cases g (gi s)) as [Hgl|Hgl].
              * pose proof (nsum_firstn_mono counts (S g) (gi s) ltac:(lia)). lia.
              * pose proof (nsum_firstn_mono counts (S (gi s)) g ltac:(lia)). lia.
          - exists st. split; [reflexivity|]. split; [exact H1|]. split; [exact H2|]. intros g Hg.
            assert (Eg : ids g 0 (pre ++ [s]) = ids g 0 pre).
            { rewrite ids_app. cbn [ids]. unfold mem. rewrite Ec. cbn. apply app_nil_r. }
            rewrite Eg. apply H3; exact Hg. }
        destruct Hstep as (st' & -> & HP'). destruct (IH (pre ++ [s]) st') as (st2 & H1 & H2); [rewrite <- app_assoc; exact E|exact HP'|].
        exists st2. rewrite app_length in H1. cbn in H1. rewrite Nat.add_comm in H1. split; assumption. }
    destruct (Hgen subs [] (repeat 0 (length subs), repeat 0 G) eq_refl) as ([all szs] & H1 & H2 & H3 & H4).
    { split; [apply repeat_length|]. split; [apply repeat_length|]. intros g Hg. split; [apply nth_repeat0; exact Hg|]. intros k Hk. cbn in Hk. lia. }
    exists all, szs. cbn in H1, H2, H3, H4. split; [exact H1|]. auto.
  Qed.

  Lemma build_spec subs : Forall host_ok subs ->
    build_table sort incl nh subs = Some (map (fun g => sort (ids g 0 subs)) (seq 0 G)).
  Proof.
    intros Hh. unfold build_table. destruct (count_spec subs Hh) as (counts & -> & HG & Hn & HC).
    destruct (fill_spec subs counts Hh HG Hn HC) as (all & szs & -> & HL & HS & HV). f_equal.
    rewrite <- (map_map (fun g => ids g 0 subs) sort). f_equal.
    apply nth_error_ext. intros g. unfold view_groups. destruct (Nat.lt_ge_cases g G) as [Hg|Hg].
    - destruct (HV g Hg) as [HV1 HV2].
      assert (E : nth_error (combine (bind_from 0 counts) szs) g = Some (nsum (firstn g counts), length (ids g 0 subs))).
      { apply combine_nth_error; [rewrite bind_from_eq, offs_from_nth by lia; reflexivity|exact HV1]. }
      rewrite (map_nth_error _ _ _ E). cbn [fst snd].
      assert (Eseq : nth_error (seq 0 G) g = Some g).
      { rewrite nth_error_nth' with (d := 0) by (rewrite seq_length; exact Hg). rewrite seq_nth by exact Hg. reflexivity. }
      rewrite (map_nth_error _ _ _ Eseq). f_equal.
      pose proof (nsum_firstn_S counts g _ (HC g Hg)). pose proof (nsum_firstn_le counts (S g)).
      apply nth_error_ext. intros k. destruct (Nat.lt_ge_cases k (length (ids g 0 subs))) as [Hk|Hk].
      + rewrite <- HV2 by exact Hk. rewrite <- (firstn_skipn (nsum (firstn g counts)) all) at 2.
        rewrite nth_error_app2 by (rewrite firstn_length; lia). rewrite firstn_length, Nat.min_l by lia.
        replace (nsum (firstn g counts) + k - nsum (firstn g counts)) with k by lia.
        rewrite <- (firstn_skipn (length (ids g 0 subs)) (skipn (nsum (firstn g counts)) all)) at 2.
        rewrite nth_error_app1; [reflexivity|]. rewrite firstn_length, skipn_length. lia.
      + transitivity (@None nat); [|symmetry]; apply nth_error_None; [rewrite firstn_length; lia|lia].
    - transitivity (@None (list nat)); [|symmetry]; apply nth_error_None; rewrite map_length; [rewrite combine_length; lia|rewrite seq_length; lia].
  Qed.

  Lemma ids_in g i subs k : In k (ids g i subs) <-> exists s, i <= k /\ nth_error subs (k - i) = Some s /\ mem g s = true.
  Proof.
    revert i; induction subs as [|s r IH]; intros i; cbn [ids].
    - split; [intros []|]. intros (s & _ & H & _). destruct (k - i); discriminate.
    - assert (Hr : In k (ids g (S i) r) <-> exists s', S i <= k /\ nth_error r (k - S i) = Some s' /\ mem g s' = true) by apply IH.
      destruct (mem g s) eqn:E.
      + cbn [In]. rewrite Hr. split.
        * intros [<-|(s' & H1 & H2 & H3)]; [exists s; split; [lia|]; rewrite Nat.sub_diag; split; [reflexivity|exact E]|].
          exists s'. split; [lia|]. replace (k - i) with (S (k - S i)) by lia. split; assumption.
        * intros (s' & H1 & H2 & H3). destruct (Nat.eq_dec i k) as [->|Hn]; [left; reflexivity|]. right. exists s'.
          split; [lia|]. replace (k - i) with (S (k - S i)) in H2 by lia. split; assumption.
      + rewrite Hr. split.
        * intros (s' & H1 & H2 & H3). exists s'. split; [lia|]. replace (k - i) with (S (k - S i)) by lia. split; assumption.
        * intros (s' & H1 & H2 & H3). destruct (Nat.eq_dec i k) as [->|Hn].
          -- rewrite Nat.sub_diag in H2. cbn in H2. congruence.
          -- exists s'. split; [lia|]. replace (k - i) with (S (k - S i)) in H2 by lia. split; assumption.
  Qed.
  Lemma ids_NoDup g i subs : NoDup (ids g i subs).
  Proof.
    revert i; induction subs as [|s r IH]; intros i; cbn; [constructor|]. destruct (mem g s); [|apply IH].
    constructor; [|apply IH]. rewrite ids_in. intros (s' & H & _). lia.
  Qed.
End Table.
