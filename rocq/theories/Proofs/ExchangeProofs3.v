From Coq Require Import List ZArith Bool Lia Arith Sorting.Sorted Sorting.Permutation.
From Coq Require Import ZifyBool ZifyNat.
From Verif.Model Require Import ListMem Run Mpi Exchange.
From Verif.Spec Require Import Exchange.
From Verif.Proofs Require Import ListMemProofs MpiProofs ExchangeProofs ExchangeProofs2.
Import ListNotations.
Local Open Scope nat_scope.

Lemma SSorted_lt_of_le (l : list Z) : StronglySorted Z.le l -> NoDup l -> StronglySorted Z.lt l.
Proof.
  induction 1 as [|x l Hs IH Hall]; intros Hnd; [constructor|]. inversion Hnd as [|y r Hn Hr]; subst. constructor; [auto|].
  rewrite Forall_forall in *. intros z Hz. specialize (Hall z Hz). assert (x <> z) by (intros ->; contradiction). lia.
Qed.
Lemma NoDup_map_perm {A B} (f : A -> B) l l' : Permutation l l' -> NoDup (map f l) -> NoDup (map f l').
Proof. intros Hp. apply Permutation_NoDup. apply Permutation_map. exact Hp. Qed.
Lemma concat_map_perm {A} (f : list A -> list A) ls : (forall l, Permutation (f l) l) -> Permutation (concat (map f ls)) (concat ls).
Proof. intros H. induction ls; cbn; [constructor|]. apply Permutation_app; auto. Qed.
Lemma concat_map_map {A B} (f : A -> B) ls : concat (map (map f) ls) = map f (concat ls).
Proof. symmetry. apply concat_map. Qed.
Lemma NoDup_concat_in {A} (ls : list (list A)) l : NoDup (concat ls) -> In l ls -> NoDup l.
Proof.
  induction ls as [|x ls IH]; intros Hn Hin; [destruct Hin|]. cbn in Hn. destruct Hin as [->|Hin].
  - eapply NoDup_app_remove_r; eauto.
  - apply IH; [eapply NoDup_app_remove_l; eauto|exact Hin].
Qed.

(** transposition *)
Lemma flat_swap {A B C} (f : A -> B -> list C) la lb :
  Permutation (concat (map (fun b => concat (map (fun a => f a b) la)) lb)) (concat (map (fun a => concat (map (fun b => f a b) lb)) la)).
Proof.
  revert lb; induction la as [|a la IH]; intros lb.
  - cbn. induction lb; cbn; auto.
  - cbn [map concat]. rewrite <- IH. clear IH.
    induction lb as [|b lb IHb]; [reflexivity|]. cbn [map concat]. rewrite IHb. rewrite <- !app_assoc. apply Permutation_app_head.
    rewrite !app_assoc. apply Permutation_app_tail. apply Permutation_app_comm.
Qed.

Section Slices.
  Context {P : Type}.
  Definition btw (j : nat) (ol : list nat * list P) : list P := between (nth j (fst ol) 0) (nth (S j) (fst ol) 0) (snd ol).
  Lemma slices_eq a b o (l : list P) : slices (a :: b :: o) l =
    if (Nat.leb a b && Nat.leb b (length l))%bool then
      match slices (b :: o) l with Some r => Some (firstn (b - a) (skipn a l) :: r) | None => None end else None.
  Proof. reflexivity. Qed.
  Lemma slices_spec (o : list nat) (l : list P) : (forall j, S j < length o -> nth j o 0 <= nth (S j) o 0) ->
    (forall j, j < length o -> nth j o 0 <= length l) ->
    slices o l = Some (map (fun j => btw j (o, l)) (seq 0 (length o - 1))).
  Proof.
    induction o as [|a o IH]; intros Hm Hl; [reflexivity|]. destruct o as [|b o]; [reflexivity|].
    rewrite slices_eq. pose proof (Hm 0 ltac:(cbn; lia)) as Hab. pose proof (Hl 1 ltac:(cbn; lia)) as Hbl. cbn [nth] in Hab, Hbl.
    destruct (Nat.leb_spec a b); [|lia]. destruct (Nat.leb_spec b (length l)); [|lia]. cbn [andb].
    rewrite IH.
    - cbn [length]. replace (S (S (length o)) - 1) with (S (length o)) by lia. replace (S (length o) - 1) with (length o) by lia.
      cbn [seq map]. f_equal. f_equal. rewrite <- seq_shift, map_map. reflexivity.
    - intros j Hj. apply (Hm (S j)). cbn in *. lia.
    - intros j Hj. apply (Hl (S j)). cbn in *. lia.
  Qed.
  Lemma slices_concat (o : list nat) (l : list P) n : (forall j, j < n -> nth j o 0 <= nth (S j) o 0) ->
    concat (map (fun j => btw j (o, l)) (seq 0 n)) = between (nth 0 o 0) (nth n o 0) l.
  Proof.
    induction n as [|n IH]; intros H; [unfold between; rewrite Nat.sub_diag; reflexivity|].
    rewrite seq_S, map_app, concat_app, IH by (intros; apply H; lia). cbn [map concat plus]. rewrite app_nil_r.
    unfold btw; cbn [fst snd]. symmetry. apply between_app. split; [|apply H; lia].
    clear - H. induction n as [|n IHn]; [lia|]. pose proof (H n ltac:(lia)). assert (nth 0 o 0 <= nth n o 0) by (apply IHn; intros; apply H; lia). lia.
  Qed.
End Slices.

Section Ex.
  Context {P : Type}.
  Variable pid : P -> Z.
  Variable sort : list P -> list P.
  Hypothesis sort_perm : forall l, Permutation (sort l) l.
  Hypothesis sort_sorted : forall l, StronglySorted Z.le (map pid (sort l)).
  Variable parts : list (list P).
  Hypothesis Hnd : NoDup (map pid (concat parts)).
  Let W := length parts.
  Let n := length (concat parts).
  Hypothesis HW : 1 <= W.
  Hypothesis HnW : W <= n.
  Let sorted := map sort parts.
  Let lists := map (map pid) sorted.

  Lemma sort_lt l : NoDup (map pid l) -> StronglySorted Z.lt (map pid (sort l)).
  Proof. intros H. apply SSorted_lt_of_le; [apply sort_sorted|]. eapply NoDup_map_perm; [symmetry; apply sort_perm|exact H]. Qed.

  Lemma concat_lists : Permutation (concat lists) (map pid (concat parts)).
  Proof. unfold lists, sorted. rewrite concat_map_map. apply Permutation_map, concat_map_perm, sort_perm. Qed.
  Lemma lists_length : length (concat lists) = n.
  Proof. rewrite (Permutation_length concat_lists), map_length. reflexivity. Qed.
  Lemma lists_W : length lists = W.
  Proof. unfold lists, sorted. rewrite !map_length. reflexivity. Qed.
  Lemma lists_fine : lists_ok lists.
  Proof.
    split.
    - unfold lists, sorted. rewrite map_map. apply Forall_map. apply Forall_forall. intros l Hl. apply sort_lt.
      apply (NoDup_concat_in (map (map pid) parts)); [rewrite concat_map_map; exact Hnd|apply in_map; exact Hl].
    - eapply Permutation_NoDup; [symmetry; apply concat_lists|exact Hnd].
  Qed.

  Definition close (ol : list nat * list P) : list nat := firstn W (fst ol) ++ [length (snd ol)].
  Lemma close_nth ol j : length (fst ol) = S W -> j < W -> nth j (close ol) 0 = nth j (fst ol) 0.
  Proof. intros Hl Hj. unfold close. rewrite app_nth1 by (rewrite firstn_length; lia). 
    destruct (nth_error (fst ol) j) eqn:E; [|apply nth_error_None in E; lia].
    rewrite (nth_error_nth _ _ 0 E). apply nth_error_nth. rewrite firstn_nth_error by lia. exact E. Qed.
  Lemma close_last ol : length (fst ol) = S W -> nth W (close ol) 0 = length (snd ol).
  Proof. intros Hl. unfold close. rewrite app_nth2; rewrite firstn_length; [|lia]. replace (W - Nat.min W (length (fst ol))) with 0 by lia. reflexivity. Qed.
  Lemma close_length ol : length (fst ol) = S W -> length (close ol) = S W.
  Proof. intros Hl. unfold close. rewrite app_length, firstn_length. cbn. lia. Qed.

  Lemma exchange_correct fuel : n + W < fuel ->
    exists new ranges, exchange_particles pid sort fuel parts = Done (new, ranges) /\ redistributed pid parts new ranges.
  Proof.
    intros Hf. unfold exchange_particles. fold sorted. fold lists.
    destruct (partition_spec fuel lists lists_fine) as (offs & Ep & Hoff); [rewrite lists_W; exact HW|rewrite lists_W, lists_length; exact Hf|].
    rewrite Ep. unfold part_ok in Hoff. rewrite lists_W, lists_length in Hoff. destruct Hoff as (O1 & O2 & O3 & O4).
    set (pairs := combine offs sorted).
    assert (Hls : length sorted = W) by (unfold sorted; rewrite map_length; reflexivity).
    assert (Hlp : length pairs = W) by (unfold pairs; rewrite combine_length; lia).
    assert (Hrow : forall ol, In ol pairs -> length (fst ol) = S W).
    { intros [o l] Hin. apply in_combine_l in Hin. rewrite Forall_forall in O2. apply O2. exact Hin. }
    (* per-pair entries *)
    assert (Hcol : forall j p o l, nth_error pairs p = Some (o, l) -> nth_error (col j offs) p = Some (nth j o 0) /\ nth_error lists p = Some (map pid l)).
    { intros j p o l Hp. apply combine_nth_error_inv in Hp as [Hp1 Hp2]. split.
      - unfold col. rewrite nth_error_map, Hp1. reflexivity.
      - unfold lists. rewrite nth_error_map, Hp2. reflexivity. }
    assert (Hle : forall j ol, j < W -> In ol pairs -> nth j (fst ol) 0 <= length (snd ol)).
    { intros j [o l] Hj Hin. apply In_nth_error in Hin as [p Hp]. destruct (Hcol j p o l Hp) as [H1 H2].
      destruct (O3 j Hj) as (C1 & _). destruct (Forall2_nth _ _ _ _ _ C1 H2) as (q & Hq & Hql).
      rewrite map_length in Hql. cbn. rewrite H1 in Hq. injection Hq as <-. exact Hql. }
    assert (Hmono : forall j ol, S j < W -> In ol pairs -> nth j (fst ol) 0 <= nth (S j) (fst ol) 0).
    { intros j [o l] Hj Hin. apply In_nth_error in Hin as [p Hp]. destruct (Hcol j p o l Hp) as [H1 _]. destruct (Hcol (S j) p o l Hp) as [H2 _].
      pose proof (O4 j (S j) ltac:(lia) Hj) as HF. destruct (Forall2_nth _ _ _ _ _ HF H1) as (q & Hq & Hqle). rewrite H2 in Hq. injection Hq as <-. exact Hqle. }
    assert (Hcm : forall j ol, j < W -> In ol pairs -> nth j (close ol) 0 <= nth (S j) (close ol) 0).
    { intros j ol Hj Hin. rewrite close_nth by auto. destruct (Nat.eq_dec (S j) W) as [->|Hne].
      - rewrite close_last by auto. apply Hle; auto.
      - rewrite close_nth by (auto; lia). apply Hmono; [lia|exact Hin]. }
    assert (Hcl : forall j ol, j <= W -> In ol pairs -> nth j (close ol) 0 <= length (snd ol)).
    { intros j ol Hj Hin. destruct (Nat.eq_dec j W) as [->|Hne]; [rewrite close_last by auto; lia|]. rewrite close_nth by (auto; lia). apply Hle; [lia|exact Hin]. }
    set (cp := map (fun ol => (close ol, snd ol)) pairs).
    assert (Hsent : mapM (fun ol => send_slices (fst ol) (snd ol)) pairs = Some (map (fun ol => map (fun j => btw j ol) (seq 0 W)) cp)).
    { unfold cp. rewrite map_map. apply mapM_eq.
      assert (Hg : forall ps, incl ps pairs -> Forall2 (fun ol st => send_slices (fst st) (snd st) = Some (map (fun j => btw j (close ol, snd ol)) (seq 0 W))) ps ps).
      { induction ps as [|ol ps IH]; intros Hi; constructor; [|apply IH; intros x Hx; apply Hi; right; exact Hx].
        assert (Hin : In ol pairs) by (apply Hi; left; reflexivity). pose proof (Hrow ol Hin) as Hl.
        unfold send_slices. rewrite Hl. replace (S W - 1) with W by lia. rewrite upd_firstn_skipn by lia.
        rewrite (skipn_all2 (fst ol)) by lia. fold (close ol). rewrite slices_spec.
        - rewrite close_length by exact Hl. replace (S W - 1) with W by lia. reflexivity.
        - intros j Hj. rewrite close_length in Hj by exact Hl. apply Hcm; [lia|exact Hin].
        - intros j Hj. rewrite close_length in Hj by exact Hl. apply Hcl; [lia|exact Hin]. }
      apply Hg. apply incl_refl. }
    rewrite Hsent.
    set (recvd := map (fun r => concat (map (btw r) cp)) (seq 0 W)).
    assert (Hrecv : mapM (receive (map (fun ol => map (fun j => btw j ol) (seq 0 W)) cp)) (seq 0 (length parts)) = Some recvd).
    { unfold recvd. fold W. apply mapM_eq.
      assert (Hg : forall l, (forall r, In r l -> r < W) -> Forall2 (fun x st => receive (map (fun ol => map (fun j => btw j ol) (seq 0 W)) cp) st = Some (concat (map (btw x) cp))) l l).
      { induction l as [|r l IH]; intros Hl; constructor; [|apply IH; intros x Hx; apply Hl; right; exact Hx].
        unfold receive. assert (E : mapM (fun row : list (list P) => nth_error row r) (map (fun ol => map (fun j => btw j ol) (seq 0 W)) cp) = Some (map (btw r) cp)).
        { assert (Hr : r < W) by (apply Hl; left; reflexivity). clear - Hr. induction cp as [|ol c IH]; [reflexivity|].
          cbn [map mapM]. rewrite nth_error_map. rewrite (nth_error_nth' _ 0) by (rewrite seq_length; exact Hr). rewrite seq_nth by exact Hr. cbn [option_map plus].
          rewrite IH. reflexivity. }
        rewrite E. reflexivity. }
      apply Hg. intros r Hr. apply in_seq in Hr. lia. }
    rewrite Hrecv. set (new := map sort recvd).
    assert (Hnew : forall r, r < W -> nth_error new r = Some (sort (concat (map (btw r) cp)))).
    { intros r Hr. unfold new, recvd. rewrite !nth_error_map. rewrite (nth_error_nth' _ 0) by (rewrite seq_length; exact Hr). rewrite seq_nth by exact Hr. reflexivity. }
    assert (Hnl : length new = W) by (unfold new, recvd; rewrite !map_length, seq_length; reflexivity).
    assert (Hnew' : forall r l, nth_error new r = Some l -> r < W /\ l = sort (concat (map (btw r) cp))).
    { intros r l Hr. pose proof (nth_error_lt _ _ _ Hr) as H. rewrite Hnl in H. split; [exact H|]. rewrite Hnew in Hr by exact H. congruence. }
    (* permutation *)
    assert (Hperm : Permutation (concat new) (concat parts)).
    { unfold new. rewrite (concat_map_perm sort recvd sort_perm). unfold recvd. rewrite (flat_swap (fun ol r => btw r ol) cp (seq 0 W)).
      assert (E : map (fun a => concat (map (fun b => btw b a) (seq 0 W))) cp = sorted).
      { unfold cp. rewrite map_map. transitivity (map snd pairs).
        - apply map_ext_in. intros ol Hin. rewrite slices_concat by (intros j Hj; apply Hcm; auto).
          rewrite close_last by auto. replace (nth 0 (close ol) 0) with 0.
          + unfold between. rewrite Nat.sub_0_r. cbn. apply firstn_all.
          + rewrite close_nth by (auto; lia). destruct ol as [o l]. apply In_nth_error in Hin as [p Hp]. destruct (Hcol 0 p o l Hp) as [H1 _].
            destruct (O3 0 ltac:(lia)) as (_ & C2 & _). unfold cum in C2. cbn in C2. cbn [fst].
            clear - H1 C2. revert p H1. induction (col 0 offs) as [|a c IH]; intros p H1; [destruct p; discriminate|]. cbn in C2.
            destruct p; cbn in H1; [injection H1 as ->; lia|]. eapply IH; [lia|exact H1].
        - unfold pairs. clear - O1 Hls. rewrite <- Hls in O1. clear Hls. revert O1. generalize sorted. induction offs as [|o os IH]; intros [|s ss] H; cbn in *; try lia; [reflexivity|].
          f_equal. apply IH. lia. }
      rewrite E. unfold sorted. apply concat_map_perm. exact sort_perm. }
    (* columns of the closed table *)
    assert (Hsum : forall j, j <= W -> nsum (map (fun ol => nth j (close ol) 0) pairs) = cum W j n).
    { intros j Hj. destruct (Nat.eq_dec j W) as [->|Hne].
      - rewrite cum_N by lia. rewrite <- lists_length. rewrite concat_length_nsum. f_equal.
        unfold lists. rewrite map_map. transitivity (map (fun ol => length (snd ol)) pairs).
        + apply map_ext_in. intros ol Hin. apply close_last. auto.
        + unfold pairs. clear - O1 Hls. rewrite <- Hls in O1. clear Hls. revert O1. generalize sorted. induction offs as [|o os IH]; intros [|s ss] H; cbn in *; try lia; [reflexivity|].
          rewrite map_length. f_equal. apply IH. lia.
      - destruct (O3 j ltac:(lia)) as (_ & C2 & _). rewrite <- C2. f_equal. unfold col.
        transitivity (map (fun ol => nth j (fst ol) 0) pairs).
        + apply map_ext_in. intros ol Hin. apply close_nth; [auto|lia].
        + unfold pairs. clear - O1 Hls. rewrite <- Hls in O1. clear Hls. revert O1. generalize sorted. induction offs as [|o os IH]; intros [|s ss] H; cbn in *; try lia; [reflexivity|].
          f_equal. apply IH. lia. }
    assert (Hlen : forall r, r < W -> length (concat (map (btw r) cp)) = share n W r).
    { intros r Hr. rewrite concat_length_nsum, map_map. unfold cp. rewrite map_map.
      pose proof (Hsum r ltac:(lia)) as S1. pose proof (Hsum (S r) ltac:(lia)) as S2. rewrite cum_S in S2.
      assert (E : nsum (map (fun ol => length (btw r (close ol, snd ol))) pairs) + nsum (map (fun ol => nth r (close ol) 0) pairs) = nsum (map (fun ol => nth (S r) (close ol) 0) pairs)).
      { assert (Hg : forall ps, incl ps pairs -> nsum (map (fun ol => length (btw r (close ol, snd ol))) ps) + nsum (map (fun ol => nth r (close ol) 0) ps) = nsum (map (fun ol => nth (S r) (close ol) 0) ps)).
        { induction ps as [|ol ps IH]; intros Hi; [reflexivity|]. cbn [map nsum].
          assert (Hin : In ol pairs) by (apply Hi; left; reflexivity).
          specialize (IH (fun x Hx => Hi x (or_intror Hx))).
          pose proof (Hcm r ol Hr Hin). pose proof (Hcl (S r) ol ltac:(lia) Hin).
          unfold btw at 1, between. cbn [fst snd]. rewrite firstn_length, skipn_length. lia. }
        apply Hg. apply incl_refl. }
      unfold share. fold (cnt_at W r n). lia. }
    assert (Hord : forall r r' x y, r < r' -> r' < W -> In x (concat (map (btw r) cp)) -> In y (concat (map (btw r') cp)) -> (pid x < pid y)%Z).
    { intros r r' x y Hrr Hr' Hx Hy.
      apply in_concat in Hx as (lx & Hlx & Hx). apply in_map_iff in Hlx as (olx & <- & Hlx). unfold cp in Hlx. apply in_map_iff in Hlx as ([o l] & <- & Hin).
      apply in_concat in Hy as (ly & Hly & Hy). apply in_map_iff in Hly as (oly & <- & Hly). unfold cp in Hly. apply in_map_iff in Hly as ([o' l'] & <- & Hin').
      unfold btw, between in Hx, Hy. cbn [fst snd] in Hx, Hy.
      assert (Hm' : forall k, r' + k <= W -> nth r' (close (o', l')) 0 >= nth r' (close (o', l')) 0) by (intros; lia). clear Hm'.
      assert (Hxf : In x (firstn (nth (S r) (close (o, l)) 0) l)).
      { pose proof (Hcm r (o, l) ltac:(lia) Hin) as Hc. set (a := nth r (close (o, l)) 0) in *. set (b := nth (S r) (close (o, l)) 0) in *.
        replace b with (a + (b - a)) by lia. clear - Hx. clearbody a b. revert Hx. generalize (b - a). intros k.
        revert l. induction a as [|a IH]; intros l Hx; cbn in *; [exact Hx|].
        destruct l as [|z l]; cbn in *; [rewrite firstn_nil in Hx; exact Hx|]. right. apply IH. exact Hx. }
      assert (Hys : In y (skipn (nth (S r) (close (o', l')) 0) l')).
      { assert (Hc : nth (S r) (close (o', l')) 0 <= nth r' (close (o', l')) 0).
        { clear - Hcm Hrr Hr' Hin'. induction Hrr as [|r' H IH]; [lia|]. pose proof (Hcm r' (o', l') ltac:(lia) Hin'). assert (r' < W) by lia. specialize (IH H1). lia. }
        set (a := nth (S r) (close (o', l')) 0) in *. set (b := nth r' (close (o', l')) 0) in *.
        assert (Hy' : In y (skipn b l')). { rewrite <- (firstn_skipn (nth (S r') (close (o', l')) 0 - b) (skipn b l')). apply in_or_app. left; exact Hy. }
        replace b with (a + (b - a)) in Hy' by lia. rewrite <- skipn_skipn in Hy'.
        rewrite <- (firstn_skipn (b - a) (skipn a l')). apply in_or_app. right; exact Hy'. }
      rewrite close_nth in Hxf by (try (apply (Hrow (o, l)); exact Hin); lia).
      rewrite close_nth in Hys by (try (apply (Hrow (o', l')); exact Hin'); lia). cbn [fst] in Hxf, Hys.
      apply In_nth_error in Hin as [p Hp]. apply In_nth_error in Hin' as [p' Hp'].
      destruct (Hcol (S r) p o l Hp) as [A1 A2]. destruct (Hcol (S r) p' o' l' Hp') as [B1 B2].
      destruct (O3 (S r) ltac:(lia)) as (_ & _ & C3).
      apply (C3 p p' _ _ _ _ (pid x) (pid y) A2 B2 A1 B1); [rewrite firstn_map|rewrite skipn_map]; apply in_map; assumption. }
    assert (Hinnew : forall r l x, nth_error new r = Some l -> In x l -> In x (concat (map (btw r) cp)) /\ r < W).
    { intros r l x Hr Hx. destruct (Hnew' r l Hr) as [H ->]. split; [|exact H]. eapply Permutation_in; [apply sort_perm|exact Hx]. }
    assert (Hord' : forall i j l l' x y, nth_error new i = Some l -> nth_error new j = Some l' -> i < j -> In x l -> In y l' -> (pid x < pid y)%Z).
    { intros i j l l' x y Hi Hj Hij Hx Hy. destruct (Hinnew i l x Hi Hx). destruct (Hinnew j l' y Hj Hy). apply (Hord i j); auto. }
    assert (Hsrt : forall i l, nth_error new i = Some l -> StronglySorted Z.lt (map pid l)).
    { intros i l Hi. apply SSorted_lt_of_le.
      - destruct (Hnew' i l Hi) as [_ ->]. apply sort_sorted.
      - apply (NoDup_concat_in (map (map pid) new)); [|apply in_map; eapply nth_error_In; eauto].
        rewrite concat_map_map. eapply NoDup_map_perm; [symmetry; exact Hperm|exact Hnd]. }
    assert (Hlen' : forall i l, nth_error new i = Some l -> length l = share n W i).
    { intros i l Hi. destruct (Hnew' i l Hi) as [H ->]. rewrite (Permutation_length (sort_perm _)). apply Hlen. exact H. }
    assert (Hpos : forall i l, nth_error new i = Some l -> 1 <= length l).
    { intros i l Hi. rewrite (Hlen' i l Hi). unfold share. pose proof (Nat.div_le_mono W n W ltac:(lia) HnW). rewrite Nat.div_same in H by lia. lia. }
    (* first and last elements *)
    assert (Hfr : forall k, (forall i l, nth_error new i = Some l -> k l < length l) ->
      exists xs, mapM (fun l => nth_error l (k l)) new = Some xs /\ Forall2 (fun l x => nth_error l (k l) = Some x) new xs).
    { intros k Hk. assert (HF2 : Forall2 eq new new) by (clear; induction new; constructor; auto).
      apply (mapM_Forall2 eq _ _ new new HF2). intros l l' Hl ->. apply In_nth_error in Hl as [i Hi]. destruct (nth_error_in_range l' (k l')) as [x Hx]; [eapply Hk; eauto|]. eauto. }
    destruct (Hfr (fun _ => 0)) as (fs & Efs & HFf); [intros i l Hi; specialize (Hpos i l Hi); lia|].
    destruct (Hfr (fun l => length l - 1)) as (ls & Els & HFl); [intros i l Hi; specialize (Hpos i l Hi); lia|].
    rewrite Efs, Els. fold W.
    destruct (nth_error_in_range ls (W - 1)) as [q Hq]; [rewrite <- (Forall2_length_eq _ _ _ HFl), Hnl; lia|]. rewrite Hq.
    exists new, (map pid fs ++ [(pid q + 1)%Z]). split; [reflexivity|].
    assert (Hlf : length fs = W) by (rewrite <- (Forall2_length_eq _ _ _ HFf); exact Hnl).
    split; [exact Hnl|]. split; [exact Hperm|]. split; [exact Hlen'|]. split; [exact Hsrt|]. split; [exact Hord'|].
    split; [rewrite app_length, map_length, Hlf; cbn; fold W; lia|].
    intros i l lo hi x Hi Hlo Hhi Hx.
    assert (HiW : i < W) by (apply nth_error_lt in Hi; lia).
    (* the lower bound is the first id of process i *)
    destruct (Forall2_nth _ _ _ _ _ HFf Hi) as (f & Hf1 & Hf2).
    assert (Elo : lo = pid f).
    { rewrite nth_error_app1 in Hlo by (rewrite map_length; lia). rewrite nth_error_map, Hf1 in Hlo. injection Hlo as <-. reflexivity. }
    subst lo.
    assert (Hfirst : forall y, In y l -> (pid f <= pid y)%Z).
    { intros y Hy. destruct l as [|z l0]; [destruct Hy|]. cbn in Hf2. injection Hf2 as ->. destruct Hy as [->|Hy]; [lia|].
      specialize (Hsrt i _ Hi). cbn in Hsrt. inversion Hsrt as [|a b Hs' Hall]; subst. rewrite Forall_forall in Hall. specialize (Hall (pid y) (in_map _ _ _ Hy)). lia. }
    assert (Hfin : In f l) by (eapply nth_error_In; exact Hf2).
    (* upper bound *)
    assert (Hup : forall j l' y, nth_error new j = Some l' -> In y l' -> (j <= i -> (pid y < hi)%Z) /\ (i < j -> (hi <= pid y)%Z)).
    { intros j l' y Hj Hy. destruct (Nat.eq_dec (S i) W) as [Elast|Hnl'].
      - rewrite nth_error_app2 in Hhi by (rewrite map_length; lia). rewrite map_length, Hlf, Elast, Nat.sub_diag in Hhi. cbn in Hhi. injection Hhi as <-.
        replace (W - 1) with i in Hq by lia. destruct (Forall2_nth_r _ _ _ _ _ HFl Hq) as (l2 & Hl2 & Hq2).
        assert (l2 = l) by congruence. subst l2. split; [|intros Hij; apply nth_error_lt in Hj; lia]. intros Hij.
        destruct (Nat.eq_dec j i) as [->|Hne].
        + assert (l' = l) by congruence. subst l'. specialize (Hsrt i l Hi).
          apply In_nth_error in Hy as [k Hk]. destruct (Nat.eq_dec k (length l - 1)) as [->|Hk'].
          * assert (y = q) by congruence. subst y. lia.
          * assert (k < length l - 1) by (apply nth_error_lt in Hk; lia).
            pose proof (sorted_split Z.lt (map pid l) (length l - 1) (pid y) (pid q) Hsrt) as Hlt.
            assert (pid y < pid q)%Z; [|lia]. apply Hlt.
            -- apply nth_error_In with k. rewrite firstn_nth_error by lia. rewrite nth_error_map, Hk. reflexivity.
            -- apply nth_error_In with 0. rewrite skipn_nth_error, Nat.add_0_r, nth_error_map, Hq2. reflexivity.
        + assert (pid y < pid q)%Z; [|lia]. apply (Hord' j i l' l); auto; [lia|]. eapply nth_error_In; exact Hq2.
      - rewrite nth_error_app1 in Hhi by (rewrite map_length; lia). rewrite nth_error_map in Hhi. destruct (nth_error fs (S i)) as [f'|] eqn:Ef'; [|discriminate].
        injection Hhi as <-. destruct (Forall2_nth_r _ _ _ _ _ HFf Ef') as (l2 & Hl2 & Hf'2). split; intros Hij.
        + apply (Hord' j (S i) l' l2); auto; [lia|]. eapply nth_error_In; exact Hf'2.
        + destruct (Nat.eq_dec j (S i)) as [->|Hne].
          * assert (l' = l2) by congruence. subst l'. destruct l2 as [|z l0]; [destruct Hy|]. cbn in Hf'2. injection Hf'2 as ->. destruct Hy as [->|Hy]; [lia|].
            specialize (Hsrt (S i) _ Hl2). cbn in Hsrt. inversion Hsrt as [|a b Hs' Hall]; subst. rewrite Forall_forall in Hall. specialize (Hall (pid y) (in_map _ _ _ Hy)). lia.
          * assert (pid f' < pid y)%Z; [|lia]. apply (Hord' (S i) j l2 l'); auto; [lia|]. eapply nth_error_In; exact Hf'2. }
    split.
    - intros Hxl. split; [apply Hfirst; exact Hxl|]. apply (Hup i l x Hi Hxl). lia.
    - intros [Hlo' Hhi']. apply (Permutation_in _ (Permutation_sym Hperm)) in Hx.
      apply in_concat in Hx as (l' & Hl' & Hx). apply In_nth_error in Hl' as [j Hj].
      destruct (Nat.lt_trichotomy i j) as [Hij|[<-|Hij]].
      + pose proof (proj2 (Hup j l' x Hj Hx) Hij). lia.
      + assert (l' = l) by congruence. subst l'. exact Hx.
      + pose proof (Hord' j i l' l x f Hj Hi Hij Hx Hfin). lia.
  Qed.
End Ex.
