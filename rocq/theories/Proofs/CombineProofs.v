(** Proofs for toolbox/combineSubSnap.py. *)
From Coq Require Import List ZArith Lia Sorting.Sorted Sorting.Permutation.
From Verif.Model Require Import Mpi ListMem Subhalo Catalogue Combine.
From Verif.Spec Require Import Catalogue Combine.
From Verif.Proofs Require Import MpiProofs ApostleProofs ApostleProofs2 CatalogueProofs InclusiveRun.
Import ListNotations.
Local Open Scope nat_scope.

(** The rows in the order of an [argsort]: position [j] of the result is the row with track [j]. *)
Lemma sorted_rows {A} (key : A -> Z) (l ss : list A) : Permutation (map key l) (map Z.of_nat (seq 0 (length l))) -> Permutation l ss ->
  StronglySorted (fun a b => (key a <= key b)%Z) ss -> map key ss = map Z.of_nat (seq 0 (length l)).
Proof.
  intros HP HQ HS. apply (sorted_unique (fun z => z)).
  - rewrite <- HQ. exact HP.
  - clear -HS. induction HS as [|a r HS IH HF]; cbn [map]; constructor; [exact IH|]. apply Forall_forall. intros x Hx. apply in_map_iff in Hx as (y & <- & Hy). rewrite Forall_forall in HF. exact (HF y Hy).
  - clear. generalize 0 at 1. induction (length l) as [|n IH]; intros a; cbn [seq map]; constructor; [apply IH|]. apply Forall_forall. intros x Hx. apply in_map_iff in Hx as (y & <- & Hy). apply in_seq in Hy. lia.
Qed.
Lemma taken_sorted {A} (le : A -> A -> Prop) (l : list A) order : forall ss, mapM (nth_error l) order = Some ss ->
  StronglySorted (fun i j => forall s t, nth_error l i = Some s -> nth_error l j = Some t -> le s t) order -> StronglySorted le ss.
Proof.
  induction order as [|i r IH]; intros ss E HS; cbn [mapM] in E; [injection E as <-; constructor|].
  destruct (nth_error l i) as [a|] eqn:Ea; [|discriminate]. destruct (mapM (nth_error l) r) as [ss'|] eqn:Er; [|discriminate]. injection E as <-.
  apply StronglySorted_inv in HS as [HS HF]. constructor; [exact (IH ss' eq_refl HS)|]. rewrite Forall_forall in *. intros b Hb.
  apply In_nth_error in Hb as [k Hk]. assert (Lk : k < length r) by (rewrite <- (mapM_length _ _ _ Er); apply nth_error_Some; congruence).
  destruct (nth_error r k) as [j|] eqn:Ej; [|apply nth_error_None in Ej; lia]. destruct (mapM_nth _ _ _ _ _ Er Ej) as (y & Hy & Hk'). rewrite Hk in Hk'. injection Hk' as ->.
  exact (HF j (nth_error_In _ _ Ej) a y Ea Hy).
Qed.

Section Combine.
  Context {X R : Type}.
  Variable argsort : list (sub X R) -> list nat.
  Hypothesis Hsort : sorts_tracks argsort.
  Variables (null : Z) (mbid : Z -> R -> R) (snapid : Z -> Z).
  Local Notation duplicate := (duplicate null mbid).

  Lemma taken_row {A B} (l : list A) (l' : list B) order ss ss' i a b j : mapM (nth_error l) order = Some ss -> mapM (nth_error l') order = Some ss' ->
    nth_error order j = Some i -> nth_error l i = Some a -> nth_error l' i = Some b -> nth_error ss j = Some a /\ nth_error ss' j = Some b.
  Proof.
    intros E E' Ej Ea Eb. destruct (mapM_nth _ _ _ _ _ E Ej) as (y & Hy & Hj). destruct (mapM_nth _ _ _ _ _ E' Ej) as (y' & Hy' & Hj'). split; congruence.
  Qed.

  Lemma combined_ok snap d (raw : list (list (sub X R))) : raw <> [] ->
    holds null mbid snapid snap 0 (length raw) (nsum (map (@length _) raw)) raw d d ->
    Permutation (map s_track (concat raw)) (map Z.of_nat (seq 0 (length (concat raw)))) ->
    (concat raw = [] -> combine_snap argsort d snap = None) /\
    (concat raw <> [] -> exists out, combine_snap argsort d snap = Some out /\ c_snapid out = snapid snap /\ combines (map (map duplicate) raw) out).
  Proof using Hsort.
    intros H0 [_ HH] HT. destruct raw as [|c0 raw']; [contradiction|]. set (raw := c0 :: raw') in *.
    destruct (HH 0 c0 eq_refl) as [E0 _]. cbn [Nat.add] in E0.
    set (img := sub_image null mbid snapid snap (length raw) (nsum (map (@length _) raw))) in *.
    assert (EF : mapM (d_sub d snap) (seq 0 (length raw)) = Some (map img raw)) by (apply mapM_indexed; intros i x Hx; exact (proj1 (HH i x Hx))).
    set (L := concat raw) in *.
    assert (ES : concat (map f_subs (map img raw)) = map scalars (map duplicate L)) by (unfold L; rewrite !concat_map, !map_map; f_equal; apply map_ext; intros c; reflexivity).
    assert (EI : concat (map f_ids (map img raw)) = map (fun s => firstn (s_nbound s) (ids_of s)) L) by (unfold L; rewrite !concat_map, !map_map; f_equal).
    assert (EN : concat (map f_nests (map img raw)) = map s_nest L) by (unfold L; rewrite !concat_map, !map_map; f_equal).
    destruct (Hsort (map scalars (map duplicate L))) as [HP HS]. set (order := argsort (map scalars (map duplicate L))) in *. rewrite !map_length in HP.
    destruct (picked (map scalars (map duplicate L)) order) as (ss & Ess & Pss); [rewrite !map_length; exact HP|].
    destruct (picked (map (fun s => firstn (s_nbound s) (ids_of s)) L) order) as (is & Eis & Pis); [rewrite map_length; exact HP|].
    destruct (picked (map s_nest L) order) as (ns & Ens & Pns); [rewrite map_length; exact HP|].
    assert (Ls : length ss = length L) by (rewrite <- (Permutation_length Pss), !map_length; reflexivity).
    assert (Li : length is = length L) by (rewrite <- (Permutation_length Pis), !map_length; reflexivity).
    assert (Ln : length ns = length L) by (rewrite <- (Permutation_length Pns), !map_length; reflexivity).
    assert (EC : combine_snap argsort d snap = match is, ns with _ :: _, _ :: _ => Some (mkcombined (snapid snap) ss is ns) | _, _ => None end).
    { unfold combine_snap. rewrite E0. cbn [img sub_image f_nfiles f_snapid]. rewrite Nat2Z.id, EF. cbv zeta. rewrite ES. fold order. unfold write_vlen, take. rewrite EI, EN, Ess, Eis, Ens. destruct is, ns; reflexivity. }
    rewrite EC. split; intros HL.
    - rewrite HL in Li. destruct is; [reflexivity|discriminate].
    - destruct is as [|i0 is0]; [destruct L; [contradiction|discriminate]|]. destruct ns as [|n0 ns0]; [destruct L; [contradiction|discriminate]|].
      set (is := i0 :: is0) in *. set (ns := n0 :: ns0) in *.
      eexists. split; [reflexivity|]. split; [reflexivity|].
      assert (ECL : concat (map (map duplicate) raw) = map duplicate L) by (unfold L; rewrite concat_map; reflexivity).
      unfold combines. cbn [c_subs c_ids c_nests]. rewrite ECL, map_length. split; [|auto].
      assert (HK : map s_track ss = map Z.of_nat (seq 0 (length L))).
      { pose proof (sorted_rows s_track (map scalars (map duplicate L)) ss) as G. rewrite !map_length in G. apply G; [|exact Pss|].
        - rewrite !map_map. exact HT.
        - exact (taken_sorted _ _ _ _ Ess HS). }
      rewrite Forall_map. apply Forall_forall. intros s Hs. apply In_nth_error in Hs as [i Hi].
      assert (Hio : In i order). { apply (Permutation_in _ (Permutation_sym HP)). apply in_seq. split; [lia|]. apply nth_error_Some. congruence. }
      apply In_nth_error in Hio as [j Hj].
      destruct (taken_row _ _ _ _ _ _ _ _ _ Ess Eis Hj (map_nth_error _ _ _ (map_nth_error _ _ _ Hi)) (map_nth_error _ _ _ Hi)) as [Rs Ri].
      destruct (taken_row _ _ _ _ _ _ _ _ _ Ess Ens Hj (map_nth_error _ _ _ (map_nth_error _ _ _ Hi)) (map_nth_error _ _ _ Hi)) as [_ Rn].
      assert (Lj : j < length L) by (rewrite <- Ls; apply nth_error_Some; congruence).
      assert (Ht : s_track s = Z.of_nat j).
      { pose proof (map_nth_error s_track _ _ Rs) as G. rewrite HK in G. rewrite (map_nth_error Z.of_nat j (seq 0 (length L)) (d := j)) in G by (rewrite (nth_error_nth' _ 0) by (rewrite seq_length; lia); rewrite seq_nth by lia; reflexivity). injection G as G. cbn in G. destruct s; cbn in *. lia. }
      constructor; cbn [c_subs c_ids c_nests].
      + destruct s; cbn in *. lia.
      + replace (Z.to_nat (s_track (duplicate s))) with j by (destruct s; cbn in *; lia). exact Rs.
      + replace (Z.to_nat (s_track (duplicate s))) with j by (destruct s; cbn in *; lia). etransitivity; [exact Ri|]. f_equal. unfold ids_of. destruct s; apply firstn_map.
      + replace (Z.to_nat (s_track (duplicate s))) with j by (destruct s; cbn in *; lia). etransitivity; [exact Rn|]. destruct s; reflexivity.
  Qed.
End Combine.
