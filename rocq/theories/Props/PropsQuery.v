(** Properties of updating particle lists from the snapshot: C16, C17, C18. *)
From Coq Require Import List ZArith Bool Lia Sorting.Sorted Sorting.Permutation.
From Verif.Model Require Import Run Hash ParticleExchange.
From Verif.Spec Require Import Query Exchange.
From Verif.Proofs Require Import RestoreProofs QueryProofs QueryProofs2 QueryProofs3.
Import ListNotations.
Local Open Scope nat_scope.

(** C16: whatever the permutation of target positions, the in-place loop ends (at most [length l] swaps per position)
    and every element stands at its target position. *)
Theorem C16_restore_order : forall (A : Type) (l : list (A * nat)) fuel,
  Permutation (map snd l) (seq 0 (length l)) -> length l <= fuel ->
  exists l', restore_order fuel l = Done l' /\ length l' = length l /\
    forall x o, In (x, o) l -> nth_error l' o = Some (x, o).
Proof. exact @restore_correct. Qed.
Print Assumptions C16_restore_order.
(** Without a permutation the loop may never end: two elements with the same target swap for ever. *)
Theorem C16_duplicate_targets_never_stop : forall fuel, restore_order fuel [(true, 1); (false, 1)] = Running.
Proof.
  assert (H : forall fuel, restore_at fuel 0 [(true, 1); (false, 1)] = Running /\ restore_at fuel 0 [(false, 1); (true, 1)] = Running).
  { induction fuel as [|f [IH1 IH2]]; [split; reflexivity|]. split; cbn; assumption. }
  intros fuel. unfold restore_order. cbn [length restore_from]. rewrite (proj1 (H fuel)). reflexivity.
Qed.
Print Assumptions C16_duplicate_targets_never_stop.
Example C16_witness : Permutation (map snd [(71, 2); (72, 0); (73, 3); (74, 1)]) (seq 0 4) /\
  restore_order 4 [(71, 2); (72, 0); (73, 3); (74, 1)] = Done [(72, 0); (74, 1); (71, 2); (73, 3)].
Proof.
  split; [|reflexivity]. cbn. apply (NoDup_Permutation_bis (l := [2; 0; 3; 1]) (l' := [0; 1; 2; 3])).
  - repeat constructor; cbn; lia.
  - cbn; lia.
  - intros x; cbn; lia.
Qed.

(** C17: for every distribution of a snapshot located by its published ranges and every particle lists with ids inside
    these ranges, the exchange ends without fault and replaces, in every list of every process, each particle by its
    snapshot record (null id when it has none), in place. *)
Theorem C17_query_updates_in_place : forall (X : Type) (null : Z), (null < 0)%Z -> forall chunk, 1 <= chunk ->
  forall (sort_local : list (Z * X * nat) -> list (Z * X * nat)),
  (forall l, Permutation (sort_local l) l) -> (forall l, StronglySorted Z.le (map (fun p => fst (fst p)) (sort_local l))) ->
  forall (sort_roam : list (Z * (X * nat)) -> list (Z * (X * nat))),
  (forall l, Permutation (sort_roam l) l) -> (forall l, StronglySorted Z.le (map fst (sort_roam l))) ->
  forall ranges snaps (halos : list (list (list (Z * X)))),
  length snaps = length halos -> located ranges (map sp_parts snaps) -> NoDup (map fst (concat (map sp_parts snaps))) ->
  Forall (table_ok null) snaps ->
  forall lo hi, nth_error ranges 0 = Some lo -> nth_error ranges (length halos) = Some hi ->
  (forall h l p, In h halos -> In l h -> In p l -> (lo <= fst p < hi)%Z) ->
  exchange null chunk sort_local sort_roam ranges snaps halos = Done (map (map (map (refreshed null (map sp_parts snaps)))) halos).
Proof.
  intros X null Hn chunk Hc sl H1 H2 sr H3 H4 ranges snaps halos HW HL HU HT lo hi Hlo Hhi Hids.
  rewrite (exchange_correct_above null Hn chunk Hc sl H1 H2 sr H3 H4 ranges snaps halos HW HL HU HT lo Hlo).
  - f_equal. apply map_ext_in. intros h Hh. apply map_ext_in. intros l Hl. apply map_ext_in. intros p Hp. unfold refreshed_above.
    destruct (Z.ltb_spec (fst p) lo); [|reflexivity]. specialize (Hids h l p Hh Hl Hp). lia.
  - intros h l p hi' Hh Hl Hp Hhi'. specialize (Hids h l p Hh Hl Hp). assert (hi' = hi) by congruence. lia.
Qed.
Print Assumptions C17_query_updates_in_place.
(** Without the lower bound: ids below the first range keep their old record. *)
Theorem C17_ids_below_the_ranges_keep_their_record : forall (X : Type) (null : Z), (null < 0)%Z -> forall chunk, 1 <= chunk ->
  forall (sort_local : list (Z * X * nat) -> list (Z * X * nat)),
  (forall l, Permutation (sort_local l) l) -> (forall l, StronglySorted Z.le (map (fun p => fst (fst p)) (sort_local l))) ->
  forall (sort_roam : list (Z * (X * nat)) -> list (Z * (X * nat))),
  (forall l, Permutation (sort_roam l) l) -> (forall l, StronglySorted Z.le (map fst (sort_roam l))) ->
  forall ranges snaps (halos : list (list (list (Z * X)))),
  length snaps = length halos -> located ranges (map sp_parts snaps) -> NoDup (map fst (concat (map sp_parts snaps))) ->
  Forall (table_ok null) snaps ->
  forall lo, nth_error ranges 0 = Some lo ->
  (forall h l p hi, In h halos -> In l h -> In p l -> nth_error ranges (length halos) = Some hi -> (fst p < hi)%Z) ->
  exchange null chunk sort_local sort_roam ranges snaps halos =
    Done (map (map (map (refreshed_above null lo (map sp_parts snaps)))) halos).
Proof. exact @exchange_correct_above. Qed.
Print Assumptions C17_ids_below_the_ranges_keep_their_record.
(** C17, with the removal that follows the exchange: each list becomes the snapshot records of its particles, in order,
    without the particles missing from the snapshot. *)
Theorem C17_missing_particles_removed : forall (X : Type) (null : Z) (parts : list (list (Z * X))) (l : list (Z * X)),
  ~ In null (map fst (concat parts)) ->
  exists n, halo_kick null (map (refreshed null parts) l) =
    Some (flat_map (fun p => match record_of parts (fst p) with Some s => [s] | None => [] end) l, n).
Proof.
  intros X null parts l Hn. eexists. rewrite halo_kick_correct. f_equal. f_equal.
  induction l as [|p l IH]; [reflexivity|]. cbn [map filter flat_map]. rewrite IH. unfold refreshed at 1 2, record_of.
  destruct (find _ (concat parts)) as [s|] eqn:E.
  - unfold keep at 1. apply find_some in E as [E1 E2]. destruct (Z.eqb_spec (fst s) null) as [Es|Es]; [|reflexivity].
    exfalso. apply Hn. rewrite <- Es. apply in_map. exact E1.
  - unfold keep at 1. cbn. rewrite Z.eqb_refl. reflexivity.
Qed.
Print Assumptions C17_missing_particles_removed.
(** The ranges published by the redistribution (C11) locate the particles as C17 requires. *)
Theorem C17_ranges_from_redistribution : forall (X : Type) (parts new : list (list (Z * X))) ranges,
  1 <= length parts -> length parts <= length (concat parts) -> redistributed fst parts new ranges -> located ranges new.
Proof. exact @redistributed_located. Qed.
Print Assumptions C17_ranges_from_redistribution.

Fixpoint insert_by {A} (f : A -> Z) (x : A) (l : list A) : list A :=
  match l with [] => [x] | y :: r => if (f x <=? f y)%Z then x :: y :: r else y :: insert_by f x r end.
Definition isort_by {A} (f : A -> Z) (l : list A) : list A := fold_right (insert_by f) [] l.

Local Open Scope Z_scope.
Definition c17_snaps : list (snap_proc Z) :=
  [mksnap [(3, 103); (5, 105)] true [(3, 0); (5, 1)] (mkflat 0 0 0 []);
   mksnap [(9, 109); (8, 108)] false [] (mkflat 2 8 9 [1; 0])].
Definition c17_halos : list (list (list (Z * Z))) := [[[(9, 0); (3, 0); (4, 0)]; [(8, 0)]]; [[]; [(5, 0); (9, 1)]]].
(** Two processes, one with each kind of table; particle 4 is missing. *)
Example C17_witness :
  located [3; 6; 10] (map sp_parts c17_snaps) /\ NoDup (map fst (concat (map sp_parts c17_snaps))) /\
  Forall (table_ok (-1)) c17_snaps /\
  (forall h l p, In h c17_halos -> In l h -> In p l -> 3 <= fst p < 10) /\
  exchange (-1) 2 (isort_by (fun p => fst (fst p))) (isort_by fst) [3; 6; 10] c17_snaps c17_halos =
    Done [[[(9, 109); (3, 103); (-1, 0)]; [(8, 108)]]; [[]; [(5, 105); (9, 109)]]].
Proof.
  split; [|split; [|split; [|split]]].
  - split; [reflexivity|]. split; [repeat constructor; lia|].
    intros [|[|[|i]]] l lo hi x Hl Hlo Hhi Hx; cbn in *; try discriminate; injection Hl as <-; injection Hlo as <-; injection Hhi as <-;
      destruct Hx as [<-|[<-|[<-|[<-|[]]]]]; cbn; split; intros H; intuition (try discriminate; lia).
  - cbn. repeat (apply NoDup_cons; [cbn; lia|]). apply NoDup_nil.
  - repeat constructor; unfold table_ok; cbn.
    + unfold key_le; cbn; lia.
    + exists [(9, 0); (8, 1)]. split; [apply Permutation_refl|reflexivity].
  - intros h l p Hh Hl Hp. cbn in Hh. repeat (destruct Hh as [<-|Hh]; [cbn in Hl; repeat (destruct Hl as [<-|Hl]; [cbn in Hp; repeat (destruct Hp as [<-|Hp]; [cbn; lia|]); destruct Hp|]); destruct Hl|]). destruct Hh.
  - vm_compute. reflexivity.
Qed.
(** Finding: a particle that disappeared and whose id is below the first range survives with stale data. *)
Theorem C17_missing_below_ranges_refuted : exists halos : list (list (list (Z * Z))),
  exchange (-1) 2 (isort_by (fun p => fst (fst p))) (isort_by fst) [3; 6; 10] c17_snaps halos <>
    Done (map (map (map (refreshed (-1) (map sp_parts c17_snaps)))) halos).
Proof. exists [[[(2, 0)]]; []]. vm_compute. discriminate. Qed.
Print Assumptions C17_missing_below_ranges_refuted.
(** Finding: an id beyond the last range ends the program. *)
Theorem C17_id_beyond_ranges_refuted : exists halos : list (list (list (Z * Z))),
  exchange (-1) 2 (isort_by (fun p => fst (fst p))) (isort_by fst) [3; 6; 10] c17_snaps halos = Crash.
Proof. exists [[[(10, 0)]]; []]. vm_compute. reflexivity. Qed.
Print Assumptions C17_id_beyond_ranges_refuted.

(** C18: for every particle list and bound count, the null particles are removed, the others keep their order, the
    particles of the bound prefix that stay form the new bound prefix, and the number of removed ones is returned. *)
Theorem C18_subhalo_removal : forall (X : Type) (null : Z) (l : list (Z * X)) (nbound : nat), (nbound <= length l)%nat ->
  exists l' nb' removed, sub_kick null l nbound = Some (l', nb', removed) /\
    l' = filter (fun p => negb (fst p =? null)) l /\
    firstn nb' l' = filter (fun p => negb (fst p =? null)) (firstn nbound l) /\
    (nb' + length (filter (fun p => (fst p =? null)%Z) (firstn nbound l)) = nbound)%nat /\
    (removed + length l' = length l)%nat.
Proof.
  intros X null l nb H. do 3 eexists. split; [apply sub_kick_correct; exact H|]. split; [reflexivity|]. split; [|split].
  - rewrite <- (firstn_skipn nb l) at 2. rewrite filter_app. fold (keep (X:=X) null). rewrite firstn_app, firstn_all, Nat.sub_diag. cbn. apply app_nil_r.
  - pose proof (filter_split null (firstn nb l)) as HS. rewrite firstn_length in HS. lia.
  - pose proof (filter_split null l). lia.
Qed.
Print Assumptions C18_subhalo_removal.
Theorem C18_halo_removal : forall (X : Type) (null : Z) (l : list (Z * X)),
  halo_kick null l = Some (filter (fun p => negb (fst p =? null)) l, length (filter (fun p => fst p =? null) l)).
Proof. exact @halo_kick_correct. Qed.
Print Assumptions C18_halo_removal.
Example C18_witness : sub_kick (-1) [(4, 0); (-1, 1); (7, 2); (-1, 3); (9, 4); (-1, 5)] 4 = Some ([(4, 0); (7, 2); (9, 4)], 2%nat, 3%nat).
Proof. reflexivity. Qed.
