(** The partition sort of src/mymath.cpp: C94. *)
From Coq Require Import List ZArith Lia Sorting.Permutation Sorting.Sorted.
From Verif.Model Require Import ListMem Run PartitionSort.
From Verif.Spec Require Import PartitionSort.
From Verif.Proofs Require Import PartitionSortProofs.
Import ListNotations.

(** C94: for every array and every k from 1 to its length, [psort] ends without reading or writing outside the array,
    rearranges the array so that the elements before position k are not larger and those after it not smaller than the one
    at k, and returns that element, which is the k-th in the sorted array. *)
Theorem C94_selects : forall (k : nat) (arr : list Z) (fuel : nat), (1 <= k <= length arr)%nat -> (length arr <= fuel)%nat ->
  exists x arr', psort fuel (Z.of_nat k) (Z.of_nat (length arr)) arr = Done (x, arr') /\ Permutation arr' arr /\ partitioned k x arr' /\
    forall s, Permutation s arr -> StronglySorted Z.le s -> nth_error s (k - 1) = Some x.
Proof.
  intros k arr fuel Hk Hf. destruct (psort_ok k arr fuel Hk Hf) as (x & arr' & E & P & H). exists x, arr'. split; [exact E|]. split; [exact P|]. split; [exact H|].
  intros s Hs HS. apply (partitioned_kth k x arr' s H); [rewrite Hs, P; reflexivity|exact HS].
Qed.
Print Assumptions C94_selects.

(** Eleven elements with repetitions, the fourth smallest. *)
Example C94_witness : exists arr', psort 11 4 11 [5; 3; 9; 3; 7; 1; 3; 8; 2; 9; 5]%Z = Done (3%Z, arr') /\ arr' <> [5; 3; 9; 3; 7; 1; 3; 8; 2; 9; 5]%Z /\ partitioned 4 3 arr'.
Proof.
  eexists. split; [vm_compute; reflexivity|]. split; [discriminate|].
  destruct (psort_ok 4 [5; 3; 9; 3; 7; 1; 3; 8; 2; 9; 5]%Z 11) as (x & a & E & _ & H); [cbn; lia|cbn; lia|]. vm_compute in E. injection E as <- <-. exact H.
Qed.
