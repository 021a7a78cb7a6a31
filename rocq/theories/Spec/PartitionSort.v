(** What it means that an array is partitioned at its k-th element. *)
From Coq Require Import List ZArith Sorting.Permutation.
Import ListNotations.
(** [arr] with [v] at position [k] (from 1): what is before it is not larger, what is after it is not smaller. *)
Definition partitioned (k : nat) (v : Z) (arr : list Z) : Prop := exists pre post,
  arr = pre ++ v :: post /\ S (length pre) = k /\ Forall (fun x => (x <= v)%Z) pre /\ Forall (fun x => (v <= x)%Z) post.
