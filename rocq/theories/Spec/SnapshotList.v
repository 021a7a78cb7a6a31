(** What a list of snapshots should be, and the library functions used to make it. *)
From Coq Require Import List ZArith Sorting.Sorted Sorting.Permutation.
Import ListNotations.

(** The library functions. *)
Definition sorts_index (sort : list nat -> list nat) : Prop := forall l, Permutation (sort l) l /\ StronglySorted le (sort l).
(** A stable sort with decreasing keys: elements with the same key stay in their order. *)
Definition sorts_reverse {A} (key : A -> Z) (sort : list A -> list A) : Prop := forall l,
  Permutation (sort l) l /\ StronglySorted (fun a b => (key b <= key a)%Z) (sort l) /\
  forall z, filter (fun a => Z.eqb (key a) z) (sort l) = filter (fun a => Z.eqb (key a) z) l.
Definition first_indices (unique : list Z -> list nat) : Prop := forall l, NoDup (unique l) /\
  forall i, In i (unique l) <-> exists z, nth_error l i = Some z /\ forall j, j < i -> nth_error l j <> Some z.

(** [l] arises from [src] by leaving out elements. *)
Inductive sublist {A} : list A -> list A -> Prop :=
| sub_nil : sublist [] []
| sub_skip a l src : sublist l src -> sublist l (a :: src)
| sub_keep a l src : sublist l src -> sublist (a :: l) (a :: src).
(** The first of the elements with each key, in the order of [src]. *)
Definition firsts {A} (key : A -> Z) (src l : list A) : Prop := sublist l src /\ NoDup (map key l) /\
  forall x, In x src -> exists pre y post, src = pre ++ y :: post /\ key y = key x /\ In y l /\ forall w, In w pre -> key w <> key x.
