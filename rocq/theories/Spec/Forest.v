(** Forests of labels: the vocabulary for nested subhalos. *)
From Coq Require Import List ZArith Sorting.Permutation.
Import ListNotations.
Local Open Scope Z_scope.

Inductive tree := Node (i : Z) (ts : list tree).
Definition label (t : tree) : Z := match t with Node i _ => i end.
Definition branches (t : tree) : list tree := match t with Node _ ts => ts end.
(** All labels, parents before their members. *)
Fixpoint nodes (t : tree) : list Z := match t with Node i ts => i :: flat_map nodes ts end.
(** All (parent, member) pairs. *)
Fixpoint edges (t : tree) : list (Z * Z) :=
  match t with Node i ts => map (fun t => (i, label t)) ts ++ flat_map edges ts end.
Fixpoint height (t : tree) : nat :=
  match t with Node _ ts => S (fold_right Nat.max O (map height ts)) end.
(** [at_depth d t i]: label [i] is [d] steps below the root. *)
Fixpoint depths (d : Z) (t : tree) : list (Z * Z) :=
  match t with Node i ts => (i, d) :: flat_map (depths (d + 1)) ts end.

(** The lists given by [members] are those of the tree. *)
Inductive represents (members : Z -> list Z -> Prop) : tree -> Prop :=
| represents_node i ts : members i (map label ts) -> Forall (represents members) ts -> represents members (Node i ts).

(** The lists form a forest on [domain]: every element is in exactly one tree, once. *)
Definition is_forest (members : Z -> list Z -> Prop) (domain : list Z) (ts : list tree) : Prop :=
  Forall (represents members) ts /\ Permutation (flat_map nodes ts) domain.
