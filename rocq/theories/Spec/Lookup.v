(** Vocabulary for lookup tables. *)
From Coq Require Import List ZArith.
Import ListNotations.
Local Open Scope Z_scope.

(** [r] is the index stored with key [k] in [kv], or [null] when [k] is not a key. *)
Definition lookup_result (null : Z) (kv : list (Z * Z)) (k r : Z) : Prop :=
  In (k, r) kv \/ (~ In k (map fst kv) /\ r = null).

(** The list is sorted by its first component, equal keys allowed. *)
Definition sorted_by_key {X} (l : list (Z * X)) : Prop :=
  forall i j a b, (i <= j)%nat -> nth_error l i = Some a -> nth_error l j = Some b -> fst a <= fst b.
