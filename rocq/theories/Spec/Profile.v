(** Vocabulary for profiles of (distance, mass) lists. *)
From Coq Require Import List ZArith QArith Qminmax Sorting.Permutation Sorting.Sorted.
Import ListNotations.
Local Open Scope Q_scope.

(** The distance of a particle, not less than the resolution. *)
Definition radius (soft : Q) (p : Q * Q) : Q := Qmax (fst p) soft.
(** The particles within [R], and their mass. *)
Definition inside (soft R : Q) (ps : list (Q * Q)) : list (Q * Q) := filter (fun p => Qle_bool (radius soft p) R) ps.
Definition mass (ps : list (Q * Q)) : Q := fold_right (fun p a => snd p + a) 0 ps.
Definition enclosed (soft R : Q) (ps : list (Q * Q)) : Q := mass (inside soft R ps).
(** The mean density within [R] exceeds [rho] (times 4 pi / 3). *)
Definition overdense (soft rho R : Q) (ps : list (Q * Q)) : Prop := rho * R * R * R < enclosed soft R ps.
(** std::sort by distance. *)
Definition sorts_by_radius (sort : list (Q * Q) -> list (Q * Q)) : Prop :=
  forall l, Permutation (sort l) l /\ StronglySorted (fun a b => fst a <= fst b) (sort l).
(** [R] splits the particles after the first [k]: at most [k] are strictly inside, more than [k] are within. *)
Definition splits (soft R : Q) (k : nat) (ps : list (Q * Q)) : Prop :=
  (length (filter (fun p => negb (Qle_bool R (radius soft p))) ps) <= k < length (inside soft R ps))%nat.
