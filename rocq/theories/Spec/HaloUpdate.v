(** Vocabulary for the update and distribution of halos. *)
From Coq Require Import List ZArith QArith.
From Verif.Spec Require Import Basic Query.
Import ListNotations.

(** The records of the particles of a list that exist in the snapshot, in the order of the list. *)
Definition present {X} (parts : list (list (Z * X))) (l : list (Z * X)) : list (Z * X) :=
  flat_map (fun p => match record_of parts (fst p) with Some s => [s] | None => [] end) l.

(** The box of side [box] is divided into [d0*d1*d2 = W] equal cells, numbered row by row; position [p] lies in cell [r],
    positions outside the box counting for the nearest cell. *)
Definition in_domain (box : Q) (W : nat) (p : Q * Q * Q) (r : nat) : Prop :=
  exists d0 d1 d2 : nat, (d0 * d1 * d2 = W)%nat /\ exists g0 g1 g2 : Z,
    in_clamped_cell (box / inject_Z (Z.of_nat d0)) (Z.of_nat d0) g0 (fst (fst p)) /\
    in_clamped_cell (box / inject_Z (Z.of_nat d1)) (Z.of_nat d1) g1 (snd (fst p)) /\
    in_clamped_cell (box / inject_Z (Z.of_nat d2)) (Z.of_nat d2) g2 (snd p) /\
    Z.of_nat r = ((g0 * Z.of_nat d1 + g1) * Z.of_nat d2 + g2)%Z.
