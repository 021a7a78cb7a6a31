(** Vocabulary for saved and reloaded catalogues. *)
From Coq Require Import List ZArith.
From Verif.Model Require Import Run Subhalo ParticleExchange.
From Verif.Spec Require Import Query.
Import ListNotations.
Local Open Scope nat_scope.

(** [s'] has the ids [ids] and otherwise all members of [s], except for the attributes of the particles. *)
Definition same_but_particles {X R} (ids : list Z) (s s' : sub X R) : Prop :=
  s' = set_parts (s_parts s') s /\ map fst (s_parts s') = ids.
Definition ids_of {X R} (s : sub X R) : list Z := map fst (s_parts s).

(** The bound particles are particles of the subhalo. *)
Definition bound_inside {X R} (cat : list (list (sub X R))) : Prop :=
  forall c s, In c cat -> In s c -> s_nbound s <= length (s_parts s).

(** Two runs ended in the same way, with related results. *)
Definition same_outcome {A} (P : A -> A -> Prop) (r r' : run A) : Prop :=
  match r, r' with
  | Done a, Done a' => P a a'
  | Crash, Crash => True
  | Running, Running => True
  | _, _ => False
  end.

(** Particle snapshot [snap] serves the ids of the catalogue as property C17 requires: the published ranges locate its particles, their
    ids are distinct and not null, the tables are filled, and all ids of the catalogue lie between the first and last range. *)
Definition readable {X R} (null : Z) (ranges : Z -> list Z) (snaps : Z -> list (snap_proc X)) (snap : Z) (cat : list (list (sub X R))) : Prop :=
  length (snaps snap) = length cat /\ located (ranges snap) (map sp_parts (snaps snap)) /\
  NoDup (map fst (concat (map sp_parts (snaps snap)))) /\ Forall (table_ok null) (snaps snap) /\
  ~ In null (map fst (concat (map sp_parts (snaps snap)))) /\
  exists lo hi, nth_error (ranges snap) 0 = Some lo /\ nth_error (ranges snap) (length cat) = Some hi /\
    forall c s id, In c cat -> In s c -> In id (ids_of s) -> (lo <= id < hi)%Z.
