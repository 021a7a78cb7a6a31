(** Which particles belong to a subhalo. *)
From Coq Require Import List ZArith QArith.
From Verif.Model Require Import Subhalo Program.
From Verif.Spec Require Import Masking Program.
Import ListNotations.
Local Open Scope nat_scope.

Section Ownership.
  Context {X R : Type}.
  Variable pmass : Z * X -> Q.
  (** The ids of the particles bound to a subhalo: its first [s_nbound] particles. *)
  Definition bound_ids (s : sub X R) : list Z := firstn (s_nbound s) (part_ids s).
  (** The mass is that of the bound particles, no particle is listed twice, and a subhalo of at most one bound particle has no
      others. *)
  Record owned (s : sub X R) : Prop := {
    ow_mass : s_mass s = fold_right (fun p q => (pmass p + q)%Q) 0%Q (firstn (s_nbound s) (s_parts s));
    ow_once : NoDup (part_ids s);
    ow_single : s_nbound s <= 1 -> length (s_parts s) <= 1 }.
  (** Every particle of the subhalo is bound to it. *)
  Definition whole (s : sub X R) : Prop := s_nbound s = length (s_parts s).
  (** A subhalo has merged into [s] in this snapshot. *)
  Definition receives (snap : Z) (cat : list (sub X R)) (s : sub X R) : Prop :=
    exists d, In d cat /\ s_sink d = s_track s /\ s_snapsink d = snap /\ s_death d = snap /\ s_nbound d <= 1.
  (** No particle is bound to two resolved subhalos of a host, unless one of them received a merged subhalo. *)
  Definition separate (merging : bool) (snap : Z) (cat : list (sub X R)) : Prop :=
    forall s u, In s cat -> In u cat -> s_track s <> s_track u -> s_host s = s_host u -> s_host s <> (-1)%Z -> 1 < s_nbound s -> 1 < s_nbound u ->
      (merging = true -> ~ receives snap cat s /\ ~ receives snap cat u) -> forall id, In id (bound_ids s) -> ~ In id (bound_ids u).
End Ownership.

(** The groups of a snapshot have different numbers, and no group lists a particle twice. *)
Record tidy_groups {X R S E} (g : setup X R S E) (snap : Z) : Prop := {
  tg_numbers : NoDup (map (fun h => g_halo_id g (snd h)) (groups g snap));
  tg_once : forall h, In h (groups g snap) -> NoDup (map fst (fst h)) }.
(** In every snapshot of the run the groups are tidy, and the particles of every snapshot are in the next. *)
Record tidy_input {X R S E} (g : setup X R S E) (n : nat) (start : Z) : Prop := {
  ti_groups : forall snap, (start <= snap < start + Z.of_nat n)%Z -> tidy_groups g snap;
  ti_lasting : forall snap p, (start <= snap < start + Z.of_nat n - 1)%Z -> In p (particles g snap) -> In (fst p) (map fst (particles g (snap + 1))) }.
