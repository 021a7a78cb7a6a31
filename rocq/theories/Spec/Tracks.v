(** What a whole run does to the track ids, and what the history fields should contain. *)
From Coq Require Import List ZArith QArith Sorting.Permutation.
From Verif.Model Require Import Subhalo Tracks.
Import ListNotations.
Local Open Scope nat_scope.

Section History.
  Context {X R : Type}.
  (** One snapshot, given the subhalos of every process before it.  Subhalos migrate between processes (or are saved and
      loaded again by another number of processes); every process adds new subhalos behind the old ones; all fields but the
      track ids of the old subhalos may change; then the new tracks are registered. *)
  Definition snapshot_step (before after : list (list (sub X R))) : Prop :=
    exists (moved : list (list (sub X R))) (work : list (list (sub X R) * nat)),
      Permutation (map s_track (concat before)) (map s_track (concat moved)) /\
      Forall2 (fun m w => exists old new, fst w = old ++ new /\ snd w = length new /\ map s_track old = map s_track m) moved work /\
      register work = Some after.
  Inductive history : list (list (sub X R)) -> Prop :=
  | history_start W : history (repeat [] W)
  | history_step before after : history before -> snapshot_step before after -> history after.
End History.

(** One entry of a track's history: snapshot, bound mass, rank. *)
Record entry := mkentry { e_snap : Z; e_mass : Q; e_rank : Z }.
(** [e] is the last entry of [h] satisfying [P]. *)
Definition last_with (P : entry -> Prop) (h : list entry) (e : entry) : Prop :=
  exists before after, h = before ++ e :: after /\ P e /\ Forall (fun e' => ~ P e') after.
Definition largest_mass (h : list entry) (m : Q) : Prop :=
  (forall e, In e h -> (e_mass e <= m)%Q) /\ exists e, In e h /\ (e_mass e == m)%Q.
