(** Which particle leads a subhalo when the particles of a subhalo include those of the smaller ones inside it. *)
From Coq Require Import List ZArith Sorting.Permutation.
From Verif.Model Require Import Subhalo.
From Verif.Spec Require Import Masking.
Import ListNotations.

Section Leading.
  Context {X R : Type}.
  (** The subhalo is in a halo, and a resolved subhalo of the same halo and of higher rank, i.e. a smaller one, has the particle. *)
  Definition in_smaller (cat : list (sub X R)) (s : sub X R) (id : Z) : Prop :=
    s_host s <> (-1)%Z /\ exists u, In u cat /\ s_host u = s_host s /\ (s_rank s < s_rank u)%Z /\ 1 < s_nbound u /\ In id (part_ids u).
  (** The first particle of a resolved subhalo is in no smaller one of its host, unless all its particles are. *)
  Definition led (cat : list (sub X R)) : Prop :=
    forall s p, In s cat -> nth_error (s_parts s) 0 = Some p -> 1 < s_nbound s -> in_smaller cat s (fst p) -> forall q, In q (s_parts s) -> in_smaller cat s (fst q).
  (** The same subhalo but for the order of its particles, its position and its velocity; these are those of the first
      particle, or nothing changes. *)
  Definition repurged (promoted : Z * X -> R -> R) (s o : sub X R) : Prop :=
    exists ps r, o = set_rest r (set_parts ps s) /\ Permutation (s_parts s) ps /\
      (ps = s_parts s /\ r = s_rest s \/ exists p, nth_error ps 0 = Some p /\ r = promoted p (s_rest s)).
End Leading.
