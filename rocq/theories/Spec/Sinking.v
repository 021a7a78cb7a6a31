(** Sinking and merging of subhalos. *)
From Coq Require Import List ZArith QArith.
From Verif.Model Require Import ListMem Subhalo.
From Verif.Spec Require Import Forest Nesting Masking.
Import ListNotations.
Local Open Scope Z_scope.

Section Sinking.
  Context {X R : Type}.
  Local Notation subs_t := (list (sub X R)).
  (** Whether a subhalo is close enough to the core of another; each given by bound count, particles and coordinates. *)
  Variable near : nat * list (Z * X) * R -> nat * list (Z * X) * R -> bool.
  (** [c] is directly inside [p]: nested in it, or the head of a nest of the halo whose first head is [p]. *)
  Definition inside (heads : list (list nat)) (subs : subs_t) (p c : Z) : Prop :=
    lists subs p c \/ exists h c0 others, nth_error heads h = Some (c0 :: others) /\ p = Z.of_nat c0 /\ In c (map Z.of_nat others).
  (** [above up i d k]: from [i] up [d] steps to [k]. *)
  Inductive above (up : Z -> Z -> Prop) (i : Z) : nat -> Z -> Prop :=
  | above_here : above up i 0 i
  | above_step d m p : above up i d m -> up p m -> above up i (S d) p.
  (** [k] is resolved and near enough to take [i]. *)
  Definition takes (subs : subs_t) (i k : Z) : Prop :=
    exists s u, zget subs i = Some s /\ zget subs k = Some u /\ (1 < s_nbound u)%nat /\ near (s_nbound s, s_parts s, s_rest s) (s_nbound u, s_parts u, s_rest u) = true.
  (** [k] is the nearest subhalo above [i] that takes it. *)
  Definition sinks_by (up : Z -> Z -> Prop) (subs : subs_t) (i k : Z) : Prop :=
    exists d, above up i (S d) k /\ takes subs i k /\ forall d' k', (d' < d)%nat -> above up i (S d') k' -> ~ takes subs i k'.
  Definition sinks_to (heads : list (list nat)) (subs : subs_t) : Z -> Z -> Prop := sinks_by (inside heads subs) subs.
  (** The marks after detection at snapshot [snap]. *)
  Definition detected (snap : Z) (sinks : Z -> Z -> Prop) (i : Z) (s u : sub X R) : Prop :=
    if s_sink s =? -1 then (exists k, sinks i k /\ u = set_sink k snap s) \/ ((forall k, ~ sinks i k) /\ u = s) else u = s.

  (** The subhalo [s] is to be merged; [joins a i j]: the particles of [i] end up in [j]. *)
  Definition sinking (s : sub X R) : Prop := s_sink s <> -1 /\ s_death s = -1.
  Inductive joins (a : subs_t) : Z -> Z -> Prop :=
  | joins_here i : joins a i i
  | joins_step i s j : zget a i = Some s -> sinking s -> (1 < s_nbound s)%nat -> joins a (s_sink s) j -> joins a i j.
  (** What a subhalo that is not merged holds after merging. *)
  Record gathers (a : subs_t) (i : Z) (s u : sub X R) : Prop := {
    ga_parts : exists extra n, u = set_nbound n (set_parts (s_parts s ++ extra) s) /\ NoDup (map fst extra) /\ (forall id, In id (map fst extra) -> ~ In id (part_ids s)) /\
      (forall p, In p extra -> exists k w, joins a k i /\ zget a k = Some w /\ In p (s_parts w));
    ga_all : forall id, In id (part_ids u) <-> exists k w, joins a k i /\ zget a k = Some w /\ In id (part_ids w);
    ga_alone : (forall k, joins a k i -> k = i) -> u = s }.
  Variable pmass : Z * X -> Q.
  (** What remains of a merged subhalo. *)
  Definition remains (snap : Z) (s u : sub X R) : Prop :=
    if (s_nbound s <=? 1)%nat then u = set_death snap s
    else exists p r, s_parts s = p :: r /\ u = set_death snap (set_mass (pmass p + 0)%Q (set_nbound 1 (set_parts [p] s))).
  Definition merged (snap : Z) (a : subs_t) (i : Z) (s u : sub X R) : Prop := (sinking s -> remains snap s u) /\ (~ sinking s -> gathers a i s u).
  (** The subhalos [out] when merging is over; those that received something were unbound again ([U]) and truncated ([tr]). *)
  Variable U : sub X R -> sub X R -> Prop.
  Variable tr : sub X R -> sub X R.
  Definition after_merge (snap : Z) (marked out : subs_t) : Prop := forall i s, zget marked i = Some s -> exists u v, zget out i = Some v /\ merged snap marked i s u /\
    ((exists k, k <> i /\ joins marked k i) -> exists w, U u w /\ v = tr w) /\ ((forall k, joins marked k i -> k = i) -> v = u).
End Sinking.
