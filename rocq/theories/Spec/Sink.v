(** When a subhalo sinks, and how far a subhalo is from a halo in phase space. *)
From Coq Require Import List ZArith QArith Reals Qreals.
From Verif.Model Require Import ListMem Tree Means Subhalo.
From Verif.Spec Require Import Basic Octree Chains Means Sinking.
Import ListNotations.
Local Open Scope Q_scope.

(** The first particles of a subhalo, at most 20, all of them bound. *)
Definition core_of {A} (nbound : nat) (parts : list A) : list A := firstn (Nat.min nbound 20) parts.
(** Centre [c], mean velocity [v] and squared dispersions [s2], [t2] of the particles, whose images are given by [y]. *)
Record core_is (core : list body) (y : body -> vec) (c v : vec) (s2 t2 : Q) : Prop := {
  ci_pos : forall j, is_mean core (fun p => coord j (y p)) (coord j c);
  ci_vel : forall j, is_mean core (fun p => coord j (b_v p)) (coord j v);
  ci_s2 : is_mean core (fun p => gap2 (y p) c) s2;
  ci_t2 : is_mean core (fun p => gap2 (b_v p) v) t2 }.
(** The distance in phase space in units of the dispersions. *)
Definition phase_distance (s2 t2 d2 v2 : Q) : R := (sqrt (Q2R d2) / sqrt (Q2R s2) + sqrt (Q2R v2) / sqrt (Q2R t2))%R.
(** A satellite at [sx], [sv] is close to the core: both dispersions are positive and it is within two units. *)
Definition captured (periodic : bool) (L : Q) (core : list body) (y : body -> vec) (sx sv : vec) : Prop :=
  exists c v s2 t2 d2, core_is core y c v s2 t2 /\ least_distance2 periodic L c sx d2 /\ 0 < s2 /\ 0 < t2 /\
    (phase_distance s2 t2 d2 (gap2 v sv) < 2)%R.
(** Masses that are not negative, not all zero. *)
Definition massive (core : list body) : Prop := (forall p, In p core -> 0 <= b_m p) /\ 0 < wsum b_m core.
(** A core that is compact, in the box and has mass; a satellite in the box. *)
Definition compact (periodic : bool) (L : Q) (core : list body) (y : body -> vec) : Prop :=
  massive core /\ in_box periodic L core /\ unfolds periodic L core y.
Definition boxed (periodic : bool) (L : Q) (x : vec) : Prop := periodic = true -> 0 < L /\ in_domain L x.
(** [p'] is [p] seen in another frame: units [k] of length, [h] of velocity, [mu] of mass, another origin [o] and velocity [w];
    positions are kept modulo the box. *)
Definition moved (periodic : bool) (L k h : Q) (o w x v x' v' : vec) : Prop :=
  forall j, at_image periodic (k * L) (coord j x') (k * coord j x + coord j o) /\ coord j v' == h * coord j v + coord j w.
Definition moved_body (periodic : bool) (L k h mu : Q) (o w : vec) (p p' : body) : Prop :=
  moved periodic L k h o w (b_x p) (b_v p) (b_x p') (b_v p') /\ b_m p' == mu * b_m p.

(** The relative velocity with the expansion along the shortest way, squared. *)
Definition expansion_velocity2 (periodic : bool) (L hz a : Q) (xv xv0 : vec * vec) (r2 : Q) : Prop :=
  exists e, (forall j, least_offset periodic L (coord j (fst xv)) (coord j (fst xv0)) (coord j e)) /\
    r2 == gap2 (vmap2 Qplus (snd xv) (vmap (fun d => hz * a * d) e)) (snd xv0).

Section Captures.
  Context {R : Type}.
  Variables (periodic : bool) (L : Q) (mb_pos mb_vel : R -> vec).
  (** [k] is resolved and has a core close to [i]. *)
  Definition captures (subs : list (sub body R)) (i k : Z) : Prop :=
    exists s u, zget subs i = Some s /\ zget subs k = Some u /\ (1 < s_nbound u)%nat /\
      let core := core_of (s_nbound u) (map snd (s_parts u)) in
      exists y, unfolds periodic L core y /\ captured periodic L core y (mb_pos (s_rest s)) (mb_vel (s_rest s)).
  (** [k] is the nearest such subhalo above [i]. *)
  Definition captured_by (up : Z -> Z -> Prop) (subs : list (sub body R)) (i k : Z) : Prop :=
    exists d, above up i (S d) k /\ captures subs i k /\ forall d' k', (d' < d)%nat -> above up i (S d') k' -> ~ captures subs i k'.
End Captures.
