(** Model of the two phase-space distances: SinkDistance (src/subhalo_merge.cpp:11-12, 128-133), which decides whether a subhalo
    sinks, and KineticDistance (src/subhalo_tracking.cpp:22-27), which decides the central.  Model/Merge.v and Model/Subhalo.v
    leave them open as [near] and [dist].  Numbers are exact; comparisons of roots are decided by squaring, so that no root is
    taken. *)
From Coq Require Import List ZArith QArith Bool.
From Verif.Model Require Import Mymath Tree Means Subhalo.
Import ListNotations.
Local Open Scope Q_scope.

(** src/subhalo_merge.cpp:12: DeltaCrit. *)
Definition delta_crit : Q := 2.
(** Whether the sum of the roots of [a] and [b] is below [c], for [a], [b], [c] not negative. *)
Definition roots_below (c a b : Q) : bool :=
  let rest := c * c - a - b in negb (Qle_bool rest 0) && negb (Qle_bool (rest * rest) (4 * (a * b))).
(** src/mymath.h:176-183 [Distance2]. *)
Definition distance2 (x y : vec) : Q := norm2 (vmap2 Qminus x y).
(** src/subhalo_merge.cpp:128-133, 150-151 [SinkDistance](...)<DeltaCrit: the helper of a host with [nbound] of its particles
    [parts] bound, and the most bound position and velocity [sx], [sv] of the satellite.  A dispersion that is 0 gives an infinite
    distance or NaN, a massless core NaN: the comparison fails.  Nbound beyond the particles is excluded elsewhere (C34). *)
Definition sinks_into (periodic : bool) (L : Q) (parts : list body) (nbound : nat) (sx sv : vec) : bool :=
  match build_position periodic L parts nbound (0, 0, 0), build_velocity parts nbound (0, 0, 0) with
  | Some (x, s2), Some (v, t2) =>
      if Qeq_bool s2 0 || Qeq_bool t2 0 then false
      else roots_below delta_crit (periodic_distance2 periodic L x sx / s2) (distance2 v sv / t2)
  | _, _ => false
  end.

Section Near.
  Context {R : Type}.
  Variables (periodic : bool) (L : Q).
  (** ComovingMostBoundPosition and PhysicalMostBoundVelocity. *)
  Variables (mb_pos mb_vel : R -> vec).
  (** The argument [near] of Model/Merge.v: satellite and host. *)
  Definition sink_near (sat host : nat * list (Z * body) * R) : bool :=
    let '(_, _, r) := sat in let '(nbound, parts, _) := host in
    sinks_into periodic L (map snd parts) nbound (mb_pos r) (mb_vel r).
End Near.

(** src/snapshot.h:100-111 [RelativeVelocity]; [hz] = Cosmology.Hz, [a] = Cosmology.ScaleFactor. *)
Definition relative_velocity (periodic : bool) (L hz a : Q) (x v x0 v0 : vec) : vec :=
  vmap2 Qplus (vmap2 Qminus v v0) (times (hz * a) (apart periodic L x x0)).
(** src/subhalo_tracking.cpp:22-27 [KineticDistance], squared: of an object at [x], [v] from one at [x0], [v0]. *)
Definition kinetic2 (periodic : bool) (L hz a : Q) (xv xv0 : vec * vec) : Q :=
  norm2 (relative_velocity periodic L hz a (fst xv) (snd xv) (fst xv0) (snd xv0)).
(** The argument [dist] of Model/Subhalo.v: average position and velocity of the subhalo and of the halo. *)
Definition kinetic_dist {X R H} (periodic : bool) (L hz a : Q) (of_sub : R -> vec * vec) (of_halo : H -> vec * vec) (s : sub X R) (h : H) : Q :=
  kinetic2 periodic L hz a (of_sub (s_rest s)) (of_halo h).
