(** What the averages over the particles of a subhalo mean. *)
From Coq Require Import List ZArith QArith.
From Verif.Model Require Import Tree Means.
From Verif.Spec Require Import Basic Octree Chains.
Import ListNotations.
Local Open Scope Q_scope.

Definition wsum {A} (f : A -> Q) (l : list A) : Q := fold_right (fun p a => f p + a) 0 l.
(** [a] is the mass-weighted mean of [g] over the particles. *)
Definition is_mean (l : list body) (g : body -> Q) (a : Q) : Prop := a * wsum b_m l == wsum (fun p => b_m p * g p) l.
(** [y] gives each particle one image of its position, so that no two are half a box or more apart along an axis. *)
Definition unfolds (periodic : bool) (L : Q) (l : list body) (y : body -> vec) : Prop :=
  if periodic then (forall p j, In p l -> same_image L (coord j (y p)) (coord j (b_x p))) /\
                   (forall p q j, In p l -> In q l -> - ((1 # 2) * L) < coord j (y p) - coord j (y q) < (1 # 2) * L)
  else forall p j, In p l -> coord j (y p) == coord j (b_x p).
(** The position modulo the box. *)
Definition at_image (periodic : bool) (L a b : Q) : Prop := if periodic then same_image L a b else a == b.
Definition in_box (periodic : bool) (L : Q) (l : list body) : Prop :=
  periodic = true -> 0 < L /\ forall p j, In p l -> 0 <= coord j (b_x p) <= L.
(** Squared distance of two points. *)
Definition gap2 (a b : vec) : Q :=
  (coord 0 a - coord 0 b) * (coord 0 a - coord 0 b) + (coord 1 a - coord 1 b) * (coord 1 a - coord 1 b) + (coord 2 a - coord 2 b) * (coord 2 a - coord 2 b).
(** [d] is the offset of each particle from [c], along the shortest way. *)
Definition offsets (periodic : bool) (L : Q) (l : list body) (c : vec) (d : body -> vec) : Prop :=
  forall p j, In p l -> least_offset periodic L (coord j (b_x p)) (coord j c) (coord j (d p)).
(** Component of [d] along [u], and the quadratic form of a symmetric tensor. *)
Definition along (u d : vec) : Q := coord 0 u * coord 0 d + coord 1 u * coord 1 d + coord 2 u * coord 2 d.
Definition quad (t : tensor) (u : vec) : Q :=
  let '(xx, xy, xz, yy, yz, zz) := t in
  xx * (coord 0 u * coord 0 u) + yy * (coord 1 u * coord 1 u) + zz * (coord 2 u * coord 2 u) +
  2 * (xy * (coord 0 u * coord 1 u) + xz * (coord 0 u * coord 2 u) + yz * (coord 1 u * coord 2 u)).
