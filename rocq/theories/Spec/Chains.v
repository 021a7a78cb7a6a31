(** Specifications for the linked-list grid: chains, cells and friends-of-friends groups. *)
From Coq Require Import List ZArith QArith Relations.
From Verif.Model Require Import ListMem Tree.
From Verif.Spec Require Import Basic Octree.
Import ListNotations.
Local Open Scope Z_scope.

(** [l] is met when following [next] from [p] up to a negative number. *)
Inductive chained (next : list Z) : Z -> list Z -> Prop :=
| chained_end p : p < 0 -> chained next p []
| chained_step p q l : 0 <= p -> zget next p = Some q -> chained next q l -> chained next p (p :: l).

(** Cell [g] of [ndiv] cells of length [step] starting at [lo]: an image of the coordinate is in it if the axis is periodic,
    otherwise the first and the last cell are extended to infinity. *)
Definition in_cell (periodic : bool) (L lo step : Q) (ndiv g : Z) (x : Q) : Prop :=
  if periodic then 0 <= g < ndiv /\ exists k : Z, (inject_Z g * step <= x + inject_Z k * L - lo /\ x + inject_Z k * L - lo < inject_Z (g + 1) * step)%Q
  else in_clamped_cell step ndiv g (x - lo).
(** The chain of the cell (gx, gy, gz) holds exactly the particles of the cell, each once. *)
Definition chain_holds (periodic : bool) (L : Q) (lo step : vec) (ndiv : Z) (ps : list vec) (hoc next : list Z) (gx gy gz : Z) : Prop :=
  exists h l, zget hoc (gx + gy * ndiv + gz * (ndiv * ndiv)) = Some h /\ chained next h l /\ NoDup l /\
    forall i, In i l <-> exists x, zget ps i = Some x /\ in_cell periodic L (coord 0 lo) (coord 0 step) ndiv gx (coord 0 x) /\
      in_cell periodic L (coord 1 lo) (coord 1 step) ndiv gy (coord 1 x) /\ in_cell periodic L (coord 2 lo) (coord 2 step) ndiv gz (coord 2 x).

(** Two particles closer than the linking length. *)
Definition friends (periodic : bool) (L link : Q) (ps : list vec) (i j : Z) : Prop :=
  exists x y r2, zget ps i = Some x /\ zget ps j = Some y /\ least_distance2 periodic L x y r2 /\ (r2 < link * link)%Q.
(** Group numbers that are the connected components, with their sizes. *)
Definition components (n : nat) (close : Z -> Z -> Prop) (tags sizes : list Z) : Prop :=
  length tags = n /\
  (forall i j ti tj, zget tags i = Some ti -> zget tags j = Some tj -> (ti = tj <-> clos_refl_trans Z close i j)) /\
  (forall i t, zget tags i = Some t -> 0 <= t < Z.of_nat (length sizes)) /\
  (forall g s, zget sizes g = Some s -> s = Z.of_nat (count_occ Z.eq_dec tags g) /\ 0 < s).

(** The smallest image of the difference of two coordinates. *)
Definition least_offset (periodic : bool) (L a b e : Q) : Prop :=
  if periodic then same_image L e (a - b) /\ forall e', same_image L e' (a - b) -> (e * e <= e' * e')%Q else (e == a - b)%Q.
(** Positions within a radius, between two radii, and within a cylinder, with the squared distance (in the plane for
    cylinders). *)
Definition in_ball (periodic : bool) (L : Q) (x : vec) (r : Q) (y : vec) (r2 : Q) : Prop := least_distance2 periodic L y x r2 /\ (r2 < r * r)%Q.
Definition in_shell (periodic : bool) (L : Q) (x : vec) (rmin rmax : Q) (y : vec) (r2 : Q) : Prop :=
  least_distance2 periodic L y x r2 /\ (rmin * rmin < r2 /\ r2 < rmax * rmax)%Q.
Definition in_cylinder (periodic : bool) (L : Q) (x : vec) (rz rp : Q) (y : vec) (r2 : Q) : Prop :=
  exists e0 e1 e2, least_offset periodic L (coord 0 y) (coord 0 x) e0 /\ least_offset periodic L (coord 1 y) (coord 1 x) e1 /\
    least_offset periodic L (coord 2 y) (coord 2 x) e2 /\ (r2 == e0 * e0 + e1 * e1 /\ r2 < rp * rp /\ - rz <= e2 /\ e2 <= rz)%Q.
(** Exactly the particles that qualify are found, with their distance. *)
Definition finds (want : vec -> Q -> Prop) (ps : list vec) (found : list (Z * Q)) : Prop :=
  (forall p r2, In (p, r2) found -> exists y, zget ps p = Some y /\ want y r2) /\
  (forall p y r2, zget ps p = Some y -> want y r2 -> exists r2', (r2' == r2)%Q /\ In (p, r2') found).
