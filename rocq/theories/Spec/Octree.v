(** Specifications for the octrees: what a node contains, and sums and distances over sets of particles.  Nodes below [N]
    are particles, [N + c] is the cell at index [c]. *)
From Coq Require Import List ZArith QArith Sorting.Permutation.
From Verif.Model Require Import ListMem Tree.
From Verif.Spec Require Import Basic.
Import ListNotations.
Local Open Scope Z_scope.

Definition particles (n : nat) : list Z := map Z.of_nat (seq 0 n).
(** The used slots of a cell. *)
Definition used {W} (c : cell W) : list Z := match c with Sons l => filter (fun s => 0 <=? s) l | Way _ _ _ _ => [] end.
(** [holds n cells no l]: the node [no] contains the particles [l]: itself, or what its sons contain. *)
Inductive holds {W} (n : nat) (cells : list (cell W)) : Z -> list Z -> Prop :=
| holds_part v : 0 <= v < Z.of_nat n -> holds n cells v [v]
| holds_cell no c ls : Z.of_nat n <= no -> zget cells (no - Z.of_nat n) = Some c -> Forall2 (holds n cells) (used c) ls ->
    ls <> [] -> holds n cells no (concat ls).
(** A proper octree on all particles: eight slots per cell, every particle in one slot, every cell but the root in one slot,
    and the root contains all particles. *)
Definition octree {W} (n : nat) (cells : list (cell W)) : Prop :=
  Forall (fun c => exists l, c = Sons l /\ length l = 8%nat) cells /\
  Permutation (flat_map used cells) (particles n ++ map (fun c => Z.of_nat (n + c)) (seq 1 (length cells - 1))) /\
  exists l, holds n cells (Z.of_nat n) l /\ Permutation l (particles n).

Definition total (f : Z -> Q) (l : list Z) : Q := fold_right (fun i a => f i + a)%Q 0%Q l.
(** Coordinates. *)
Definition coord (j : nat) (x : vec) : Q := let '(x0, x1, x2) := x in match j with O => x0 | S O => x1 | _ => x2 end.
(** [c] is the centre of mass of the particles [l]. *)
Definition centre_of_mass (x : Z -> vec) (m : Z -> Q) (l : list Z) (c : vec) : Prop :=
  forall j, (coord j c * total m l == total (fun i => m i * coord j (x i)) l)%Q.

(** The octant of the point [x] in the cube centred at [c] with half side [h], after [d] subdivisions. *)
Definition octant (c x : vec) : nat :=
  ((if Qlt_le_dec (coord 0 c) (coord 0 x) then 1 else 0) + (if Qlt_le_dec (coord 1 c) (coord 1 x) then 2 else 0) +
   (if Qlt_le_dec (coord 2 c) (coord 2 x) then 4 else 0))%nat.
Definition subdivide (c : vec) (h : Q) (x : vec) : vec :=
  let f := fun j => (if Qlt_le_dec (coord j c) (coord j x) then coord j c + h / 2 else coord j c - h / 2)%Q in (f 0%nat, f 1%nat, f 2%nat).
Fixpoint address (d : nat) (c : vec) (h : Q) (x : vec) : nat :=
  match d with O => octant c x | S d' => address d' (subdivide c h x) (h / 2)%Q x end.
(** The random numbers are octants, and from no point on do they follow the addresses of a particle for ever. *)
Definition fair (rnd : nat -> nat) (ps : list vec) (c : vec) (h : Q) : Prop :=
  (forall i, (rnd i < 8)%nat) /\ forall x, In x ps -> forall d a, exists k, rnd (a + k)%nat <> address (d + k) c h x.

(** The squared distance, to the nearest image with periodic boundaries: the least over all images of the difference. *)
Definition least_distance2 (periodic : bool) (L : Q) (x y : vec) (r2 : Q) : Prop :=
  let image := fun j e => if periodic then same_image L e (coord j x - coord j y) else (e == coord j x - coord j y)%Q in
  (exists e0 e1 e2, image 0%nat e0 /\ image 1%nat e1 /\ image 2%nat e2 /\ r2 == e0 * e0 + e1 * e1 + e2 * e2)%Q /\
  (forall e0 e1 e2, image 0%nat e0 -> image 1%nat e1 -> image 2%nat e2 -> r2 <= e0 * e0 + e1 * e1 + e2 * e2)%Q.
(** Coordinates within the box. *)
Definition in_domain (L : Q) (x : vec) : Prop := forall j, (0 <= coord j x <= L)%Q.

(** [l] spans at most [len] in every coordinate. *)
Definition spans (x : Z -> vec) (l : list Z) (len : Q) : Prop :=
  forall i k j, In i l -> In k l -> (- len <= coord j (x i) - coord j (x k) <= len)%Q.
(** What the potential of a target is made of: groups of particles, each replaced by a point [c].  [r2 c] is the squared
    distance of the point from the target.  A group is a single particle, or is seen under a small angle from its centre
    of mass. *)
Definition group (x : Z -> vec) (m : Z -> Q) (r2 : vec -> Q) (angle2 : Q) (g : vec * list Z) : Prop :=
  (exists i, snd g = [i] /\ fst g = x i) \/
  (centre_of_mass x m (snd g) (fst g) /\ exists len, (0 <= len)%Q /\ spans x (snd g) len /\ (len * len <= r2 (fst g) * angle2)%Q).
Definition group_sum (m : Z -> Q) (r2 : vec -> Q) (kernel : Q -> Q) (gs : list (vec * list Z)) : Q :=
  fold_right (fun g a => total m (snd g) * kernel (r2 (fst g)) + a)%Q 0%Q gs.
