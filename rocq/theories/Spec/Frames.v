(** Specification of binding energies in a reference frame. *)
From Coq Require Import List ZArith QArith.
From Verif.Model Require Import Tree Frames.
From Verif.Spec Require Import Basic Octree Chains.
Import ListNotations.
Local Open Scope nat_scope.

(** Sum over particles. *)
Definition qsum (g : nat -> Q) (ids : list nat) : Q := fold_right (fun i a => g i + a)%Q 0%Q ids.
(** [e] is the specific energy of particle [p] in the frame [f] and in the potential of the particles [set]: the kinetic energy
    of the velocity relative to the frame, with the Hubble flow, plus the potential without the softened self-attraction,
    plus the internal energy. *)
Definition energy_in (body : nat -> particle) (periodic : bool) (L hubble unit soft : Q) (phi : vec -> vec -> Q) (f : frame) (set : list nat) (p : nat) (e : Q) : Prop :=
  let x := p_x (body p) in let v := p_v (body p) in let X := fst f in let V := snd f in
  exists d0 d1 d2, least_offset periodic L (coord 0 x) (coord 0 X) d0 /\ least_offset periodic L (coord 1 x) (coord 1 X) d1 /\ least_offset periodic L (coord 2 x) (coord 2 X) d2 /\
    let w := fun j d => (coord j v - coord j V + hubble * d)%Q in
    (e == (1 # 2) * (w 0%nat d0 * w 0%nat d0 + w 1%nat d1 * w 1%nat d1 + w 2%nat d2 * w 2%nat d2) +
          unit * (p_m (body p) / soft + qsum (fun i => p_m (body i) * phi (p_x (body i)) x) set) + p_u (body p))%Q.
(** A position that has an image within an eighth of the box of [c], and is not far outside the box. *)
Definition gathered (L : Q) (c x : vec) : Prop :=
  forall j, (- (1 # 4) * L <= coord j x <= (5 # 4) * L)%Q /\ exists k : Z, (- (1 # 8) * L <= coord j x + inject_Z k * L - coord j c <= (1 # 8) * L)%Q.
(** Mass-weighted mean over [ids] of the coordinates [g]. *)
Definition mean (m : nat -> Q) (g : nat -> vec) (ids : list nat) (a : vec) : Prop :=
  forall j, (coord j a * qsum m ids == qsum (fun i => m i * coord j (g i)) ids)%Q.
(** [a] is the mass-weighted mean of images of the positions [g], each within half a box of the image of one and the same of
    the particles. *)
Definition centre (periodic : bool) (L : Q) (m : nat -> Q) (g : nat -> vec) (ids : list nat) (a : vec) : Prop :=
  exists o, In o ids /\ forall j, exists u : nat -> Q,
    (forall i, In i ids -> if periodic then same_image L (u i) (coord j (g i)) /\ (- (1 # 2) * L <= u i - coord j (g o) <= (1 # 2) * L)%Q else (u i == coord j (g i))%Q) /\
    (coord j a * qsum m ids == qsum (fun i => m i * u i) ids)%Q.
(** [body'] is [body] with the masses of the particles in [sample] multiplied by [n] over the size of the sample, and no mass elsewhere. *)
Definition reweighted (body body' : nat -> particle) (sample : list nat) (n : nat) : Prop :=
  forall q, p_x (body' q) = p_x (body q) /\ p_v (body' q) = p_v (body q) /\ p_u (body' q) = p_u (body q) /\
    (In q sample -> p_m (body' q) * inject_Z (Z.of_nat (length sample)) == p_m (body q) * inject_Z (Z.of_nat n))%Q /\ (~ In q sample -> p_m (body' q) == 0)%Q.
