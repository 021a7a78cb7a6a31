(** What the cosmology and the overdensity sizes mean, in the terms of a textbook. *)
From Coq Require Import List Reals Sorted.
Import ListNotations.
Local Open Scope R_scope.

(** Critical density for the expansion rate H. *)
Definition critical (G H : R) : R := 3 * H ^ 2 / (8 * PI * G).
(** Volume of a sphere. *)
Definition ball (r : R) : R := 4 / 3 * PI * r ^ 3.
(** Friedmann equation: (H / H0)^2 for matter and vacuum, the rest being curvature. *)
Definition friedmann (a om ol : R) : R := om / a ^ 3 + (1 - om - ol) / a ^ 2 + ol.

(** Among sorted comoving distances rs of particles of mass m: the i innermost particles are denser than rho. *)
Definition dense (a rho m : R) (rs : list R) (i : nat) : Prop :=
  exists r, (0 < i)%nat /\ nth_error rs (i - 1) = Some r /\ rho * ball (a * r) < INR i * m.
(** n is the largest such number, 0 if there is none. *)
Definition outermost (a rho m : R) (rs : list R) (n : nat) : Prop :=
  (n = 0%nat \/ dense a rho m rs n) /\ forall i, (n < i)%nat -> ~ dense a rho m rs i.
(** Number of particles closer than x. *)
Fixpoint closer (x : R) (rs : list R) : nat :=
  match rs with [] => 0 | r :: t => ((if Rlt_dec r x then 1 else 0) + closer x t)%nat end.
