(** Specification of the density estimate: what a kernel estimate from the [n] nearest particles is. *)
From Coq Require Import List ZArith QArith Bool Sorting.Permutation.
Import ListNotations.

(** [d] is the [n]-th smallest of the values of [f] on [l]. *)
Definition nth_smallest (n : nat) (f : Z -> Q) (l : list Z) (d : Q) : Prop :=
  (length (filter (fun i => if Qlt_le_dec (f i) d then true else false) l) < n)%nat /\
  (n <= length (filter (fun i => if Qlt_le_dec d (f i) then false else true) l))%nat.

(** The cubic spline that vanishes from u = 1 on; [k] stands for 8/pi to twelve decimals. *)
Definition k : Q := 2546479089470 # 1000000000000.
Definition spline (u : Q) : Q :=
  if Qlt_le_dec u (1 # 2) then (k * (1 - 6 * (u * u) + 6 * (u * u * u)))%Q
  else if Qlt_le_dec u 1 then (k * 2 * ((1 - u) * (1 - u) * (1 - u)))%Q
  else 0%Q.

(** nth_element: a rearrangement with the element that belongs at place [m] there, none larger before and none smaller behind. *)
Definition places (m : nat) (l l' : list (Z * Q)) : Prop :=
  Permutation l l' /\
  forall p, nth_error l' m = Some p ->
    (forall i q, (i < m)%nat -> nth_error l' i = Some q -> (snd q <= snd p)%Q) /\
    (forall i q, (m < i)%nat -> nth_error l' i = Some q -> (snd p <= snd q)%Q).

(** A square root, exact or rounded: order is kept and only zero has the root zero. *)
Definition root_like (root : Q -> Q) : Prop :=
  (forall a b, 0 <= a -> a <= b -> root a <= root b)%Q /\ (root 0 == 0)%Q /\ (forall a, 0 < a -> 0 < root a)%Q.
