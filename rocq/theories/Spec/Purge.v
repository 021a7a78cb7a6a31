(** What the promotion of most bound particles is meant to do, and what it does. *)
From Coq Require Import List ZArith Bool Sorting.Permutation.
From Verif.Model Require Import Purge.
Import ListNotations.

Section Purge.
  Context {P V : Type}.
  Variables (p_id : P -> Z) (p_pos p_vel : P -> V).
  Notation sub := (sub P V).

  (** A particle with this id is in a resolved subhalo that comes after the [j]-th member in the group (a smaller one). *)
  Definition masked (subs : list sub) (group : list nat) (j : nat) (id : Z) : Prop :=
    exists k m t, j < k /\ nth_error group k = Some m /\ nth_error subs m = Some t /\ (1 < u_nbound t)%Z /\ In id (map p_id (u_parts t)).

  (** The [i]-th particle is the first one that is not masked. *)
  Definition first_unmasked (mask : Z -> Prop) (l : list P) (i : nat) (p : P) : Prop :=
    nth_error l i = Some p /\ ~ mask (p_id p) /\ forall i' p', i' < i -> nth_error l i' = Some p' -> mask (p_id p').
  (** The same without the first particle. *)
  Definition next_unmasked (mask : Z -> Prop) (l : list P) (i : nat) (p : P) : Prop :=
    0 < i /\ nth_error l i = Some p /\ ~ mask (p_id p) /\ forall i' p', 0 < i' < i -> nth_error l i' = Some p' -> mask (p_id p').
  (** [l'] is [l] with the particles 0 and [i] exchanged. *)
  Definition exchanged (i : nat) (l l' : list P) : Prop :=
    length l' = length l /\ nth_error l' 0 = nth_error l i /\ nth_error l' i = nth_error l 0 /\ forall k, k <> 0 -> k <> i -> nth_error l' k = nth_error l k.
  (** The subhalo is led by its [i]-th particle of before. *)
  Definition led_by (i : nat) (p : P) (s s' : sub) : Prop :=
    u_nbound s' = u_nbound s /\ exchanged i (u_parts s) (u_parts s') /\ u_pos s' = p_pos p /\ u_vel s' = p_vel p.
  (** The members of the groups are subhalos, and no subhalo is in two groups or twice in one. *)
  Definition members_ok (groups : list (list nat)) (subs : list sub) : Prop := NoDup (concat groups) /\ forall m, In m (concat groups) -> m < length subs.
End Purge.
