(** What a well-formed nesting is, on one process (indices) and across all processes (track ids). *)
From Coq Require Import List ZArith QArith Sorting.Permutation.
From Verif.Model Require Import ListMem Subhalo.
From Verif.Spec Require Import Forest.
Import ListNotations.
Local Open Scope Z_scope.

Section Nesting.
  Context {X R : Type}.
  (** The nest lists of a process form the forest [ts] on its indices, and the heads (rank 0) are exactly the roots. *)
  Definition local_forest (subs : list (sub X R)) (ts : list tree) : Prop :=
    is_forest (fun i l => exists s, zget subs i = Some s /\ s_nest s = l) (map Z.of_nat (seq 0 (length subs))) ts /\
    (forall i s, zget subs i = Some s -> (s_rank s = 0 <-> In i (map label ts))).
  (** Subhalos that already have a track id. *)
  Definition registered (all : list (sub X R)) : list (sub X R) := filter (fun s => 0 <=? s_track s) all.
  (** The nest lists of all processes together form the forest [ts] on the track ids, and the heads are exactly the roots.
      A subhalo without track id is alone. *)
  Definition global_forest (all : list (sub X R)) (ts : list tree) : Prop :=
    NoDup (map s_track (registered all)) /\
    is_forest (fun t l => exists s, In s (registered all) /\ s_track s = t /\ s_nest s = l) (map s_track (registered all)) ts /\
    (forall s, In s (registered all) -> (s_rank s = 0 <-> In (s_track s) (map label ts))) /\
    (forall s, In s all -> s_track s < 0 -> s_nest s = [] /\ s_rank s = 0).

  (** The same without trees. *)
  Definition lists (subs : list (sub X R)) (p c : Z) : Prop := exists s, zget subs p = Some s /\ In c (s_nest s).
  (** [reach subs p d c]: from [p] down [d] steps through the nests to [c]. *)
  Inductive reach (subs : list (sub X R)) (p : Z) : nat -> Z -> Prop :=
  | reach_here : reach subs p 0 p
  | reach_step d m c : reach subs p d m -> lists subs m c -> reach subs p (S d) c.
  Definition head (subs : list (sub X R)) (i : Z) : Prop := exists s, zget subs i = Some s /\ s_rank s = 0.
  Record well_nested (subs : list (sub X R)) : Prop := {
    wn_exists : forall p c, lists subs p c -> exists s, zget subs c = Some s;
    wn_once : forall p s, zget subs p = Some s -> NoDup (s_nest s);
    wn_parent : forall p q c, lists subs p c -> lists subs q c -> p = q;
    wn_host : forall p c s u, lists subs p c -> zget subs p = Some s -> zget subs c = Some u -> s_host u = s_host s;
    wn_heads : forall c s, zget subs c = Some s -> (s_rank s = 0 <-> forall p, ~ lists subs p c);
    wn_acyclic : forall p d, reach subs p d p -> d = O;
    wn_covered : forall i s, zget subs i = Some s -> exists h, head subs h /\ (exists d, reach subs h d i) /\ forall h' d, head subs h' -> reach subs h' d i -> h' = h }.
  (** Track [t] is held by a process with these subhalos; it is in a nest of a process other than the [k]-th. *)
  Definition held (subs : list (sub X R)) (t : Z) : bool := (0 <=? t) && existsb (fun u => s_track u =? t) subs.
  Definition in_foreign_nest (all : list (list (sub X R))) (k : nat) (t : Z) : Prop :=
    exists q l u, q <> k /\ nth_error all q = Some l /\ In u l /\ In t (s_nest u).
  (** Ranking of the members of host [h]: [c] is the only member of rank 0, the members of [h] are exactly what is reached from
      [c], the depth is the number of steps, and the ranks 0, 1, ... follow decreasing mass. *)
  Definition member (subs : list (sub X R)) (h i : Z) : Prop := exists s, zget subs i = Some s /\ s_host s = h.
  Definition members_count (subs : list (sub X R)) (h : Z) : nat := length (filter (fun s => s_host s =? h) subs).
  Record covers (subs : list (sub X R)) (h c : Z) : Prop := {
    cv_central : exists s, zget subs c = Some s /\ s_host s = h /\ s_rank s = 0;
    cv_reach : forall i, member subs h i <-> exists d, reach subs c d i;
    cv_depth : forall i d s, reach subs c d i -> zget subs i = Some s -> s_depth s = Z.of_nat d;
    cv_range : forall i s, zget subs i = Some s -> s_host s = h -> 0 <= s_rank s < Z.of_nat (members_count subs h);
    cv_ranks : forall i j s u, zget subs i = Some s -> zget subs j = Some u -> s_host s = h -> s_host u = h -> s_rank s = s_rank u -> i = j;
    cv_mass : forall i j s u, zget subs i = Some s -> zget subs j = Some u -> s_host s = h -> s_host u = h -> s_rank s < s_rank u -> (s_mass u <= s_mass s)%Q }.
End Nesting.
