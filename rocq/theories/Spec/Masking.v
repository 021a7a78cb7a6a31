(** What masking the source particles of a host does. *)
From Coq Require Import List ZArith.
From Verif.Model Require Import ListMem Subhalo.
From Verif.Spec Require Import Nesting.
Import ListNotations.
Local Open Scope Z_scope.

(** [sublist a b]: [a] is [b] with some elements left out. *)
Inductive sublist {A} : list A -> list A -> Prop :=
| sublist_nil : sublist [] []
| sublist_drop x a b : sublist a b -> sublist a (x :: b)
| sublist_keep x a b : sublist a b -> sublist (x :: a) (x :: b).

Section Masking.
  Context {X R : Type}.
  Definition part_ids (s : sub X R) : list Z := map fst (s_parts s).
  Definition holds (subs : list (sub X R)) (i id : Z) : Prop :=
    exists s, zget subs i = Some s /\ (1 < s_nbound s)%nat /\ In id (part_ids s).
  (** [exclusive subs subs' mem below]: masking turns the subhalos [subs] of one host, whose members are [mem], into
      [subs']; [below i j]: [j] is nested in [i], directly or not. *)
  Record exclusive (subs subs' : list (sub X R)) (mem : Z -> Prop) (below : Z -> Z -> Prop) : Prop := {
    ex_once : forall i s, mem i -> zget subs' i = Some s -> (1 < s_nbound s)%nat -> NoDup (part_ids s);
    ex_apart : forall i j id, mem i -> mem j -> holds subs' i id -> holds subs' j id -> i = j;
    ex_kept : forall id, (exists i, mem i /\ holds subs i id) <-> (exists i, mem i /\ holds subs' i id);
    ex_deeper : forall i j id, mem i -> below i j -> holds subs j id -> ~ holds subs' i id;
    ex_order : forall i s, mem i -> zget subs i = Some s -> exists kept, zget subs' i = Some (set_parts kept s) /\ sublist kept (s_parts s);
    ex_orphans : forall i s, mem i -> zget subs i = Some s -> (s_nbound s <= 1)%nat -> zget subs' i = Some s }.
End Masking.
