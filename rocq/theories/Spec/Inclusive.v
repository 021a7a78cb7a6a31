(** Unbinding and merging when the masses of subhalos include those inside them. *)
From Coq Require Import List ZArith QArith.
From Verif.Model Require Import ListMem Subhalo.
From Verif.Spec Require Import Forest Nesting Masking Sinking.
Import ListNotations.
Local Open Scope Z_scope.

Section Inclusive.
  Context {X R : Type}.
  Local Notation subs_t := (list (sub X R)).
  (** A resolved subhalo that is still alive sinks into [i]. *)
  Definition receives (a : subs_t) (i : Z) : Prop := exists k s, zget a k = Some s /\ sinking s /\ (1 < s_nbound s)%nat /\ s_sink s = i.
  Variable pmass : Z * X -> Q.
  Variable U : sub X R -> sub X R -> Prop.
  Variable tr : sub X R -> sub X R.
  (** Each subhalo unbound ([U]) and truncated ([tr]) by itself. *)
  Definition refined_alone (a b : subs_t) : Prop := Forall2 (fun s v => exists u, U s u /\ v = tr u) a b.
  (** The subhalos when merging is over: those that sank are dead and keep one particle, no others change; those into which one
      sank were unbound again. *)
  Definition after_merge_alone (snap : Z) (marked out : subs_t) : Prop := forall i s, zget marked i = Some s -> exists u v, zget out i = Some v /\
    (sinking s -> remains pmass snap s u) /\ (~ sinking s -> u = s) /\
    (receives marked i -> exists w, U u w /\ v = tr w) /\ (~ receives marked i -> v = u).
End Inclusive.
