(** What it means that a parallel loop is safe however its turns overlap in time. *)
From Coq Require Import List ZArith.
From Verif.Model Require Import ListMem Threads.
Import ListNotations.

Section Races.
  Context {L V : Type}.
  Variable same : L -> L -> bool.
  Local Notation code := (@prog L V unit).
  Definition over (p : code) : Prop := p = Ret tt.
  (** The next access of a program: [None] is a read, [Some v] a write of [v]. *)
  Inductive about : code -> L -> option V -> Prop :=
  | about_read l k : about (Get l k) l None
  | about_write l v k : about (Put l v k) l (Some v).
  Definition accesses (ps : list code) (l : L) (a b : option V) : Prop :=
    exists i j p q, i <> j /\ nth_error ps i = Some p /\ nth_error ps j = Some q /\ about p l a /\ about q l b.
  (** Two turns are about to access the same cell and at least one of them to write; [clash]: not the same value. *)
  Definition race (ps : list code) : Prop := exists l a b, accesses ps l a b /\ (a <> None \/ b <> None).
  Definition clash (ps : list code) : Prop := exists l a b, accesses ps l a b /\ a <> b.
  (** Whatever the threads do: the loop ends; no turn ever accesses a cell that does not exist or fails; nothing [bad] happens; when
      all turns are over the memory is [final]. *)
  Definition safe_loop (bad : list code -> Prop) (turns : list code) (start final : L -> option V) : Prop :=
    exists N, forall n ps s, steps same n (turns, start) (ps, s) ->
      (n <= N)%nat /\
      (forall i p, nth_error ps i = Some p -> over p \/ exists p' s', step1 same p s = Some (p', s')) /\
      ~ bad ps /\
      (Forall over ps -> forall l, s l = final l).
End Races.
