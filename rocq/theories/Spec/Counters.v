(** Parallel loops whose turns draw numbers from a counter: safe however their turns overlap. *)
From Coq Require Import List ZArith.
From Verif.Model Require Import ListMem Threads UpdateThreads.
From Verif.Spec Require Import Races.
Import ListNotations.

Section Crews.
  Context {L V : Type}.
  Variable same : L -> L -> bool.
  Local Notation turn := (@turn L V).
  (** The shared memory that a turn is about to access; the counter is not part of it, being used in the critical section only. *)
  Definition outside (t : turn) : @prog L V unit := match t with Plain p => p | Take _ => Ret tt end.
  (** Whatever the threads do: the loop ends, no turn accesses a cell that does not exist or fails, there is no race, and when all
      turns are over the counter and the memory are as wished. *)
  Definition safe_crew (turns : list turn) (first : nat) (start : L -> option V) (wished : nat -> (L -> option V) -> Prop) : Prop :=
    exists N, forall n ts c s, works same n (turns, first, start) (ts, c, s) ->
      (n <= N)%nat /\
      (forall i t, nth_error ts i = Some t -> t = Plain (Ret tt) \/ (exists k, t = Take k) \/ exists p p' s', t = Plain p /\ step1 same p s = Some (p', s')) /\
      ~ race (map outside ts) /\
      (Forall (fun t => t = Plain (Ret tt)) ts -> wished c s).
End Crews.
