(** Outcomes of loops whose termination is not evident from their shape.
    [Done v]: the loop ended with [v].  [Crash]: undefined behaviour (out-of-bounds access, failed assert, exit).
    [Running]: the given number of iterations was not enough. *)
Inductive run (A : Type) : Type := Done (a : A) | Crash | Running.
Arguments Done {A} a.
Arguments Crash {A}.
Arguments Running {A}.

Definition rbind {A B} (r : run A) (f : A -> run B) : run B :=
  match r with Done a => f a | Crash => Crash | Running => Running end.
(** Range-for over a list of values. *)
Fixpoint run_each {A S} (l : list A) (body : A -> S -> run S) (s : S) : run S :=
  match l with nil => Done s | cons x r => rbind (body x s) (run_each r body) end.
(** [None] (undefined behaviour) as an outcome. *)
Definition of_opt {A} (o : option A) : run A := match o with Some a => Done a | None => Crash end.
