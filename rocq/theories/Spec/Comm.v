(** Vocabulary for tables indexed by process and destination. *)
From Coq Require Import List Ascii.
Import ListNotations.

(** Entry in row [i], column [j]. *)
Definition cell {A} (m : list (list A)) (i j : nat) : option A :=
  match nth_error m i with Some row => nth_error row j | None => None end.

(** [m] has [W] rows of [W] entries. *)
Definition square {A} (W : nat) (m : list (list A)) : Prop :=
  length m = W /\ Forall (fun row => length row = W) m.

(** [W] processes, each with one sequence and one count per destination, no count exceeding its sequence. *)
Definition well_formed {A} (W : nat) (data : list (list (list A))) (counts : list (list nat)) : Prop :=
  square W data /\ square W counts /\
  forall s r seqs c, cell data s r = Some seqs -> cell counts s r = Some c -> c <= length seqs.

(** A string without the line separator (character 10). *)
Definition no_newline (s : list ascii) : Prop := ~ In "010"%char s.
