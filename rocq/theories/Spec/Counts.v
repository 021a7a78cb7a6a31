(** What the counts by type mean. *)
From Coq Require Import List ZArith QArith Bool.
From Verif.Model Require Import Counts.
Import ListNotations.
Local Open Scope nat_scope.

Definition of_type (t : nat) (l : list particle) : list particle := filter (fun p => q_type p =? t) l.
Definition total_mass (l : list particle) : Q := fold_right (fun p q => (q_mass p + q)%Q) 0%Q l.
(** [c] are the numbers and masses by type of the particles [l]. *)
Record tallies_of (l : list particle) (c : tallies) : Prop := {
  to_numbers : length (fst c) = type_max /\ forall t n, nth_error (fst c) t = Some n -> n = length (of_type t l);
  to_masses : length (snd c) = type_max /\ forall t m, nth_error (snd c) t = Some m -> (m == total_mass (of_type t l))%Q }.
Definition typed (l : list particle) : Prop := Forall (fun p => q_type p < type_max) l.
