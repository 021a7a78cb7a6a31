(** Arrays as lists: bounds-checked reads and writes.  [None] = out-of-bounds access (undefined behaviour in C++). *)
From Coq Require Import List ZArith Bool.
Import ListNotations.

(** [l[i] = x] for a vector [l]. *)
Fixpoint upd {A} (l : list A) (i : nat) (x : A) : option (list A) :=
  match l, i with
  | [], _ => None
  | _ :: r, O => Some (x :: r)
  | y :: r, S i' => match upd r i' x with Some r' => Some (y :: r') | None => None end
  end.

(** Read and write with a signed index, as with HBTInt subscripts. *)
Definition zget {A} (l : list A) (i : Z) : option A :=
  if (i <? 0)%Z then None else nth_error l (Z.to_nat i).
Definition zupd {A} (l : list A) (i : Z) (x : A) : option (list A) :=
  if (i <? 0)%Z then None else upd l (Z.to_nat i) x.

(** [for i in [i0, i0+n): s = body i s], stopping with [None] when the body does. *)
Fixpoint for_range {S} (i0 n : nat) (body : nat -> S -> option S) (s : S) : option S :=
  match n with
  | O => Some s
  | Datatypes.S n' => match body i0 s with Some s' => for_range (Datatypes.S i0) n' body s' | None => None end
  end.

(** Range-for over a list of values. *)
Fixpoint for_each {A S} (l : list A) (body : A -> S -> option S) (s : S) : option S :=
  match l with
  | [] => Some s
  | x :: r => match body x s with Some s' => for_each r body s' | None => None end
  end.
