(** What floating-point numbers stand for. *)
From Coq Require Import ZArith Reals Floats.SpecFloat.
Local Open Scope R_scope.

(** The real value of a finite number; the others have none, and stand for 0. *)
Definition value (x : spec_float) : R :=
  match x with S754_finite s m e => (if s then -1 else 1) * IZR (Zpos m) * powerRZ 2 e | _ => 0 end.
Definition finite (x : spec_float) : bool := match x with S754_zero _ | S754_finite _ _ _ => true | _ => false end.
(** A finite number of the format with [prec] bits and exponents below [emax]. *)
Definition number (prec emax : Z) (x : spec_float) : Prop := valid_binary prec emax x = true /\ finite x = true.
