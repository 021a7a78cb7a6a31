(** The two tests of unbinding with configured reals, in floating point (HBTReal is float: 24, 128, or double: 53, 1024, with
    HBT_REAL8; src/datatypes.h:38-45). *)
From Coq Require Import ZArith Bool Floats.SpecFloat.
Local Open Scope Z_scope.

Section UnbindFloat.
  Variables prec emax : Z.
  (** The conversion of an HBTInt to an HBTReal, rounding to nearest even. *)
  Definition sf_of_Z (z : Z) : spec_float := binary_normalize prec emax z 0 false.
  (** The conversion of an HBTReal to an HBTInt drops the fraction; infinities and not-a-numbers cannot be converted. *)
  Definition sf_trunc (x : spec_float) : option Z :=
    match x with
    | S754_zero _ => Some 0
    | S754_finite s m e => let a := if 0 <=? e then Z.pos m * 2 ^ e else Z.pos m / 2 ^ (- e) in Some (if s then - a else a)
    | _ => None
    end.
  (** src/subhalo_unbind.cpp:395 [Nbound>=Nlast*BoundMassPrecision], see [converged_q] in Model/Unbind.v. *)
  Definition converged_f (precision : spec_float) (n nb : nat) : bool :=
    SFleb (SFmul prec emax (sf_of_Z (Z.of_nat n)) precision) (sf_of_Z (Z.of_nat nb)).
  (** src/subhalo_unbind.cpp:455 [Nsource=Nbound*HBTConfig.SourceSubRelaxFactor], see [allowed_q].  A product beyond the format, for which
      we return [nb], needs counts beyond those of an HBTInt; integers are unbounded here. *)
  Definition allowed_f (relax : spec_float) (nb : nat) : nat :=
    match sf_trunc (SFmul prec emax (sf_of_Z (Z.of_nat nb)) relax) with Some z => Z.to_nat z | None => nb end.
End UnbindFloat.
