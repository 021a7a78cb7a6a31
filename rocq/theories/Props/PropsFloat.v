(** Wrapped coordinates in floating point: C63. *)
From Coq Require Import ZArith Reals Lia Lra Psatz Floats.SpecFloat.
From Flocq Require Import Core BinarySingleNaN.
From Verif.Model Require Import Mymath.
From Verif.Spec Require Import Float.
From Verif.Proofs Require Import FloatProofs.
Local Open Scope R_scope.

(** C63: in every format with [prec] bits and exponents below [emax], for every coordinate [x] and every positive box size [L]
    that is a normal number and not so much smaller than the coordinate that the quotient overflows: the wrapped coordinate is
    a number of the format from 0 to [L], less than [L] if [x] is not negative, the coordinate itself if that is inside the box,
    and differs from [x] by a whole number of box sizes, up to the accuracy of the format. *)
Theorem C63_wrapped_in_floating_point : forall (prec emax : Z) (x L : spec_float), (0 < prec < emax)%Z -> number prec emax x -> number prec emax L ->
  powerRZ 2 (2 - emax) <= value L -> Rabs (value x) <= powerRZ 2 (emax - 1) * value L ->
  let r := position_modulus_f prec emax x L in
  number prec emax r /\ 0 <= value r <= value L /\ (0 <= value x -> value r < value L) /\ (0 <= value x < value L -> r = x) /\
  exists k : Z, Rabs (value r - (value x - IZR k * value L)) <= powerRZ 2 (- prec) * (Rabs (value x) + 5 * value L).
Proof.
  intros prec emax x L [Hp He] [Vx Fx] [VL FL] HL Hx r. assert (P1 : Prec_gt_0 prec) by exact Hp. assert (P2 : Prec_lt_emax prec emax) by exact He.
  assert (Efin : forall s, finite s = is_finite_SF s) by (intros []; reflexivity).
  assert (Epow : forall e, powerRZ 2 e = bpow radix2 e) by (intros e; rewrite bpow_powerRZ; reflexivity).
  rewrite !value_SF2R, !Epow in *. rewrite Efin in Fx, FL.
  destruct (wrapped prec emax P1 P2 (SF2B x Vx) (SF2B L VL)) as (rb & R1 & R2 & R3 & R4 & R5 & R6).
  - rewrite is_finite_SF2B; exact Fx.
  - rewrite is_finite_SF2B; exact FL.
  - rewrite B2R_SF2B. replace (SpecFloat.emin prec emax + prec - 1)%Z with (2 - emax)%Z by (unfold SpecFloat.emin; lia). exact HL.
  - rewrite !B2R_SF2B. exact Hx.
  - rewrite !B2SF_SF2B in R1. rewrite !B2R_SF2B in *. fold r in R1. rewrite <- (SF2R_B2SF prec emax rb), R1 in R3, R4, R6.
    split; [|split; [exact R3|split; [exact R4|split; [|exact R6]]]].
    + split; [|rewrite Efin, <- R1, is_finite_SF_B2SF; exact R2]. rewrite <- R1. apply valid_binary_B2SF.
    + intros H. rewrite <- R1, (R5 H). apply B2SF_SF2B.
Qed.
Print Assumptions C63_wrapped_in_floating_point.
(** Double precision: -1 in a box of size 100 becomes 99, and the hypotheses are met. *)
Example C63_witness :
  let x := S754_finite true 4503599627370496 (-52) in let L := S754_finite false 7036874417766400 (-46) in
  number 53 1024 x /\ number 53 1024 L /\ powerRZ 2 (2 - 1024) <= value L /\ Rabs (value x) <= powerRZ 2 (1024 - 1) * value L /\ value x = -1 /\ value L = 100 /\
  position_modulus_f 53 1024 x L = S754_finite false 6966505673588736 (-46).
Proof.
  intros x L. assert (Epow : forall e, powerRZ 2 e = bpow radix2 e) by (intros e; rewrite bpow_powerRZ; reflexivity).
  assert (Vx : value x = -1). { unfold value, x. rewrite Epow. cbn [bpow]. change (Z.pow_pos radix2 52) with 4503599627370496%Z. field. }
  assert (VL : value L = 100). { unfold value, L. rewrite Epow. cbn [bpow]. change (Z.pow_pos radix2 46) with 70368744177664%Z. field. }
  rewrite Vx, VL, !Epow. split; [split; reflexivity|]. split; [split; reflexivity|]. split; [|split; [|split; [reflexivity|split; [reflexivity|vm_compute; reflexivity]]]].
  - apply Rle_trans with (bpow radix2 0); [apply bpow_le; lia|cbn; lra].
  - rewrite Rabs_left by lra. assert (1 <= bpow radix2 (1024 - 1)) by (change 1 with (bpow radix2 0); apply bpow_le; lia). lra.
Qed.
