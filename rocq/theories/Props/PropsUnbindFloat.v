(** Unbinding in floating point: C81. *)
From Coq Require Import List ZArith QArith Reals Lia Lra Psatz Floats.SpecFloat Sorting.Permutation.
From Flocq Require Import Core BinarySingleNaN.
From Verif.Model Require Import Run ListMem Subhalo Unbind UnbindFloat.
From Verif.Spec Require Import Float Unbinding.
From Verif.Proofs Require Import FloatProofs UnbindFloatProofs RefineProofs.
From Verif.Props Require Import PropsUnbind.
Import ListNotations.
Local Open Scope R_scope.

Lemma pow_bpow e : powerRZ 2 e = bpow radix2 e.
Proof. rewrite bpow_powerRZ. reflexivity. Qed.
(** A number of the format is one of Flocq's. *)
Lemma number_b prec emax x : number prec emax x -> exists b : binary_float prec emax, B2SF b = x /\ is_finite b = true /\ B2R b = value x.
Proof.
  intros [V F]. exists (SF2B x V). split; [apply B2SF_SF2B|]. split; [|rewrite B2R_SF2B, value_SF2R; reflexivity]. rewrite is_finite_SF2B. rewrite <- F. destruct x; reflexivity.
Qed.

(** C81: in every format with at least two bits, a turn that removes nothing ends the loop, whatever the number of particles, if the
    precision is positive and at most one; this is what C33 to C37 ask. *)
Theorem C81_precision : forall (prec emax : Z) (precision : spec_float), (2 <= prec < emax)%Z -> number prec emax precision -> 0 < value precision <= 1 ->
  forall n, converged_f prec emax precision n n = true.
Proof.
  intros prec emax p [H1 H2] Hp Hv n. destruct (number_b _ _ _ Hp) as (b & <- & Fb & Vb). rewrite <- Vb in Hv. assert (P1 : Prec_gt_0 prec) by (unfold Prec_gt_0; lia). assert (P2 : Prec_lt_emax prec emax) by exact H2.
  apply (converged_self prec emax P1 P2 b (Z.of_nat n)); [lia|exact Fb|exact Hv].
Qed.
Print Assumptions C81_precision.

(** Up to the accuracy of the format, the test is that of exact arithmetic. *)
Theorem C81_precision_accuracy : forall (prec emax : Z) (precision : spec_float) (n nb : nat), (2 <= prec < emax)%Z -> number prec emax precision -> powerRZ 2 (3 - emax) <= value precision <= 1 ->
  IZR (Z.of_nat n) <= powerRZ 2 (emax - 1) -> IZR (Z.of_nat nb) <= powerRZ 2 (emax - 1) ->
  let near := 1 - powerRZ 2 (2 - prec) in
  if converged_f prec emax precision n nb then IZR (Z.of_nat n) * value precision * near <= IZR (Z.of_nat nb) else IZR (Z.of_nat nb) * near < IZR (Z.of_nat n) * value precision.
Proof.
  intros prec emax p n nb [H1 H2] Hp [Hv Hv1] Hn Hb near. destruct (number_b _ _ _ Hp) as (b & <- & Fb & Vb). rewrite <- Vb in *. unfold near. clear near. rewrite !pow_bpow in *.
  assert (P1 : Prec_gt_0 prec) by (unfold Prec_gt_0; lia). assert (P2 : Prec_lt_emax prec emax) by exact H2.
  assert (E4 : bpow radix2 (2 - prec) = 4 * bpow radix2 (- prec)) by (unfold Zminus; rewrite bpow_plus; reflexivity). rewrite E4.
  assert (E2 : bpow radix2 (3 - emax) = bpow radix2 (2 - emax) * 2). { replace (3 - emax)%Z with (2 - emax + 1)%Z by ring. rewrite bpow_plus. reflexivity. } rewrite E2 in Hv.
  set (N := Z.of_nat n) in *. set (B := Z.of_nat nb) in *. assert (N0 : (0 <= N)%Z) by lia. assert (B0 : (0 <= B)%Z) by lia. assert (N0' : 0 <= IZR N) by (apply IZR_le; exact N0). assert (B0' : 0 <= IZR B) by (apply IZR_le; exact B0).
  pose proof (u_small prec H1) as Hu. pose proof (product_rel prec emax P1 P2 H1 (B2R b) N N0 Hv) as HP. destruct (conv_fine prec emax P1 P2 H1 B B0 Hb) as [CR CF].
  pose proof (conv_rel prec emax P1 P2 H1 B B0) as HC. pose proof (bpow_gt_0 radix2 (2 - emax)) as Hz.
  destruct (product_fine prec emax P1 P2 H1 b N N0 Fb Hv Hn) as [MR MF]; [nra|].
  unfold converged_f. fold N B. rewrite !(conv_eq prec emax P1 P2), (mul_eq prec emax P1 P2). change (SFleb (B2SF (Bmult mode_NE (conv prec emax P1 P2 N) b)) (B2SF (conv prec emax P1 P2 B))) with (Bleb (Bmult mode_NE (conv prec emax P1 P2 N) b) (conv prec emax P1 P2 B)).
  rewrite Bleb_correct by assumption. rewrite MR, CR. set (u := bpow radix2 (- prec)) in *. set (y := IZR N * B2R b) in *. assert (Hy : 0 <= y) by (unfold y; nra).
  destruct (Rle_bool_spec (round radix2 (SpecFloat.fexp prec emax) ZnearestE (round radix2 (SpecFloat.fexp prec emax) ZnearestE (IZR N) * B2R b)) (round radix2 (SpecFloat.fexp prec emax) ZnearestE (IZR B))) as [HL|HL].
  - assert (H : y * (1 - 3 * u) <= IZR B * (1 + u)) by lra. nra.
  - assert (H : IZR B * (1 - u) < y * (1 + 3 * u)) by lra. nra.
Qed.
Print Assumptions C81_precision_accuracy.

(** C81: a multiple that is above one by at least the accuracy of the format leaves room for all bound particles, and so does a multiple
    of one while counts are exact. *)
Theorem C81_room : forall (prec emax : Z) (relax : spec_float) (n : nat), (2 <= prec < emax)%Z -> number prec emax relax ->
  1 + powerRZ 2 (2 - prec) <= value relax \/ (1 <= value relax /\ (Z.of_nat n < 2 ^ prec)%Z) -> (n <= allowed_f prec emax relax n)%nat.
Proof.
  intros prec emax r n [H1 H2] Hr Hc. destruct (number_b _ _ _ Hr) as (b & <- & Fb & Vb). rewrite <- Vb in *. rewrite !pow_bpow in *.
  assert (P1 : Prec_gt_0 prec) by (unfold Prec_gt_0; lia). assert (P2 : Prec_lt_emax prec emax) by exact H2.
  assert (E4 : bpow radix2 (2 - prec) = 4 * bpow radix2 (- prec)) by (unfold Zminus; rewrite bpow_plus; reflexivity). rewrite E4 in Hc.
  pose proof (u_small prec H1) as Hu. assert (N0 : (0 <= Z.of_nat n)%Z) by lia. assert (Hb : 0 < B2R b) by (destruct Hc as [Hc|[Hc _]]; lra).
  unfold allowed_f. destruct (product_cases prec emax P1 P2 b (Z.of_nat n) N0 Fb Hb) as [E|[_ E]]; rewrite E; [lia|].
  pose proof (allowed_enough prec emax P1 P2 H1 b (Z.of_nat n) N0 Hc Fb) as HA. apply Zfloor_le in HA. rewrite Zfloor_IZR in HA. lia.
Qed.
Print Assumptions C81_room.

(** How much room: the multiple, up to the accuracy of the format, rounded down. *)
Theorem C81_room_accuracy : forall (prec emax : Z) (relax : spec_float) (n : nat), (2 <= prec < emax)%Z -> number prec emax relax -> 1 <= value relax ->
  IZR (Z.of_nat n) * value relax <= powerRZ 2 (emax - 1) ->
  let a := IZR (Z.of_nat (allowed_f prec emax relax n)) in let x := IZR (Z.of_nat n) * value relax in
  a <= x * (1 + powerRZ 2 (2 - prec)) /\ x * (1 - powerRZ 2 (2 - prec)) < a + 1.
Proof.
  intros prec emax r n [H1 H2] Hr Hv Hb. destruct (number_b _ _ _ Hr) as (b & <- & Fb & Vb). rewrite <- Vb in *. rewrite !pow_bpow in *. intros a x.
  assert (P1 : Prec_gt_0 prec) by (unfold Prec_gt_0; lia). assert (P2 : Prec_lt_emax prec emax) by exact H2.
  assert (E4 : bpow radix2 (2 - prec) = 4 * bpow radix2 (- prec)) by (unfold Zminus; rewrite bpow_plus; reflexivity). rewrite E4.
  assert (N0 : (0 <= Z.of_nat n)%Z) by lia. assert (N0' : 0 <= IZR (Z.of_nat n)) by (apply IZR_le; exact N0). pose proof (u_small prec H1) as Hu.
  assert (Hs : bpow radix2 (2 - emax) * 2 <= 1). { change 2 with (bpow radix2 1). rewrite <- bpow_plus. change 1 with (bpow radix2 0). apply bpow_le. lia. }
  pose proof (product_rel prec emax P1 P2 H1 (B2R b) (Z.of_nat n) N0 ltac:(lra)) as HP.
  destruct (product_fine prec emax P1 P2 H1 b (Z.of_nat n) N0 Fb) as [MR MF]; [lra|nra|exact Hb|].
  assert (Q0 : 0 <= B2R (Bmult mode_NE (conv prec emax P1 P2 (Z.of_nat n)) b)). { rewrite MR. assert (0 <= IZR (Z.of_nat n) * B2R b * (1 - 3 * bpow radix2 (- prec))) by nra. lra. }
  assert (Ea : a = IZR (Zfloor (B2R (Bmult mode_NE (conv prec emax P1 P2 (Z.of_nat n)) b)))).
  { unfold a, allowed_f. rewrite !(conv_eq prec emax P1 P2), (mul_eq prec emax P1 P2), trunc_ok by assumption. rewrite Z2Nat.id; [reflexivity|]. apply Zfloor_lub. exact Q0. }
  rewrite Ea. pose proof (Zfloor_lb (B2R (Bmult mode_NE (conv prec emax P1 P2 (Z.of_nat n)) b))) as L1. pose proof (Zfloor_ub (B2R (Bmult mode_NE (conv prec emax P1 P2 (Z.of_nat n)) b))) as L2. rewrite MR in L1, L2 |- *. fold x in HP.
  assert (0 <= x) by (unfold x; nra). split; nra.
Qed.
Print Assumptions C81_room_accuracy.

(** So unbinding ends and truncation keeps the bound particles in floating point. *)
Theorem C81_unbinding : forall (prec emax : Z) (precision relax : spec_float), (2 <= prec < emax)%Z -> number prec emax precision -> 0 < value precision <= 1 ->
  number prec emax relax -> 1 + powerRZ 2 (2 - prec) <= value relax ->
  forall (X R E : Type) (neg pos : E -> bool) lt sorter shuffle energy inner no_energy rest_of pmass min_part max_sample refine snap (s : sub X R),
  (forall e, neg e = true -> pos e = false) -> (forall site l, Permutation (sorter site l) l /\ ascending lt (@snd nat E) (sorter site l)) -> (forall l, Permutation (shuffle l) l) -> (1 <= min_part)%nat ->
  exists s', unbind neg pos sorter shuffle energy inner no_energy rest_of pmass min_part (converged_f prec emax precision) max_sample refine snap s = Done s' /\
    let t := truncate (allowed_f prec emax relax) s' in
    s_nbound t = s_nbound s' /\ (s_nbound t <= length (s_parts t))%nat /\ firstn (s_nbound t) (s_parts t) = firstn (s_nbound s') (s_parts s').
Proof.
  intros prec emax p r Hpe Np Vp Nr Vr X R E neg pos lt sorter shuffle energy inner no_energy rest_of pmass min_part max_sample refine snap s H1 H2 H3 H4.
  pose proof (C81_precision prec emax p Hpe Np Vp) as HC. destruct (C33_unbinding_ends neg pos lt sorter shuffle energy inner no_energy rest_of pmass min_part (converged_f prec emax p) max_sample refine H1 H2 H3 HC snap s H4) as [s' E1].
  exists s'. split; [exact E1|]. destruct (C34_unbinding_permutes neg pos lt sorter shuffle energy inner no_energy rest_of pmass min_part (converged_f prec emax p) max_sample refine H1 H2 H3 HC snap s s' H4 E1) as (_ & HL & _).
  destruct (truncate_ok (allowed_f prec emax r) (fun n => C81_room prec emax r n Hpe Nr (or_introl Vr)) s' HL) as (n & -> & Hn & _). cbn. split; [reflexivity|]. split; [rewrite firstn_length; lia|]. rewrite firstn_firstn, Nat.min_l by lia. reflexivity.
Qed.
Print Assumptions C81_unbinding.

(** Finding: in single precision a multiple of exactly one, which C38 allows, cuts off a bound particle of a subhalo of 2^24 + 1
    particles, because that number is not one of the format. *)
Definition one_f : spec_float := S754_finite false 8388608 (-23).
Theorem C81_room_for_one_refuted : exists (s : sub Z nat), number 24 128 one_f /\ value one_f = 1 /\ s_nbound s = length (s_parts s) /\
  (length (s_parts (truncate (allowed_f 24 128 one_f) s)) < s_nbound (truncate (allowed_f 24 128 one_f) s))%nat.
Proof.
  set (n := Z.to_nat 16777217). exists (set_nbound n (set_parts (repeat (0, 0)%Z n) (new_sub 0%nat))). split; [split; reflexivity|]. split.
  { unfold value, one_f. rewrite pow_bpow. cbn [bpow]. change (Z.pow_pos radix2 23) with 8388608%Z. field. }
  cbn [s_nbound s_parts set_nbound set_parts]. split; [rewrite repeat_length; reflexivity|]. unfold truncate. cbn [s_nbound s_parts set_nbound set_parts].
  assert (En : Z.of_nat n = 16777217%Z) by (unfold n; apply Z2Nat.id; lia). destruct (Nat.leb_spec n 1) as [H|_]; [lia|].
  assert (EA : allowed_f 24 128 one_f n = Z.to_nat 16777216). { unfold allowed_f. rewrite En. replace (sf_trunc (SFmul 24 128 (sf_of_Z 24 128 16777217) one_f)) with (Some 16777216%Z) by (vm_compute; reflexivity). reflexivity. }
  rewrite EA, repeat_length, firstn_length, repeat_length. lia.
Qed.
Print Assumptions C81_room_for_one_refuted.

(** The defaults 0.995 and 3 in single precision (src/config_parser.h:100-101). *)
Example C81_witness : let p := S754_finite false 16693330 (-24) in let r := S754_finite false 12582912 (-22) in
  number 24 128 p /\ 0 < value p <= 1 /\ powerRZ 2 (3 - 128) <= value p /\ number 24 128 r /\ 1 + powerRZ 2 (2 - 24) <= value r /\
  map (fun nb => converged_f 24 128 p 1000 nb) [994; 995; 1000]%nat = [false; true; true] /\ map (allowed_f 24 128 r) [0; 2; 7]%nat = [0; 6; 21]%nat.
Proof.
  intros p r. assert (Vp : value p = 16693330 / 16777216). { unfold value, p. rewrite pow_bpow. cbn [bpow]. change (Z.pow_pos radix2 24) with 16777216%Z. field. }
  assert (Vr : value r = 3). { unfold value, r. rewrite pow_bpow. cbn [bpow]. change (Z.pow_pos radix2 22) with 4194304%Z. field. }
  rewrite Vp, Vr, !pow_bpow. split; [split; reflexivity|]. split; [lra|]. split; [apply Rle_trans with (bpow radix2 (-1)); [apply bpow_le; lia|cbn; lra]|]. split; [split; reflexivity|].
  split; [assert (bpow radix2 (2 - 24) <= bpow radix2 0) by (apply bpow_le; lia); cbn [bpow] in *; lra|]. split; vm_compute; reflexivity.
Qed.
