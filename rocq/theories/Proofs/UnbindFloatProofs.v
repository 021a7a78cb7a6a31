(** The tests of unbinding in floating point, with Flocq. *)
From Coq Require Import ZArith Reals Lia Lra Bool Psatz Floats.SpecFloat.
From Flocq Require Import Core Relative BinarySingleNaN.
From Verif.Model Require Import UnbindFloat.
From Verif.Spec Require Import Float.
From Verif.Proofs Require Import FloatProofs.
Local Open Scope Z_scope.

Section Float.
  Variables prec emax : Z.
  Context (P1 : Prec_gt_0 prec).
  Context (P2 : Prec_lt_emax prec emax).
  Hypothesis prec2 : 2 <= prec.
  Local Notation emin := (SpecFloat.emin prec emax).
  Local Notation fexp := (SpecFloat.fexp prec emax).
  Local Notation bfloat := (binary_float prec emax).
  Local Notation rnd := (round radix2 fexp ZnearestE).
  Local Instance fexp_ok' : Valid_exp fexp := FLT_exp_valid emin prec.
  Local Notation u := (bpow radix2 (- prec)).

  Definition conv (z : Z) : bfloat := BinarySingleNaN.binary_normalize prec emax P1 P2 mode_NE z 0 false.
  Lemma conv_eq z : sf_of_Z prec emax z = B2SF (conv z).
  Proof. apply normalize_eq. Qed.
  Lemma conv_ok z : 0 <= z -> (B2R (conv z) = rnd (IZR z) /\ is_finite (conv z) = true) \/ (B2SF (conv z) = S754_infinity false /\ (bpow radix2 emax <= rnd (IZR z))%R).
  Proof.
    intros Hz. pose proof (binary_normalize_correct prec emax P1 P2 mode_NE z 0 false) as HC. cbv zeta in HC.
    assert (EF : F2R (Float radix2 z 0) = IZR z) by (unfold F2R; cbn; ring). rewrite EF in HC. cbn [round_mode] in HC. unfold conv.
    assert (H0 : (0 <= rnd (IZR z))%R). { replace 0%R with (rnd 0) by apply round_0, valid_rnd_N. apply (rnd_le prec emax P1). apply IZR_le. exact Hz. }
    destruct (Rlt_bool_spec (Rabs (rnd (IZR z))) (bpow radix2 emax)) as [Hlt|Hge].
    - left. split; apply HC.
    - right. rewrite HC. rewrite Rabs_pos_eq in Hge by exact H0. split; [|exact Hge]. rewrite Rlt_bool_false by (apply IZR_le; exact Hz). reflexivity.
  Qed.
  Lemma u_small : (0 < u <= / 4)%R.
  Proof. split; [apply bpow_gt_0|]. replace (/ 4)%R with (bpow radix2 (-2)) by reflexivity. apply bpow_le. lia. Qed.
  Lemma rel x : (bpow radix2 (2 - emax) <= x)%R -> (x * (1 - u) <= rnd x <= x * (1 + u))%R.
  Proof.
    intros Hx. assert (Hp : (0 < x)%R) by (eapply Rlt_le_trans; [apply bpow_gt_0|exact Hx]).
    pose proof (relative_error_N_FLT radix2 emin prec P1 (fun x => negb (Z.even x)) x) as HE. rewrite Rabs_pos_eq with (x := x) in HE by lra.
    assert (E2 : (/ 2 * bpow radix2 (- prec + 1) = u)%R). { rewrite bpow_plus. cbn [bpow]. change (Z.pow_pos radix2 1) with 2%Z. lra. }
    rewrite E2 in HE. replace (emin + prec - 1) with (2 - emax) in HE by (unfold SpecFloat.emin; lia). specialize (HE Hx).
    change (FLT_exp emin prec) with fexp in HE. apply Rabs_le_inv in HE. lra.
  Qed.
  Lemma one_normal : (bpow radix2 (2 - emax) <= 1)%R.
  Proof. change 1%R with (bpow radix2 0). apply bpow_le. unfold Prec_lt_emax in P2. lia. Qed.
  Lemma conv_rel z : 0 <= z -> (IZR z * (1 - u) <= rnd (IZR z) <= IZR z * (1 + u))%R.
  Proof.
    intros Hz. destruct (Z.eq_dec z 0) as [->|Hn].
    - rewrite round_0 by apply valid_rnd_N. lra.
    - apply rel. pose proof one_normal. assert (1 <= IZR z)%R by (apply IZR_le; lia). lra.
  Qed.
  Lemma conv_fine z : 0 <= z -> (IZR z <= bpow radix2 (emax - 1))%R -> B2R (conv z) = rnd (IZR z) /\ is_finite (conv z) = true.
  Proof.
    intros Hz Hb. destruct (conv_ok z Hz) as [H|[_ H]]; [exact H|]. exfalso. pose proof (conv_rel z Hz) as [_ H1]. pose proof u_small.
    assert (E : (bpow radix2 emax = 2 * bpow radix2 (emax - 1))%R). { replace emax with (1 + (emax - 1)) at 1 by ring. rewrite bpow_plus. reflexivity. }
    assert (0 < bpow radix2 (emax - 1))%R by apply bpow_gt_0. assert (0 <= IZR z)%R by (apply IZR_le; exact Hz). nra.
  Qed.
  Lemma rnd_pos x : (0 <= x)%R -> (0 <= rnd x)%R.
  Proof. intros Hx. replace 0%R with (rnd 0) by apply round_0, valid_rnd_N. apply (rnd_le prec emax P1). exact Hx. Qed.
  Lemma positive_shape (x : bfloat) : (0 < B2R x)%R -> exists m e H, x = B754_finite false m e H.
  Proof.
    destruct x as [s|s| |s m e H]; cbn; intros Hx; try lra. destruct s; [|eauto]. exfalso. assert (F2R (Float radix2 (Z.neg m) e) < 0)%R by (apply F2R_lt_0; reflexivity). cbn in Hx. lra.
  Qed.

  Lemma converged_self (p : bfloat) n : 0 <= n -> is_finite p = true -> (0 < B2R p <= 1)%R -> SFleb (SFmul prec emax (sf_of_Z prec emax n) (B2SF p)) (sf_of_Z prec emax n) = true.
  Proof.
    intros Hn Fp Hp. rewrite conv_eq. destruct (conv_ok n Hn) as [[HR HF]|[HI _]].
    - rewrite (mul_eq prec emax P1 P2). change (Bleb (Bmult mode_NE (conv n) p) (conv n) = true).
      assert (H0 : (0 <= B2R (conv n))%R) by (rewrite HR; apply rnd_pos, IZR_le; exact Hn).
      assert (Hle : (rnd (B2R (conv n) * B2R p) <= B2R (conv n))%R).
      { rewrite <- (rnd_id prec emax (B2R (conv n))) at 2 by apply generic_format_B2R. apply (rnd_le prec emax P1). nra. }
      pose proof (Bmult_correct prec emax P1 P2 mode_NE (conv n) p) as HC. cbn [round_mode] in HC.
      assert (H1 : (0 <= rnd (B2R (conv n) * B2R p))%R) by (apply rnd_pos; nra).
      rewrite Rlt_bool_true in HC. 2:{ rewrite Rabs_pos_eq by exact H1. eapply Rle_lt_trans; [exact Hle|]. eapply Rle_lt_trans; [apply Rle_abs|]. apply abs_B2R_lt_emax. }
      destruct HC as (A & B & _). rewrite Bleb_correct; [|rewrite B, HF, Fp; reflexivity|exact HF]. rewrite A. apply Rle_bool_true. exact Hle.
    - rewrite HI. destruct (positive_shape p (proj1 Hp)) as (m & e & H & ->). reflexivity.
  Qed.

  Lemma trunc_ok (x : bfloat) : is_finite x = true -> (0 <= B2R x)%R -> sf_trunc (B2SF x) = Some (Zfloor (B2R x)).
  Proof.
    destruct x as [s|s| |s m e H]; cbn [is_finite B2SF sf_trunc B2R]; intros Hf H0; try discriminate.
    - rewrite Zfloor_IZR. reflexivity.
    - destruct s. { exfalso. assert (F2R (Float radix2 (Z.neg m) e) < 0)%R by (apply F2R_lt_0; reflexivity). change (cond_Zopp true (Z.pos m)) with (Z.neg m) in H0. lra. }
      f_equal. cbn [cond_Zopp]. destruct (Z.leb_spec 0 e) as [He|He].
      + unfold F2R. cbn [Fnum Fexp]. rewrite <- (IZR_Zpower radix2) by exact He. rewrite <- mult_IZR, Zfloor_IZR. reflexivity.
      + rewrite <- Zfloor_div by (apply Z.pow_nonzero; lia). f_equal. unfold F2R. cbn [Fnum Fexp]. unfold Rdiv. f_equal.
        rewrite <- (Z.opp_involutive e) at 2. rewrite bpow_opp. f_equal. change 2 with (radix_val radix2). apply (IZR_Zpower radix2). lia.
  Qed.
  (** The product of a count and a positive real. *)
  Lemma product_cases (r : bfloat) n : 0 <= n -> is_finite r = true -> (0 < B2R r)%R ->
    sf_trunc (SFmul prec emax (sf_of_Z prec emax n) (B2SF r)) = None \/
    (B2R (conv n) = rnd (IZR n) /\ sf_trunc (SFmul prec emax (sf_of_Z prec emax n) (B2SF r)) = Some (Zfloor (rnd (rnd (IZR n) * B2R r)))).
  Proof.
    intros Hn Fr Hr. rewrite conv_eq. destruct (conv_ok n Hn) as [[HR HF]|[HI _]].
    - rewrite (mul_eq prec emax P1 P2). pose proof (Bmult_correct prec emax P1 P2 mode_NE (conv n) r) as HC. cbn [round_mode] in HC.
      assert (H0 : (0 <= B2R (conv n))%R) by (rewrite HR; apply rnd_pos, IZR_le; exact Hn). assert (H1 : (0 <= rnd (B2R (conv n) * B2R r))%R) by (apply rnd_pos; nra).
      destruct (Rlt_bool_spec (Rabs (rnd (B2R (conv n) * B2R r))) (bpow radix2 emax)) as [Hlt|Hge].
      + right. split; [exact HR|]. destruct HC as (A & B & _). rewrite trunc_ok; [|rewrite B, HF, Fr; reflexivity|rewrite A; exact H1]. rewrite A, HR. reflexivity.
      + left. rewrite HC. destruct (xorb _ _); reflexivity.
    - left. rewrite HI. destruct (positive_shape r Hr) as (m & e & H & ->). reflexivity.
  Qed.
  Lemma allowed_enough (r : bfloat) n : 0 <= n -> ((1 + 4 * u <= B2R r)%R \/ ((1 <= B2R r)%R /\ n < 2 ^ prec)) -> is_finite r = true -> (IZR n <= rnd (rnd (IZR n) * B2R r))%R.
  Proof.
    intros Hn Hc Fr. pose proof u_small as Hu. destruct (Z.eq_dec n 0) as [->|Hn0]; [apply rnd_pos; rewrite round_0 by apply valid_rnd_N; lra|]. assert (Hn1 : (1 <= IZR n)%R) by (apply IZR_le; lia). destruct Hc as [Hr|[Hr Hs]].
    - pose proof (conv_rel n Hn) as [Hf _]. set (f := rnd (IZR n)) in *. assert (H1 : (IZR n <= f * B2R r)%R).
      { apply Rle_trans with (IZR n * (1 - u) * (1 + 4 * u))%R; [assert (1 <= (1 - u) * (1 + 4 * u))%R by nra; nra|]. apply Rmult_le_compat; try lra. nra. }
      pose proof one_normal. pose proof (rel (f * B2R r) ltac:(lra)) as [H2 _]. eapply Rle_trans; [|exact H2].
      apply Rle_trans with (IZR n * (1 - u) * (1 + 4 * u) * (1 - u))%R. { assert (1 <= (1 - u) * (1 + 4 * u) * (1 - u))%R by nra. nra. }
      apply Rmult_le_compat_r; [lra|]. apply Rmult_le_compat; try lra. nra.
    - rewrite (rnd_id prec emax (IZR n)) by (apply (small_format prec emax P1 P2); lia). rewrite <- (rnd_id prec emax (IZR n)) at 1 by (apply (small_format prec emax P1 P2); lia).
      apply (rnd_le prec emax P1). nra.
  Qed.
  Lemma product_rel (r : R) n : 0 <= n -> (bpow radix2 (2 - emax) * 2 <= r)%R -> (IZR n * r * (1 - 3 * u) <= rnd (rnd (IZR n) * r) <= IZR n * r * (1 + 3 * u))%R.
  Proof.
    intros Hn Hr. pose proof u_small as Hu. pose proof (bpow_gt_0 radix2 (2 - emax)) as Hb. destruct (Z.eq_dec n 0) as [->|Hn0]; [rewrite round_0 by apply valid_rnd_N; rewrite Rmult_0_l, round_0 by apply valid_rnd_N; lra|].
    assert (Hn1 : (1 <= IZR n)%R) by (apply IZR_le; lia). pose proof (conv_rel n Hn) as Hf. set (f := rnd (IZR n)) in *.
    assert (Hx : (IZR n * r * (1 - u) <= f * r <= IZR n * r * (1 + u))%R) by (split; nra). assert (H0 : (r <= IZR n * r)%R) by nra.
    destruct (rel (f * r)) as [A B]; [nra|]. assert (Hp : (0 < IZR n * r)%R) by nra. set (y := (IZR n * r)%R) in *. split.
    - eapply Rle_trans; [|exact A]. apply Rle_trans with (y * (1 - u) * (1 - u))%R; [nra|]. apply Rmult_le_compat_r; lra.
    - eapply Rle_trans; [exact B|]. apply Rle_trans with (y * (1 + u) * (1 + u))%R; [apply Rmult_le_compat_r; lra|]. nra.
  Qed.
  Lemma product_fine (r : bfloat) n : 0 <= n -> is_finite r = true -> (bpow radix2 (2 - emax) * 2 <= B2R r)%R -> (IZR n <= bpow radix2 (emax - 1))%R -> (IZR n * B2R r <= bpow radix2 (emax - 1))%R ->
    B2R (Bmult mode_NE (conv n) r) = rnd (rnd (IZR n) * B2R r) /\ is_finite (Bmult mode_NE (conv n) r) = true.
  Proof.
    intros Hn Fr Hr Hb Hc. destruct (conv_fine n Hn Hb) as [HR HF]. pose proof (Bmult_correct prec emax P1 P2 mode_NE (conv n) r) as HC. cbn [round_mode] in HC. rewrite HR in HC.
    pose proof (product_rel (B2R r) n Hn Hr) as [_ H1]. pose proof u_small as Hu. pose proof (bpow_gt_0 radix2 (2 - emax)) as Hz.
    assert (E : (bpow radix2 emax = 2 * bpow radix2 (emax - 1))%R). { replace emax with (1 + (emax - 1)) at 1 by ring. rewrite bpow_plus. reflexivity. }
    assert (0 < bpow radix2 (emax - 1))%R by apply bpow_gt_0. assert (Hn0 : (0 <= IZR n)%R) by (apply IZR_le; exact Hn).
    rewrite Rlt_bool_true in HC.
    - destruct HC as (A & B & _). split; [exact A|]. rewrite B, HF, Fr. reflexivity.
    - rewrite Rabs_pos_eq by (apply rnd_pos; apply Rmult_le_pos; [apply rnd_pos; exact Hn0|lra]). eapply Rle_lt_trans; [exact H1|]. rewrite E. assert (0 <= IZR n * B2R r)%R by nra. nra.
  Qed.
End Float.
