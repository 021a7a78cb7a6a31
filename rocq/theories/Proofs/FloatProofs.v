(** The wrapping of coordinates in floating point, with Flocq. *)
From Coq Require Import ZArith Reals Lia Lra Bool Psatz Floats.SpecFloat.
From Flocq Require Import Core Relative BinarySingleNaN.
From Verif.Model Require Import Mymath.
From Verif.Spec Require Import Float.
Local Open Scope Z_scope.

Lemma value_SF2R x : value x = SF2R radix2 x.
Proof.
  destruct x as [s|s| |s m e]; try reflexivity. cbn [value SF2R]. unfold F2R. cbn [Fnum Fexp]. rewrite bpow_powerRZ. change (IZR radix2) with 2%R. destruct s; cbn [cond_Zopp].
  - change (Z.neg m) with (- Z.pos m)%Z. rewrite opp_IZR. ring.
  - ring.
Qed.

Section Float.
  Variables prec emax : Z.
  Context (prec_gt_0_ : Prec_gt_0 prec).
  Context (prec_lt_emax_ : Prec_lt_emax prec emax).
  Local Notation emin := (SpecFloat.emin prec emax).
  Local Notation fexp := (SpecFloat.fexp prec emax).
  Local Notation bfloat := (binary_float prec emax).
  Local Notation rnd := (round radix2 fexp ZnearestE).
  Local Instance fexp_ok : Valid_exp fexp := FLT_exp_valid emin prec.
  Local Notation ulp1 := (bpow radix2 (- prec)).

  (** ** The operations of the model are those of Flocq, as in its PrimFloat.v *)
  Lemma round_ne s m l : round_nearest_even m l = choice_mode mode_NE s m l.
  Proof. destruct l as [|c]; [reflexivity|]. destruct c; [|reflexivity|reflexivity]. cbn. unfold Round.cond_incr. destruct (Z.even m); reflexivity. Qed.
  Lemma round_aux sx mx ex lx : SpecFloat.binary_round_aux prec emax sx mx ex lx = BinarySingleNaN.binary_round_aux prec emax mode_NE sx mx ex lx.
  Proof. unfold SpecFloat.binary_round_aux, BinarySingleNaN.binary_round_aux. destruct (shr_fexp _ _ _) as [mrs e]; cbn. rewrite (round_ne sx). reflexivity. Qed.
  Lemma round_eq s m e : SpecFloat.binary_round prec emax s m e = BinarySingleNaN.binary_round prec emax mode_NE s m e.
  Proof. unfold SpecFloat.binary_round, BinarySingleNaN.binary_round, shl_align_fexp. destruct (shl_align _ _ _) as [mz ez]. apply round_aux. Qed.
  Lemma normalize_eq m e sz : SpecFloat.binary_normalize prec emax m e sz = B2SF (BinarySingleNaN.binary_normalize prec emax prec_gt_0_ prec_lt_emax_ mode_NE m e sz).
  Proof. destruct m as [|p|p]; [reflexivity| |]; cbn; rewrite B2SF_SF2B; apply round_eq. Qed.
  Lemma mul_eq (x y : bfloat) : SFmul prec emax (B2SF x) (B2SF y) = B2SF (Bmult mode_NE x y).
  Proof. destruct x as [sx|sx| |sx mx ex Bx], y as [sy|sy| |sy my ey By]; try reflexivity. cbn. rewrite B2SF_SF2B. apply round_aux. Qed.
  Lemma sub_eq (x y : bfloat) : SFsub prec emax (B2SF x) (B2SF y) = B2SF (Bminus mode_NE x y).
  Proof.
    destruct x as [sx|sx| |sx mx ex Bx], y as [sy|sy| |sy my ey By]; try reflexivity; try (cbn; destruct (Bool.eqb _ _); reflexivity).
    cbn. unfold Zminus. rewrite <- cond_Zopp_negb. apply normalize_eq.
  Qed.
  Lemma div_eq (x y : bfloat) : SFdiv prec emax (B2SF x) (B2SF y) = B2SF (Bdiv mode_NE x y).
  Proof.
    destruct x as [sx|sx| |sx mx ex Bx], y as [sy|sy| |sy my ey By]; try reflexivity. cbn. rewrite B2SF_SF2B. destruct (SFdiv_core_binary _ _ _ _ _ _) as [[mz ez] lz]. apply round_aux.
  Qed.

  (** ** floor *)
  Lemma emin_le : emin <= 1 - prec.
  Proof. unfold SpecFloat.emin. unfold Prec_gt_0, Prec_lt_emax in *. lia. Qed.
  Lemma small_format z : Z.abs z < 2 ^ prec -> generic_format radix2 fexp (IZR z).
  Proof.
    intros Hz. apply generic_format_FLT. exists (Float radix2 z 0); cbn; [unfold F2R; cbn; ring|exact Hz|]. pose proof emin_le. unfold Prec_gt_0 in *. lia.
  Qed.
  Lemma floor_ok (y : bfloat) : is_finite y = true -> exists z : bfloat, B2SF z = sf_floor prec emax (B2SF y) /\ is_finite z = true /\ B2R z = IZR (Zfloor (B2R y)).
  Proof.
    destruct y as [s|s| |s m e Hb]; intros Hf; try discriminate.
    - exists (B754_zero s). cbn. split; [reflexivity|]. split; [reflexivity|]. rewrite Zfloor_IZR. reflexivity.
    - cbn [B2SF sf_floor]. destruct (0 <=? e) eqn:Ee.
      + exists (B754_finite s m e Hb). split; [reflexivity|]. split; [reflexivity|]. apply Z.leb_le in Ee. cbn [B2R]. unfold F2R. cbn [Fnum Fexp]. rewrite <- (IZR_Zpower radix2) by exact Ee. rewrite <- mult_IZR. rewrite Zfloor_IZR. reflexivity.
      + apply Z.leb_gt in Ee. assert (Ez : Zfloor (B2R (B754_finite s m e Hb)) = (if s then Z.neg m else Z.pos m) / 2 ^ (- e)).
        { cbn [B2R]. rewrite <- Zfloor_div by (apply Z.pow_nonzero; lia). f_equal. unfold F2R. cbn [Fnum Fexp]. replace (cond_Zopp s (Z.pos m)) with (if s then Z.neg m else Z.pos m) by (destruct s; reflexivity). unfold Rdiv. f_equal.
          rewrite <- (Z.opp_involutive e) at 1. rewrite bpow_opp. f_equal. change 2 with (radix_val radix2). symmetry. apply (IZR_Zpower radix2). lia. }
        set (z := (if s then Z.neg m else Z.pos m) / 2 ^ (- e)) in *.
        assert (Hm : Z.abs (if s then Z.neg m else Z.pos m) < 2 ^ prec).
        { replace (Z.abs (if s then Z.neg m else Z.pos m)) with (Z.pos m) by (destruct s; reflexivity). assert (Hb1 := Hb). unfold SpecFloat.bounded in Hb1. apply andb_prop in Hb1 as [Hb1 _]. unfold SpecFloat.canonical_mantissa in Hb1. apply Zeq_bool_eq in Hb1. unfold SpecFloat.fexp in Hb1.
          assert (Hd : Z.pos (digits2_pos m) <= prec) by lia. rewrite Digits.Zpos_digits2_pos in Hd. apply (Digits.Zpower_gt_Zdigits radix2 prec (Z.pos m) Hd). }
        assert (Hz : Z.abs z < 2 ^ prec).
        { unfold z. assert (H2 : 2 <= 2 ^ (- e)). { change 2 with (2 ^ 1) at 1. apply Z.pow_le_mono_r; lia. } set (a := if s then Z.neg m else Z.pos m) in *. set (b := 2 ^ (- e)) in *. 
          assert (- Z.abs a <= a / b <= Z.abs a). { split; [apply Z.div_le_lower_bound; nia|apply Z.div_le_upper_bound; nia]. } lia. }
        assert (G : forall sz, exists zf : bfloat, B2SF zf = SpecFloat.binary_normalize prec emax z 0 sz /\ is_finite zf = true /\ B2R zf = IZR z).
        { intros sz. exists (BinarySingleNaN.binary_normalize prec emax prec_gt_0_ prec_lt_emax_ mode_NE z 0 sz). rewrite normalize_eq. split; [reflexivity|].
          pose proof (binary_normalize_correct prec emax prec_gt_0_ prec_lt_emax_ mode_NE z 0 sz) as HC. cbv zeta in HC. assert (EF : F2R (Float radix2 z 0) = IZR z) by (unfold F2R; cbn; ring). rewrite EF in HC. cbn [round_mode] in HC.
          rewrite round_generic in HC by (auto with typeclass_instances; apply small_format; exact Hz). rewrite Rlt_bool_true in HC; [split; apply HC|].
          rewrite <- abs_IZR. apply Rlt_le_trans with (IZR (2 ^ prec)); [apply IZR_lt; exact Hz|]. change 2 with (radix_val radix2). rewrite (IZR_Zpower radix2) by (unfold Prec_gt_0 in *; lia). apply bpow_le. unfold Prec_lt_emax in *. lia. }
        rewrite Ez. destruct z as [|p|p] eqn:Ezz.
        * exists (B754_zero s). split; [reflexivity|]. split; reflexivity.
        * apply G.
        * apply G.
  Qed.

  (** ** The error of rounding *)
  Lemma ulp1_pos : (0 < ulp1)%R.
  Proof. apply bpow_gt_0. Qed.
  Lemma err t : exists eps eta, (Rabs eps <= ulp1)%R /\ (Rabs eta <= bpow radix2 (emin - 1))%R /\ (eps * eta = 0)%R /\ rnd t = (t * (1 + eps) + eta)%R.
  Proof.
    destruct (error_N_FLT radix2 emin prec prec_gt_0_ (fun x => negb (Z.even x)) t) as (eps & eta & H1 & H2 & H3 & H4). exists eps, eta.
    assert (E2 : (/ 2 = bpow radix2 (-1))%R) by reflexivity. rewrite E2, <- bpow_plus in H1, H2. replace (-1 + (- prec + 1)) with (- prec) in H1 by ring. replace (-1 + emin) with (emin - 1) in H2 by ring. auto.
  Qed.
  Lemma one_format : generic_format radix2 fexp 1.
  Proof. apply small_format. change (Z.abs 1) with (2 ^ 0). apply Z.pow_lt_mono_r; unfold Prec_gt_0 in *; lia. Qed.
  Lemma rnd_le a b : (a <= b)%R -> (rnd a <= rnd b)%R.
  Proof. apply round_le; auto with typeclass_instances. Qed.
  Lemma rnd_id a : generic_format radix2 fexp a -> rnd a = a.
  Proof. intros. apply round_generic; auto with typeclass_instances. Qed.

  Lemma part_le f l e u : (0 <= f <= 1)%R -> (0 < l)%R -> (Rabs e <= u)%R -> (Rabs (f * l * e) <= u * l)%R.
  Proof using.
    clear. intros Hf Hl He. rewrite !Rabs_mult, (Rabs_pos_eq f), (Rabs_pos_eq l) by lra. pose proof (Rabs_pos e). assert (f * Rabs e <= u)%R by nra. nra.
  Qed.

  (** ** The result *)
  Section Result.
    Variables x L : bfloat.
    Hypothesis Fx : is_finite x = true.
    Hypothesis FL : is_finite L = true.
    Hypothesis HL : (bpow radix2 (emin + prec - 1) <= B2R L)%R.
    Hypothesis Hx : (Rabs (B2R x) <= bpow radix2 (emax - 1) * B2R L)%R.
    Let L0 : (0 < B2R L)%R.
    Proof. eapply Rlt_le_trans; [apply bpow_gt_0|exact HL]. Qed.
    Let tiny : (bpow radix2 (emin - 1) <= ulp1 * B2R L)%R.
    Proof. replace (emin - 1) with (- prec + (emin + prec - 1)) by ring. rewrite bpow_plus. apply Rmult_le_compat_l; [apply bpow_ge_0|exact HL]. Qed.
    Let tiny1 : (bpow radix2 (emin - 1) <= ulp1)%R.
    Proof. apply bpow_le. pose proof emin_le. lia. Qed.

    Definition quotient : bfloat := Bdiv mode_NE x L.
    Lemma quotient_ok : B2R quotient = rnd (B2R x / B2R L) /\ is_finite quotient = true.
    Proof using L0 Fx Hx.
      pose proof (Bdiv_correct prec emax prec_gt_0_ prec_lt_emax_ mode_NE x L) as HC. cbn [round_mode] in HC. rewrite Rlt_bool_true in HC; [|].
      - destruct HC as (A & B & _); [lra|]. split; [exact A|]. unfold quotient. rewrite B. exact Fx.
      - apply Rle_lt_trans with (bpow radix2 (emax - 1)); [|apply bpow_lt; lia]. apply abs_round_le_generic; auto with typeclass_instances.
        + apply generic_format_FLT_bpow; [exact prec_gt_0_|]. pose proof emin_le. unfold Prec_gt_0, Prec_lt_emax in *. lia.
        + unfold Rdiv. rewrite Rabs_mult, Rabs_inv, (Rabs_pos_eq (B2R L)) by lra. apply Rmult_le_reg_r with (B2R L); [exact L0|]. rewrite Rmult_assoc, Rinv_l by lra. lra.
    Qed.
    Lemma total_error q k : q = rnd (B2R x / B2R L) -> (0 <= q - IZR k < 1)%R -> forall fr, fr = rnd (q - IZR k) -> (0 <= fr <= 1)%R ->
      (Rabs (rnd (fr * B2R L) - (B2R x - IZR k * B2R L)) <= ulp1 * (Rabs (B2R x) + 5 * B2R L))%R.
    Proof using L0 tiny tiny1.
      intros Eq Hf fr Efr Hf1. destruct (err (B2R x / B2R L)) as (e1 & h1 & A1 & B1 & _ & C1). destruct (err (q - IZR k)) as (e2 & h2 & A2 & B2 & _ & C2). destruct (err (fr * B2R L)) as (e3 & h3 & A3 & B3 & _ & C3). rewrite <- Efr in C2. rewrite <- Eq in C1.
      assert (C1' : (q * B2R L = B2R x * (1 + e1) + h1 * B2R L)%R) by (rewrite C1; field; lra). assert (C2' : (fr * B2R L = B2R L * (q - IZR k) + B2R L * ((q - IZR k) * e2) + B2R L * h2)%R) by (rewrite C2; ring).
      assert (T1 : (Rabs (fr * B2R L * e3) <= ulp1 * B2R L)%R) by (apply part_le; assumption).
      assert (T2 : (Rabs (B2R L * ((q - IZR k) * e2)) <= ulp1 * B2R L)%R) by (replace (B2R L * ((q - IZR k) * e2))%R with ((q - IZR k) * B2R L * e2)%R by ring; apply part_le; [lra|exact L0|exact A2]).
      assert (T3 : (Rabs (B2R L * h2) <= ulp1 * B2R L)%R) by (replace (B2R L * h2)%R with (1 * B2R L * h2)%R by ring; apply part_le; lra).
      assert (T4 : (Rabs (B2R L * h1) <= ulp1 * B2R L)%R) by (replace (B2R L * h1)%R with (1 * B2R L * h1)%R by ring; apply part_le; lra).
      assert (T5 : (Rabs (B2R x * e1) <= ulp1 * Rabs (B2R x))%R) by (rewrite Rabs_mult, Rmult_comm; apply Rmult_le_compat_r; [apply Rabs_pos|exact A1]).
      assert (T6 : (Rabs h3 <= ulp1 * B2R L)%R) by lra.
      replace (rnd (fr * B2R L) - (B2R x - IZR k * B2R L))%R with (fr * B2R L * e3 + h3 + B2R L * ((q - IZR k) * e2) + B2R L * h2 + B2R x * e1 + B2R L * h1)%R by (rewrite C3; lra).
      rewrite Rmult_plus_distr_l. apply Rabs_le_inv in T1, T2, T3, T4, T5, T6. apply Rabs_le. lra.
    Qed.
    Lemma wrapped : exists r : bfloat, B2SF r = position_modulus_f prec emax (B2SF x) (B2SF L) /\ is_finite r = true /\
      (0 <= B2R r <= B2R L)%R /\ ((0 <= B2R x)%R -> (B2R r < B2R L)%R) /\ ((0 <= B2R x < B2R L)%R -> r = x) /\
      exists k : Z, (Rabs (B2R r - (B2R x - IZR k * B2R L)) <= ulp1 * (Rabs (B2R x) + 5 * B2R L))%R.
    Proof using L0 tiny tiny1 Fx FL HL Hx.
      pose proof ulp1_pos as Hu. pose proof (Rabs_pos (B2R x)) as Hax. unfold position_modulus_f.
      assert (Ec : SFleb (S754_zero false) (B2SF x) && SFltb (B2SF x) (B2SF L) = Rle_bool 0 (B2R x) && Rlt_bool (B2R x) (B2R L)).
      { pose proof (Bleb_correct prec emax (B754_zero false) x eq_refl Fx) as H1. pose proof (Bltb_correct prec emax x L Fx FL) as H2. unfold Bleb, Bltb in *. cbn [B2SF B2R] in *. rewrite H1, H2. reflexivity. }
      rewrite Ec. destruct (Rle_bool_spec 0 (B2R x)) as [P0|P0]; [destruct (Rlt_bool_spec (B2R x) (B2R L)) as [P1|P1]|]; cbn [andb].
      { exists x. split; [reflexivity|]. split; [exact Fx|]. split; [lra|]. split; [auto|]. split; [reflexivity|]. exists 0. replace (B2R x - (B2R x - 0 * B2R L))%R with 0%R by ring. rewrite Rabs_R0. apply Rmult_le_pos; [lra|]. lra. }
      all: destruct quotient_ok as [Eq Fq]; destruct (floor_ok quotient Fq) as (z & Ez & Fz & Rz); set (k := Zfloor (B2R quotient)) in *;
        assert (Hf : (0 <= B2R quotient - IZR k < 1)%R) by (pose proof (Zfloor_lb (B2R quotient)); pose proof (Zfloor_ub (B2R quotient)); unfold k; lra).
      all: rewrite div_eq; fold quotient; rewrite <- Ez, sub_eq, mul_eq.
      all: pose proof (Bminus_correct prec emax prec_gt_0_ prec_lt_emax_ mode_NE quotient z Fq Fz) as HM; cbn [round_mode] in HM; rewrite Rz in HM.
      all: assert (Hf1 : (0 <= rnd (B2R quotient - IZR k) <= 1)%R) by (split; [rewrite <- (rnd_id 0 (generic_format_0 _ _)); apply rnd_le; lra|rewrite <- (rnd_id 1 one_format); apply rnd_le; lra]).
      all: rewrite Rlt_bool_true in HM by (rewrite Rabs_pos_eq by lra; apply Rle_lt_trans with 1%R; [lra|]; change 1%R with (bpow radix2 0); apply bpow_lt; unfold Prec_gt_0, Prec_lt_emax in *; lia).
      all: set (f := Bminus mode_NE quotient z) in *; destruct HM as (Rf & Ff & _).
      all: pose proof (Bmult_correct prec emax prec_gt_0_ prec_lt_emax_ mode_NE f L) as HT; cbn [round_mode] in HT; rewrite Rf in HT; set (fr := rnd (B2R quotient - IZR k)) in *.
      all: assert (Hr : (0 <= rnd (fr * B2R L) <= B2R L)%R) by (split; [rewrite <- (rnd_id 0 (generic_format_0 _ _)); apply rnd_le; nra|rewrite <- (rnd_id (B2R L)) at 2 by (apply generic_format_B2R); apply rnd_le; nra]).
      all: rewrite Rlt_bool_true in HT by (rewrite Rabs_pos_eq by lra; apply Rle_lt_trans with (B2R L); [lra|]; rewrite <- (Rabs_pos_eq (B2R L)) by lra; apply abs_B2R_lt_emax).
      all: destruct HT as (Rr & Fr & _); exists (Bmult mode_NE f L); split; [reflexivity|]; split; [rewrite Fr, Ff; exact FL|]; split; [rewrite Rr; exact Hr|].
      all: assert (Herr : exists k : Z, (Rabs (rnd (fr * B2R L) - (B2R x - IZR k * B2R L)) <= ulp1 * (Rabs (B2R x) + 5 * B2R L))%R) by (exists k; apply (total_error (B2R quotient)); [exact Eq|exact Hf|reflexivity|exact Hf1]).
      all: rewrite Rr.
      - split; [|split; [intros; lra|exact Herr]]. intros _.
        assert (Hq1 : (1 <= B2R quotient)%R). { rewrite Eq, <- (rnd_id 1 one_format). apply rnd_le. apply Rmult_le_reg_r with (B2R L); [exact L0|]. unfold Rdiv. rewrite Rmult_assoc, Rinv_l by lra. lra. }
        assert (Hgap : (B2R quotient - IZR k <= 1 - 2 * ulp1)%R).
        { pose proof (generic_format_B2R prec emax quotient) as HF. unfold generic_format in HF. set (c := cexp radix2 fexp (B2R quotient)) in *. set (mm := Ztrunc (scaled_mantissa radix2 fexp (B2R quotient))) in *. unfold F2R in HF. cbn [Fnum Fexp] in HF.
          assert (Hc : 1 - prec <= c). { unfold c, cexp, SpecFloat.fexp. assert (1 <= mag radix2 (B2R quotient)); [|lia]. apply mag_ge_bpow. cbn. rewrite Rabs_pos_eq; lra. }
          assert (Hp : 0 < prec) by exact prec_gt_0_.
          assert (EN : (B2R quotient * IZR (2 ^ (prec - 1)) = IZR (mm * 2 ^ (c + prec - 1)))%R).
          { rewrite HF, mult_IZR, Rmult_assoc. f_equal. change 2 with (radix_val radix2). rewrite !(IZR_Zpower radix2) by lia. rewrite <- bpow_plus. f_equal. lia. }
          assert (Hlt : (IZR (mm * 2 ^ (c + prec - 1) - k * 2 ^ (prec - 1)) < IZR (2 ^ (prec - 1)))%R). { rewrite minus_IZR, <- EN, mult_IZR, <- Rmult_minus_distr_r. assert (0 < IZR (2 ^ (prec - 1)))%R by (apply IZR_lt; apply Z.pow_pos_nonneg; lia). nra. }
          apply lt_IZR in Hlt. assert (Hle : (IZR (mm * 2 ^ (c + prec - 1) - k * 2 ^ (prec - 1)) <= IZR (2 ^ (prec - 1) - 1))%R) by (apply IZR_le; lia).
          rewrite !minus_IZR, <- EN, mult_IZR, <- Rmult_minus_distr_r in Hle.
          assert (E1 : (2 * ulp1 * IZR (2 ^ (prec - 1)) = 1)%R). { change 2 with (radix_val radix2) at 2. rewrite (IZR_Zpower radix2) by lia. change 2%R with (bpow radix2 1). rewrite <- !bpow_plus. replace (1 + - prec + (prec - 1)) with 0 by ring. reflexivity. }
          assert (HP : (0 < IZR (2 ^ (prec - 1)))%R) by (apply IZR_lt; apply Z.pow_pos_nonneg; lia). apply Rmult_le_reg_r with (IZR (2 ^ (prec - 1))); [exact HP|]. lra. }
        assert (Hfmt : generic_format radix2 fexp (1 - 2 * ulp1)).
        { apply generic_format_FLT. exists (Float radix2 (2 ^ (prec - 1) - 1) (1 - prec)); cbn [Fnum Fexp].
          - unfold F2R. cbn [Fnum Fexp]. rewrite minus_IZR. change 2 with (radix_val radix2) at 2. rewrite (IZR_Zpower radix2) by (unfold Prec_gt_0 in *; lia). rewrite Rmult_minus_distr_r, <- bpow_plus. replace (prec - 1 + (1 - prec)) with 0 by ring. replace (1 - prec) with (1 + - prec) by ring. rewrite bpow_plus. cbn [bpow]. change (Z.pow_pos radix2 1) with 2. lra.
          - change (radix_val radix2) with 2. assert (0 < 2 ^ (prec - 1)) by (apply Z.pow_pos_nonneg; unfold Prec_gt_0 in *; lia). assert (2 ^ (prec - 1) < 2 ^ prec) by (apply Z.pow_lt_mono_r; unfold Prec_gt_0 in *; lia). lia.
          - apply emin_le. }
        assert (Hfr : (fr <= 1 - 2 * ulp1)%R) by (unfold fr; rewrite <- (rnd_id _ Hfmt); apply rnd_le; exact Hgap).
        destruct (err (fr * B2R L)) as (e3 & h3 & A3 & B3 & Z3 & C3). rewrite C3. apply Rmult_integral in Z3. apply Rabs_le_inv in A3. apply Rabs_le_inv in B3.
        assert (HfL : (fr * B2R L <= B2R L - 2 * ulp1 * B2R L)%R) by nra. assert (HuL : (0 < ulp1 * B2R L)%R) by nra. destruct Z3 as [-> | ->]; [lra|]. assert ((fr * B2R L) * e3 <= ulp1 * B2R L)%R by (assert (0 <= fr * B2R L <= B2R L)%R by nra; nra). lra.
      - split; [intros; lra|]. split; [intros; lra|exact Herr].
    Qed.
  End Result.
End Float.
