(** Properties C76 and C77: the cosmology and the two overdensity sizes for equal masses. *)
From Coq Require Import List Reals Lra Lia Arith Sorted Machin.
From Verif.Model Require Import Run Cosmology.
From Verif.Spec Require Import Cosmology.
From Verif.Proofs Require Import CosmologyProofs.
Import ListNotations.
Local Open Scope R_scope.

(** C76: [Set] gives the expansion rate of the Friedmann equation and the ratio of matter density and critical density. *)
Theorem C76_expansion : forall G H0 a om ol, 0 < G -> 0 < H0 -> 0 < a -> 0 < friedmann a om ol ->
  let c := Set_cosmology H0 a om ol in
  0 < Hz c /\ Hz c ^ 2 = H0 ^ 2 * friedmann a om ol /\
  OmegaZ c * critical G (Hz c) = om * critical G H0 / a ^ 3 /\
  OmegaM0 c = om /\ OmegaLambda0 c = ol /\ ScaleFactor c = a /\
  (a = 1 -> Hz c = H0 /\ OmegaZ c = om).
Proof.
  intros G H0 a om ol HG HH Ha HE c. cbn [Hz OmegaZ OmegaM0 OmegaLambda0 ScaleFactor c Set_cosmology].
  assert (Ha0 : a <> 0) by lra. assert (P := Hratio_pos a om ol Ha0 HE). assert (S := Hratio_square a om ol Ha0 (Rlt_le _ _ HE)).
  assert (Pi := PI_RGT_0).
  split; [apply Rmult_lt_0_compat; assumption|]. split; [rewrite <- S; ring|].
  split; [unfold critical; field; repeat split; lra|]. repeat (split; [reflexivity|]).
  intros ->. assert (Hratio 1 om ol = 1).
  { unfold Hratio. replace (_ + _ + ol) with 1 by field. apply sqrt_1. }
  rewrite H. split; field.
Qed.
Print Assumptions C76_expansion.

Lemma PI_bounds : 3141592 / 1000000 < PI < 3141593 / 1000000.
Proof.
  assert (H := PI_2_3_7_ineq 3). unfold PI_2_3_7_tg, tg_alt, Ratan_seq in H. cbn [sum_f_R0 Nat.mul Nat.add] in H.
  cbn [pow Nat.add INR] in H. lra.
Qed.

(** C76: the virial factors are 200 times the critical density, 200 times the mean density of matter, and the formula of Bryan
    and Norman for a top-hat within 1/1000; the last is positive and grows with the matter density. *)
Theorem C76_factors : forall G H0 a om ol, 0 < G -> 0 < H0 -> 0 < a -> 0 < friedmann a om ol ->
  let c := Set_cosmology H0 a om ol in let '(tophat, b200, c200) := HaloVirialFactors c in
  c200 * critical G (Hz c) = 200 * critical G (Hz c) /\
  b200 * critical G (Hz c) = 200 * (om * critical G H0 / a ^ 3) /\
  Rabs (tophat - (18 * PI ^ 2 + 82 * (OmegaZ c - 1) - 39 * (OmegaZ c - 1) ^ 2)) < 1 / 1000 /\
  (0 <= OmegaZ c <= 1 -> 0 < tophat) /\
  forall H0' a' om' ol', let c' := Set_cosmology H0' a' om' ol' in 0 <= OmegaZ c < OmegaZ c' -> OmegaZ c' <= 1 ->
    tophat < fst (fst (HaloVirialFactors c')).
Proof.
  intros G H0 a om ol HG HH Ha HE c. destruct (C76_expansion G H0 a om ol HG HH Ha HE) as (_ & _ & E & _). fold c in E.
  unfold HaloVirialFactors. cbv zeta. cbn [fst].
  split; [reflexivity|]. split; [rewrite Rmult_assoc, E; reflexivity|]. split.
  - assert (P := PI_bounds).
    match goal with |- Rabs ?e < _ => replace e with (18 * ((31416 / 10000 - PI) * (31416 / 10000 + PI))) by field end.
    assert (B : 0 <= (31416 / 10000 - PI) * (31416 / 10000 + PI)) by (apply Rmult_le_pos; lra).
    rewrite Rabs_pos_eq by lra. assert (B2 : (31416 / 10000 - PI) * (31416 / 10000 + PI) <= (31416 / 10000 - PI) * (62832 / 10000)) by (apply Rmult_le_compat_l; lra).
    lra.
  - split; [intros; nra|]. intros. nra.
Qed.
Print Assumptions C76_factors.

(** C76: a size reported for a profile is the mass and the comoving radius of a sphere of mean density [factor] times critical,
    for any profile; with the factors above this is 200 times critical or 200 times the mean matter density. *)
Theorem C76_sizes : forall G H0 a om ol factor prof M R, 0 < G -> 0 < H0 -> 0 < a -> 0 < friedmann a om ol -> 0 < factor ->
  Forall (fun p => 0 <= fst p) prof ->
  let c := Set_cosmology H0 a om ol in
  size_of_profile G c factor prof = Some (M, R) ->
  0 < M /\ 0 < R /\ M / ball (a * R) = factor * critical G (Hz c) /\
  (factor = snd (fst (HaloVirialFactors c)) -> M / ball (a * R) = 200 * (om * critical G H0 / a ^ 3)) /\
  exists p, In p prof /\ M = snd p /\ fst p < R.
Proof.
  intros G H0 a om ol factor prof M R HG HH Ha HE Hf Hr c. destruct (C76_expansion G H0 a om ol HG HH Ha HE) as (Hp & _ & E & _). fold c in Hp, E.
  assert (Pi := PI_RGT_0). assert (Rp : 0 < rho_virial G c factor).
  { unfold rho_virial. change (ScaleFactor c) with a. generalize (Hz c) Hp. intros h Hh. unfold Rdiv. repeat apply Rmult_lt_0_compat; try apply Rinv_0_lt_compat; lra. }
  unfold size_of_profile. destruct (scan (rho_virial G c factor) (rev prof)) as [p|] eqn:Es; [|discriminate]. intros X. injection X as <- <-.
  assert (S : In p prof /\ rho_virial G c factor * fst p * fst p * fst p < snd p).
  { rewrite in_rev. revert Es. generalize (rev prof). intros l. induction l as [|q t IH]; cbn; [discriminate|].
    destruct (Rlt_dec _ _) as [L|L]; intros Y; [injection Y as ->; auto|]. destruct (IH Y). auto. }
  destruct S as [I D]. rewrite Forall_forall in Hr. specialize (Hr p I).
  assert (M0 : 0 < snd p). { apply Rle_lt_trans with (2 := D). generalize (rho_virial G c factor) Rp. intros q Hq. repeat apply Rmult_le_pos; lra. }
  assert (Q0 : 0 < snd p / rho_virial G c factor) by (apply Rdiv_lt_0_compat; assumption).
  set (R := pow_third (snd p / rho_virial G c factor)). assert (R0 : 0 < R) by (apply pow_third_pos, Q0).
  assert (C : R ^ 3 = snd p / rho_virial G c factor) by (apply cube_pow_third; lra).
  assert (W : snd p / ball (a * R) = factor * critical G (Hz c)).
  { unfold ball. rewrite Rpow_mult_distr, C. unfold rho_virial, critical. change (ScaleFactor c) with a. field. repeat split; lra. }
  split; [exact M0|]. split; [exact R0|]. split; [exact W|]. split.
  - intros ->. rewrite W. unfold HaloVirialFactors. cbn [fst snd]. rewrite Rmult_assoc, E. reflexivity.
  - exists p. split; [exact I|]. split; [reflexivity|]. apply cube_lt. rewrite C. apply Rmult_lt_reg_l with (rho_virial G c factor); [assumption|].
    replace (_ * (snd p / _)) with (snd p) by (field; lra). lra.
Qed.
Print Assumptions C76_sizes.

(** C76: the critical density in physical units does not depend on the units of the parameter file. *)
Theorem C76_units : forall mass vel len, 0 < mass -> 0 < vel -> 0 < len ->
  critical (set_G mass vel len) (set_H0 vel len) * mass / len ^ 3 = critical (set_G 1 1 1) (set_H0 1 1) /\
  set_H0 vel len * vel / len = 100 /\ 0 < set_G mass vel len /\ 0 < set_H0 vel len.
Proof.
  intros mass vel len Hm Hv Hl. assert (Pi := PI_RGT_0). split; [|split; [|split]].
  - unfold critical, set_G, set_H0. field. repeat split; lra.
  - unfold set_H0. field. split; lra.
  - unfold set_G, Rdiv. repeat apply Rmult_lt_0_compat; try apply Rinv_0_lt_compat; lra.
  - unfold set_H0, Rdiv. rewrite !Rmult_1_l, Rinv_inv. repeat apply Rmult_lt_0_compat; try apply Rinv_0_lt_compat; lra.
Qed.
Print Assumptions C76_units.

(** C76: reading a catalogue restores the cosmology it was saved with, also the numbers that are not stored. *)
Theorem C76_reload : forall H0 c, 0 < H0 -> 0 < ScaleFactor c -> 0 < friedmann (ScaleFactor c) (OmegaM0 c) (OmegaLambda0 c) ->
  0 <= Hz c -> Hz c ^ 2 = H0 ^ 2 * friedmann (ScaleFactor c) (OmegaM0 c) (OmegaLambda0 c) ->
  OmegaZ c * Hz c ^ 2 = OmegaM0 c * H0 ^ 2 / ScaleFactor c ^ 3 ->
  load_cosmology H0 (save_cosmology c) = c.
Proof.
  intros H0 [om ol a hz oz]. cbn [ScaleFactor OmegaM0 OmegaLambda0 Hz OmegaZ]. intros HH Ha HE Hp E O.
  assert (Ha0 : a <> 0) by lra. assert (P := Hratio_pos a om ol Ha0 HE). assert (S := Hratio_square a om ol Ha0 (Rlt_le _ _ HE)).
  assert (Z : Hratio a om ol * H0 = hz).
  { apply Rsqr_inj; [apply Rmult_le_pos; lra|assumption|]. unfold Rsqr. replace (hz * hz) with (hz ^ 2) by ring. rewrite E, <- S. ring. }
  unfold save_cosmology, load_cosmology, Set_cosmology. cbn [ScaleFactor OmegaM0 OmegaLambda0 Hz]. rewrite Z. f_equal.
  assert (0 < hz ^ 2) by (rewrite <- Z; apply pow_lt, Rmult_lt_0_compat; assumption).
  apply Rmult_eq_reg_r with (hz ^ 2); [|lra]. rewrite O, <- Z. field. split; lra.
Qed.
Print Assumptions C76_reload.

Example C76_witness : 0 < friedmann (1 / 2) (3 / 10) (7 / 10) /\
  let c := Set_cosmology 100 (1 / 2) (3 / 10) (7 / 10) in
  let prof := [(1 / 100, 1); (1, 2); (100, 3)] in
  Forall (fun p => 0 <= fst p) prof /\ exists M R, size_of_profile 43 c 200 prof = Some (M, R) /\ M = 1.
Proof.
  assert (F : friedmann (1 / 2) (3 / 10) (7 / 10) = 31 / 10) by (unfold friedmann; field).
  split; [rewrite F; lra|]. intros c prof. split; [repeat constructor; cbn; lra|].
  assert (S : Hz c * Hz c = 31000).
  { cbn [Hz c Set_cosmology]. replace (_ * _) with (Hratio (1 / 2) (3 / 10) (7 / 10) * Hratio (1 / 2) (3 / 10) (7 / 10) * 10000) by ring.
    rewrite Hratio_square by (rewrite ?F; lra). rewrite F. lra. }
  assert (Rv : rho_virial 43 c 200 = 200 * 31000 / 2 / 43 / 8).
  { unfold rho_virial. rewrite (Rmult_assoc 200), S. cbn [ScaleFactor c Set_cosmology]. field. }
  unfold size_of_profile. rewrite Rv. cbn [rev app prof scan fst snd].
  destruct (Rlt_dec _ 3); [lra|]. destruct (Rlt_dec _ 2); [lra|]. destruct (Rlt_dec _ 1); [|lra]. eexists. eexists. split; reflexivity.
Qed.


(** C77: the iterative size always ends.  Its mass is a number n of innermost particles and its radius that of a sphere of mean
    density [factor] times critical with that mass; the particles counted are those inside a radius that differs by less than
    1e-5.  It is never smaller than the size of the brute-force loop, and the same for at most 33334 particles unless the
    outermost particle lies exactly on the sphere. *)
Theorem C77_iterative_size : forall G c factor m rs fuel, 0 < G -> 0 < ScaleFactor c -> 0 < Hz c -> 0 < factor -> 0 < m ->
  Sorted Rle rs -> rs <> [] -> (length rs < fuel)%nat ->
  let a := ScaleFactor c in let rho := factor * critical G (Hz c) in
  exists n R, size_of_sorted2 G c fuel factor m rs = Done (INR n * m, R) /\
    (n <= length rs)%nat /\ 0 <= R /\ rho * ball (a * R) = INR n * m /\
    (exists R', R <= R' /\ R' <= R * (100001 / 100000) /\ Forall (fun r => r <= R') (firstn n rs) /\ Forall (fun r => R' <= r) (skipn n rs)) /\
    forall g, outermost a rho m rs g -> (g <= n)%nat /\
      (INR (length rs) <= 33334 -> rho * ball (a * last rs 0) <> INR (length rs) * m -> g = n).
Proof.
  intros G c factor m rs fuel HG Ha HH Hf Hm Hs Hne Hfu a rho.
  set (rv := radius_of G c factor m). set (N := length rs).
  assert (Np : (0 < N)%nat) by (unfold N; destruct rs; [congruence|cbn; lia]).
  assert (Hl : exists l, nth_error rs (N - 1) = Some l /\ last rs 0 = l /\ forall d, last rs d = l).
  { unfold N. clear - Hne. induction rs as [|r t IH]; [congruence|]. destruct t as [|r' t]; [exists r; auto|].
    destruct IH as (l & E & L & D); [discriminate|]. exists l. cbn [length] in *. replace (S (S (length t)) - 1)%nat with (S (S (length t) - 1)) by lia.
    split; [exact E|]. split; [exact L|]. exact D. }
  destruct Hl as (l & El & Ll & Dl).
  assert (Cut : forall n x, n = closer x rs -> Forall (fun r => r <= x) (firstn n rs) /\ Forall (fun r => x <= r) (skipn n rs)).
  { intros n x ->. split; apply Forall_forall; intros r I; apply In_nth_error in I; destruct I as [i Ei].
    - assert (Li : (i < length (firstn (closer x rs) rs))%nat) by (apply nth_error_Some; congruence). rewrite firstn_length in Li.
      assert (E2 : nth_error rs i = Some r).
      { rewrite <- (firstn_skipn (closer x rs) rs). rewrite nth_error_app1 by (rewrite firstn_length; lia). exact Ei. }
      left. apply (closer_nth rs Hs x i r E2). lia.
    - assert (Lc := closer_le x rs). assert (E2 : nth_error rs (closer x rs + i) = Some r).
      { rewrite <- (firstn_skipn (closer x rs) rs) at 1. rewrite nth_error_app2 by (rewrite firstn_length; lia).
        replace (closer x rs + i - length (firstn (closer x rs) rs))%nat with i by (rewrite firstn_length; lia). exact Ei. }
      assert (C := closer_nth rs Hs x _ r E2). destruct (Rle_or_lt x r); [assumption|]. apply C in H. lia. }
  assert (Rn : forall n, 0 <= rv n).
  { intros n. destruct n; [unfold rv; rewrite radius_0; lra|]. left. apply radius_pos; auto. lia. }
  assert (Ln : forall g, outermost a rho m rs g -> (g <= N)%nat).
  { intros g [[->|D] _]; [lia|]. apply (dense_iff G c factor m HG Ha HH Hf Hm rs Hs) in D. assert (C := closer_le (radius_of G c factor m g) rs). unfold N. lia. }
  assert (U : size_of_sorted2 G c fuel factor m rs =
              rbind (guess_loop G c fuel factor m rs N l (rv N)) (fun out => Done (INR (fst out) * m, snd out))).
  { unfold size_of_sorted2, N. rewrite <- (Dl (hd 0 rs)). destruct rs; [congruence|reflexivity]. }
  rewrite U. clear U. destruct fuel as [|fuel]; [lia|].
  destruct (Rlt_le_dec (rv N) l) as [L|L].
  - (* the guess is reduced *)
    cbn [guess_loop]. destruct (Rlt_dec (rv N) l) as [_|X]; [|lra]. rewrite (reduce_is rs Hs) by (unfold N; lia).
    set (n1 := closer (rv N) rs). assert (L1 : (n1 < N)%nat).
    { assert (C := closer_nth rs Hs (rv N) _ l El). fold n1 in C. destruct (le_lt_dec N n1); [|assumption]. assert (l < rv N) by (apply C; lia). lra. }
    replace (Nat.min N n1) with n1 by lia. cbv zeta. fold rv.
    assert (Gn : forall g, outermost a rho m rs g -> (g <= n1)%nat).
    { intros g Hg. assert (LN := Ln g Hg). destruct Hg as [[->|D] _]; [lia|].
      apply (dense_iff G c factor m HG Ha HH Hf Hm rs Hs) in D. fold rv in D.
      assert (C := closer_mono (rv g) (rv N) rs (radius_le G c factor m HG Ha HH Hf Hm g N LN)). unfold n1. lia. }
    assert (Zero : forall n p, n = closer (rv p) rs -> n = 0%nat ->
      exists R', rv n <= R' /\ R' <= rv n * (100001 / 100000) /\ Forall (fun r => r <= R') (firstn n rs) /\ Forall (fun r => R' <= r) (skipn n rs)).
    { intros n p E Z. exists 0. unfold rv. rewrite Z, radius_0. destruct (Cut n (rv p) E) as [_ F2]. rewrite Z in F2. cbn [firstn skipn] in *.
      split; [lra|]. split; [lra|]. split; [constructor|]. apply (Forall_impl _) with (2 := F2). intros r Hr. assert (P := Rn p). cbn in Hr. lra. }
    assert (Near : forall n p, n = closer (rv p) rs -> (0 < n <= p)%nat -> Rabs ((rv n - rv p) / rv n) < 1 / 100000 ->
      exists R', rv n <= R' /\ R' <= rv n * (100001 / 100000) /\ Forall (fun r => r <= R') (firstn n rs) /\ Forall (fun r => R' <= r) (skipn n rs)).
    { intros n p E B T. exists (rv p). split; [apply radius_le; auto; lia|]. split; [left; apply (tolerance G c factor m HG Ha HH Hf Hm); assumption|]. apply Cut, E. }
    (* a converged number is a fixed point *)
    assert (Exact : forall n p g, n = closer (rv p) rs -> (g <= n <= p)%nat -> (n < N)%nat ->
      n = 0%nat \/ Rabs ((rv n - rv p) / rv n) < 1 / 100000 -> outermost a rho m rs g -> INR N <= 33334 -> g = n).
    { intros n p g E B Bn T Hg Hn. destruct T as [Z|T]; [lia|]. destruct (Nat.eq_dec n 0) as [Z|Z]; [lia|].
      destruct (Nat.eq_dec n p) as [Ep|Np'].
      - apply (outermost_fun G c factor m rs g n); [assumption|]. destruct Hg as [Hg1 Hg2].
        assert (D : dense a rho m rs n) by (apply (dense_iff G c factor m HG Ha HH Hf Hm rs Hs); fold rv; rewrite <- Ep in E; lia).
        destruct (Nat.eq_dec g n) as [->|Ng]; [split; assumption|]. elim (Hg2 n); [lia|assumption].
      - exfalso. assert (T2 := tolerance G c factor m HG Ha HH Hf Hm n p ltac:(lia) T).
        assert (T3 := tolerance_number G c factor m HG Ha HH Hf Hm n p ltac:(lia) T2).
        assert (INR n + 1 <= INR N) by (rewrite <- S_INR; apply le_INR; lia).
        assert (T4 : IZR 33333 < IZR (Z.of_nat n)) by (rewrite <- INR_IZR_INZ; exact T3). apply lt_IZR in T4.
        assert (T5 : IZR (Z.of_nat N) <= IZR 33334) by (rewrite <- INR_IZR_INZ; exact Hn). apply le_IZR in T5. lia. }
    destruct (Nat.eqb_spec n1 0) as [Z|Z].
    { exists n1, (rv n1). cbn [rbind fst snd]. split; [reflexivity|]. split; [lia|]. split; [apply Rn|].
      split; [apply (at_radius G c factor m HG Ha HH Hf Hm n1); reflexivity|]. split; [apply (Zero n1 N); [reflexivity|assumption]|].
      intros g Hg. assert (Lg := Gn g Hg). split; [exact Lg|]. intros _ _. lia. }
    fold N. destruct (Nat.eqb_spec N n1) as [Y|Y]; [lia|].
    destruct (Rlt_dec (Rabs ((rv n1 - rv N) / rv n1)) (1 / 100000)) as [T|T].
    { exists n1, (rv n1). cbn [rbind fst snd]. split; [reflexivity|]. split; [lia|]. split; [apply Rn|].
      split; [apply (at_radius G c factor m HG Ha HH Hf Hm n1); reflexivity|]. split; [apply (Near n1 N); [reflexivity|lia|assumption]|].
      intros g Hg. assert (Lg := Gn g Hg). split; [exact Lg|]. intros Hn _.
      apply (Exact n1 N g); [reflexivity|lia|assumption|right; assumption|assumption|assumption]. }
    clear T. assert (Og := scan_number_is G c factor m HG Ha HH Hf Hm rs). fold a rho in Og.
    set (g := scan_number (rho_virial_number G c factor m) (rev rs)) in Og.
    destruct (guess_loop_is G c factor m HG Ha HH Hf Hm rs Hs g fuel N n1 Og (Gn g Og) ltac:(lia) ltac:(lia) eq_refl ltac:(lia))
      as (n & p & E & B & Bp & En & T). fold rv in E, En, T. rewrite E. cbn [rbind fst snd].
    exists n, (rv n). split; [reflexivity|]. split; [lia|]. split; [apply Rn|].
    split; [apply (at_radius G c factor m HG Ha HH Hf Hm n); reflexivity|].
    split. { destruct (Nat.eq_dec n 0) as [Zn|Zn]; [apply (Zero n p); assumption|]. apply (Near n p); [assumption|lia|]. destruct T; [lia|assumption]. }
    intros g' Hg'. rewrite (outermost_fun G c factor m rs g' g Hg' Og). split; [lia|]. intros Hn _.
    apply (Exact n p g); [assumption|lia|unfold N; lia|assumption|assumption|assumption].
  - (* all particles are inside *)
    assert (X : guess_loop G c (S fuel) factor m rs N l (rv N) = Done (N, rv N)).
    { cbn [guess_loop]. destruct (Rlt_dec (rv N) l) as [X|_]; [lra|].
      assert (X : (if Rlt_dec l (rv N) then Some (raise_guess (skipn N rs) (rv N) N) else Some N) = Some N).
      { change (skipn N rs) with (skipn (length rs) rs). rewrite skipn_all. cbn [raise_guess]. destruct (Rlt_dec l (rv N)); reflexivity. }
      rewrite X. cbv zeta. fold rv. destruct (Nat.eqb_spec N 0); [reflexivity|]. fold N. rewrite Nat.eqb_refl. reflexivity. }
    rewrite X. cbn [rbind fst snd]. exists N, (rv N). split; [reflexivity|]. split; [lia|]. split; [apply Rn|].
    split; [apply (at_radius G c factor m HG Ha HH Hf Hm N); reflexivity|]. split.
    + exists (rv N). assert (P := Rn N). split; [lra|]. split; [lra|]. change (firstn N rs) with (firstn (length rs) rs). change (skipn N rs) with (skipn (length rs) rs). rewrite firstn_all, skipn_all. split; [|constructor].
      apply Forall_forall. intros r I. apply In_nth_error in I. destruct I as [i Ei].
      assert (Li : (i < length rs)%nat) by (apply nth_error_Some; congruence).
      assert (S := sorted_nth rs Hs i (N - 1) r l ltac:(unfold N; lia) Ei El). lra.
    + intros g Hg. assert (LN := Ln g Hg). split; [exact LN|]. intros _ Hne'. rewrite Ll in Hne'.
      assert (Lt : l < rv N). { destruct L as [L|L]; [exact L|]. elim Hne'. apply (at_radius G c factor m HG Ha HH Hf Hm N l), L. }
      apply (below_radius G c factor m HG Ha HH Hf Hm) in Lt.
      assert (D : dense a rho m rs N) by (exists l; auto). destruct Hg as [_ Hg2]. destruct (Nat.eq_dec g N) as [|Ng]; [assumption|]. elim (Hg2 N); [lia|exact D].
Qed.
Print Assumptions C77_iterative_size.

(** C77: the brute-force size is that of the largest number of innermost particles denser than the threshold. *)
Theorem C77_brute_force_size : forall G c factor m rs, 0 < G -> 0 < ScaleFactor c -> 0 < Hz c -> 0 < factor -> 0 < m ->
  let a := ScaleFactor c in let rho := factor * critical G (Hz c) in
  exists n R, size_of_sorted G c factor m rs = (INR n * m, R) /\ outermost a rho m rs n /\ 0 <= R /\ rho * ball (a * R) = INR n * m.
Proof.
  intros G c factor m rs HG Ha HH Hf Hm a rho. set (n := scan_number (rho_virial_number G c factor m) (rev rs)).
  exists n, (pow_third (INR n / rho_virial_number G c factor m)). split; [reflexivity|]. split; [apply scan_number_is; assumption|].
  split; [apply pow_third_nonneg|].
  assert (Rp : 0 < rho_virial_number G c factor m).
  { unfold rho_virial_number. generalize (Hz c) HH (ScaleFactor c) Ha. intros h Hh b Hb. unfold Rdiv. repeat apply Rmult_lt_0_compat; try apply Rinv_0_lt_compat; lra. }
  unfold ball. rewrite Rpow_mult_distr, cube_pow_third.
  - unfold rho, rho_virial_number, critical, a. assert (Pi := PI_RGT_0). field. repeat split; lra.
  - apply Rmult_le_pos; [apply pos_INR|]. left. apply Rinv_0_lt_compat, Rp.
Qed.
Print Assumptions C77_brute_force_size.

(** C77: with at most 33334 particles both functions give the same size, unless the outermost particle lies exactly on the sphere. *)
Theorem C77_same_size : forall G c factor m rs fuel, 0 < G -> 0 < ScaleFactor c -> 0 < Hz c -> 0 < factor -> 0 < m ->
  Sorted Rle rs -> rs <> [] -> (length rs < fuel)%nat -> INR (length rs) <= 33334 ->
  factor * critical G (Hz c) * ball (ScaleFactor c * last rs 0) <> INR (length rs) * m ->
  size_of_sorted2 G c fuel factor m rs = Done (size_of_sorted G c factor m rs).
Proof.
  intros G c factor m rs fuel HG Ha HH Hf Hm Hs Hne Hfu Hn He.
  destruct (C77_iterative_size G c factor m rs fuel HG Ha HH Hf Hm Hs Hne Hfu) as (n & R1 & -> & _ & _ & B & _ & Eq).
  destruct (C77_brute_force_size G c factor m rs HG Ha HH Hf Hm) as (g & R2 & -> & Og & _ & B2).
  destruct (Eq g Og) as [_ X]. specialize (X Hn He). subst g. do 2 f_equal.
  apply (at_radius G c factor m HG Ha HH Hf Hm n) in B, B2. congruence.
Qed.
Print Assumptions C77_same_size.

(** Findings.  Without particles the iterative function reads before the begin of the list. *)
Theorem C77_empty_refuted : forall G c factor m fuel, size_of_sorted2 G c fuel factor m [] = Crash.
Proof. reflexivity. Qed.
Print Assumptions C77_empty_refuted.

(** With an outermost particle exactly on the sphere the functions differ. *)
Theorem C77_edge_refuted : exists G c factor m rs, 0 < G /\ 0 < ScaleFactor c /\ 0 < Hz c /\ 0 < factor /\ 0 < m /\ Sorted Rle rs /\
  fst (size_of_sorted G c factor m rs) = 0 /\ forall fuel, (1 < fuel)%nat -> exists R, size_of_sorted2 G c fuel factor m rs = Done (1, R).
Proof.
  exists (1 / 2), (mkcosmology 1 0 1 1 1), 1, 1, [1]. cbn [ScaleFactor Hz]. repeat (split; [lra|]). split; [repeat constructor|].
  split.
  - unfold size_of_sorted. cbn [fst rev app scan_number length]. unfold rho_virial_number. cbn [ScaleFactor Hz INR].
    destruct (Rlt_dec _ _); [lra|]. cbn. lra.
  - intros fuel Hfu.
    destruct (C77_iterative_size (1 / 2) (mkcosmology 1 0 1 1 1) 1 1 [1] fuel ltac:(lra) ltac:(cbn; lra) ltac:(cbn; lra) ltac:(lra) ltac:(lra)
                ltac:(repeat constructor) ltac:(discriminate) Hfu) as (n & R & E & Ln & R0 & B & (R' & L1 & L2 & F1 & F2) & _).
    cbn [length] in Ln. destruct n as [|n].
    + exfalso. cbn [skipn] in F2. assert (X : R = 0).
      { apply cube_inj. unfold ball, critical in B. cbn [ScaleFactor Hz INR] in B. assert (Pi := PI_RGT_0). rewrite Rmult_0_l in B.
        replace (1 * (3 * 1 ^ 2 / (8 * PI * (1 / 2))) * (4 / 3 * PI * (1 * R) ^ 3)) with (R ^ 3) in B by (field; lra). lra. }
      unfold size_of_sorted2 in E. destruct fuel as [|fuel]; [lia|]. cbn [length last guess_loop] in E.
      assert (X1 : radius_of (1 / 2) (mkcosmology 1 0 1 1 1) 1 1 1 = 1).
      { symmetry. apply at_radius; cbn [ScaleFactor Hz INR]; try lra. unfold ball, critical. assert (Pi := PI_RGT_0). field. lra. }
      rewrite X1 in E. destruct (Rlt_dec 1 1); [lra|]. cbn [Nat.eqb] in E. rewrite X1 in E. cbn [rbind fst snd] in E. injection E as _ E2. lra.
    + replace n with 0%nat in E by lia. exists R. rewrite E. cbn [INR]. do 2 f_equal. lra.
Qed.
Print Assumptions C77_edge_refuted.

Lemma sorted_repeat : forall x y k, x <= y -> Sorted Rle (repeat x k ++ [y]).
Proof.
  intros x y k L. induction k as [|k IH]; cbn [repeat app]; [repeat constructor|]. constructor; [exact IH|].
  destruct k; cbn [repeat app]; constructor; lra.
Qed.
Lemma closer_repeat : forall x y k z, closer z (repeat x k ++ [y]) = ((if Rlt_dec x z then k else 0) + if Rlt_dec y z then 1 else 0)%nat.
Proof.
  intros x y k z. induction k as [|k IH]; cbn [repeat app closer]; [destruct (Rlt_dec x z); lia|]. rewrite IH. destruct (Rlt_dec x z); lia.
Qed.
(** With many particles the tolerance stops the iteration far from the size of the brute-force loop: no particle is denser than
    the threshold, all but one are reported. *)
Theorem C77_many_refuted : forall G c factor m N, 0 < G -> 0 < ScaleFactor c -> 0 < Hz c -> 0 < factor -> 0 < m -> 40000 <= INR N ->
  exists rs, Sorted Rle rs /\ length rs = S N /\ fst (size_of_sorted G c factor m rs) = 0 /\
    forall fuel, exists R, size_of_sorted2 G c (S fuel) factor m rs = Done (INR N * m, R).
Proof.
  intros G c factor m N HG Ha HH Hf Hm HN. set (rv := radius_of G c factor m). set (x := rv N). set (y := rv (S N) + 1).
  set (rs := repeat x N ++ [y]). assert (Np : (0 < N)%nat) by (destruct N; [cbn in HN; lra|lia]).
  assert (Lt : forall n n', (n < n')%nat -> rv n < rv n') by (apply radius_lt; assumption).
  assert (Px : 0 < x) by (apply radius_pos; assumption). assert (Lxy := Lt N (S N) ltac:(lia)). fold x in Lxy.
  assert (Hs : Sorted Rle rs) by (apply sorted_repeat; unfold y; lra).
  assert (Hlen : length rs = S N) by (unfold rs; rewrite app_length, repeat_length; cbn; lia).
  assert (Cn : closer (rv (S N)) rs = N).
  { unfold rs. rewrite closer_repeat. destruct (Rlt_dec x (rv (S N))); [|lra]. destruct (Rlt_dec y (rv (S N))); [unfold y in *; lra|lia]. }
  assert (Lr : forall d, last rs d = y) by (intros d; unfold rs; apply last_last).
  exists rs. split; [exact Hs|]. split; [exact Hlen|]. split.
  - destruct (C77_brute_force_size G c factor m rs HG Ha HH Hf Hm) as (g & R & E & [[->|D] _] & _); rewrite E; cbn [fst]; [cbn [INR]; ring|].
    exfalso. apply (dense_iff G c factor m HG Ha HH Hf Hm rs Hs) in D. fold rv in D. unfold rs in D. rewrite closer_repeat in D.
    assert (Lg : (g <= S N)%nat) by (assert (C := closer_le (rv g) rs); unfold rs in C; rewrite closer_repeat in C; fold rs in C; lia).
    destruct (Nat.eq_dec g (S N)) as [->|Ng].
    + destruct (Rlt_dec x (rv (S N))), (Rlt_dec y (rv (S N))); unfold y in *; lra || lia.
    + assert (Lx : rv g <= x) by (apply radius_le; try assumption; lia). destruct (Rlt_dec x (rv g)); [lra|].
      destruct (Rlt_dec y (rv g)); [unfold y in *; lra|lia].
  - intros fuel. assert (U : size_of_sorted2 G c (S fuel) factor m rs =
              rbind (guess_loop G c (S fuel) factor m rs (S N) y (rv (S N))) (fun out => Done (INR (fst out) * m, snd out))).
    { unfold size_of_sorted2. rewrite <- Hlen. destruct rs as [|r0 t] eqn:Er; [discriminate|]. rewrite <- Er. rewrite <- (Lr r0). rewrite <- Er. reflexivity. }
    rewrite U. cbn [guess_loop]. destruct (Rlt_dec (rv (S N)) y) as [_|X]; [|unfold y in X; lra].
    rewrite (reduce_is rs Hs) by lia. rewrite Cn. replace (Nat.min (S N) N) with N by lia. cbv zeta. fold rv. fold x.
    destruct (Nat.eqb_spec N 0); [lia|]. rewrite Hlen. destruct (Nat.eqb_spec (S N) N); [lia|].
    destruct (Rlt_dec (Rabs ((x - rv (S N)) / x)) (1 / 100000)) as [T|T]; [exists x; reflexivity|]. exfalso. apply T.
    rewrite Rabs_left1.
    + apply Rmult_lt_reg_r with x; [assumption|]. replace (- ((x - rv (S N)) / x) * x) with (rv (S N) - x) by (field; lra).
      enough (rv (S N) < x * (100001 / 100000)) by lra.
      apply Rmult_lt_reg_l with (ScaleFactor c); [assumption|]. apply cube_lt.
      replace ((ScaleFactor c * (x * (100001 / 100000))) ^ 3) with ((ScaleFactor c * x) ^ 3 * (100001 / 100000) ^ 3) by ring.
      unfold x, rv. rewrite !radius_cube by assumption. assert (Kp := K_pos G c factor m HG HH Hf Hm). rewrite S_INR.
      generalize dependent (2 * G * m / factor / Hz c / Hz c). intros K Kp. rewrite Rmult_assoc. apply Rmult_lt_compat_l; lra.
    + apply Rmult_le_reg_r with x; [assumption|]. replace ((x - rv (S N)) / x * x) with (x - rv (S N)) by (field; lra). lra.
Qed.
Print Assumptions C77_many_refuted.

Example C77_witness : let c := mkcosmology 1 0 1 1 1 in let rs := [1 / 2; 1; 3 / 2; 5] in
  0 < 1 / 2 /\ 0 < ScaleFactor c /\ 0 < Hz c /\ Sorted Rle rs /\ INR (length rs) <= 33334 /\
  1 * critical (1 / 2) (Hz c) * ball (ScaleFactor c * last rs 0) <> INR (length rs) * 1 /\
  fst (size_of_sorted (1 / 2) c 1 1 rs) = 2.
Proof.
  cbn [ScaleFactor Hz length last INR]. assert (Pi := PI_RGT_0). repeat (split; [lra|]). split; [repeat constructor; lra|]. split; [lra|]. split.
  - unfold critical, ball. replace (1 * (3 * 1 ^ 2 / (8 * PI * (1 / 2))) * (4 / 3 * PI * (1 * 5) ^ 3)) with 125 by (field; lra). lra.
  - unfold size_of_sorted. cbn [fst rev app scan_number length]. unfold rho_virial_number. cbn [ScaleFactor Hz INR].
    destruct (Rlt_dec _ (1 + 1 + 1 + 1)); [lra|]. destruct (Rlt_dec _ (1 + 1 + 1)); [lra|]. destruct (Rlt_dec _ (1 + 1)); [|lra]. cbn [INR]. lra.
Qed.
