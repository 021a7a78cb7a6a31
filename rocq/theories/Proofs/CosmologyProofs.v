(** Proofs about the cosmology and the overdensity sizes. *)
From Coq Require Import List Reals Lra Lia Arith Sorted.
From Verif.Model Require Import Run Cosmology.
From Verif.Spec Require Import Cosmology.
Import ListNotations.
Local Open Scope R_scope.

Lemma cube_lt : forall x y, x < y <-> x ^ 3 < y ^ 3.
Proof.
  assert (F : forall x y, x < y -> x ^ 3 < y ^ 3).
  { intros x y H. assert (0 < (y - x) * (y * y + x * y + x * x)); [|nra].
    apply Rmult_lt_0_compat; [lra|]. destruct (Req_dec x 0) as [->|Hx].
    - assert (0 < y * y) by nra. lra.
    - assert (0 < x * x) by nra. nra. }
  intros x y. split; [apply F|]. intros H. destruct (Rlt_or_le x y) as [|[L| ->]]; [assumption| |lra].
  apply F in L. lra.
Qed.
Lemma cube_inj : forall x y, x ^ 3 = y ^ 3 -> x = y.
Proof.
  intros x y H. destruct (Rtotal_order x y) as [L|[E|L]]; [|assumption|]; apply cube_lt in L; lra.
Qed.
Lemma cube_pow_third : forall x, 0 <= x -> pow_third x ^ 3 = x.
Proof.
  intros x H. unfold pow_third. destruct (Rlt_dec 0 x) as [L|L].
  - rewrite <- Rpower_pow by (unfold Rpower; apply exp_pos). rewrite Rpower_mult.
    replace (/ 3 * INR 3) with 1 by (simpl; lra). apply Rpower_1, L.
  - assert (x = 0) by lra. subst. ring.
Qed.
Lemma pow_third_nonneg : forall x, 0 <= pow_third x.
Proof. intros x. unfold pow_third. destruct (Rlt_dec 0 x); [left; unfold Rpower; apply exp_pos|lra]. Qed.
Lemma pow_third_pos : forall x, 0 < x -> 0 < pow_third x.
Proof. intros x H. unfold pow_third. destruct (Rlt_dec 0 x); [unfold Rpower; apply exp_pos|lra]. Qed.

(** * Expansion. *)
Lemma Hratio_square : forall a om ol, a <> 0 -> 0 <= friedmann a om ol -> Hratio a om ol * Hratio a om ol = friedmann a om ol.
Proof.
  intros a om ol Ha H. unfold Hratio, friedmann in *. rewrite sqrt_sqrt; [field; assumption|].
  replace (a * a * a) with (a ^ 3) by ring. replace (a * a) with (a ^ 2) by ring. assumption.
Qed.
Lemma Hratio_pos : forall a om ol, a <> 0 -> 0 < friedmann a om ol -> 0 < Hratio a om ol.
Proof.
  intros a om ol Ha H. assert (E := Hratio_square a om ol Ha (Rlt_le _ _ H)). assert (0 <= Hratio a om ol) by apply sqrt_pos.
  destruct H0 as [|E0]; [assumption|]. rewrite <- E0 in E. lra.
Qed.

(** * Sizes. *)
Section Sizes.
  Variables (G : R) (c : cosmology) (factor m : R).
  Hypotheses (HG : 0 < G) (Ha : 0 < ScaleFactor c) (HH : 0 < Hz c) (Hf : 0 < factor) (Hm : 0 < m).
  Let a := ScaleFactor c.
  Let rho := factor * critical G (Hz c).
  Let K := 2 * G * m / factor / Hz c / Hz c.

  Lemma PI_pos : 0 < PI. Proof using. apply PI_RGT_0. Qed.
  Lemma K_pos : 0 < K.
  Proof using HG HH Hf Hm. unfold K, Rdiv. repeat apply Rmult_lt_0_compat; try apply Rinv_0_lt_compat; lra. Qed.
  Lemma rho_pos : 0 < rho.
  Proof using HG HH Hf.
    unfold rho, critical. assert (P := PI_pos). apply Rmult_lt_0_compat; [lra|]. apply Rdiv_lt_0_compat.
    - assert (0 < Hz c ^ 2) by (apply pow_lt, HH). lra.
    - apply Rmult_lt_0_compat; lra.
  Qed.
  Lemma rho_ball : forall r, rho * ball (a * r) = (a * r) ^ 3 * m / K.
  Proof using HG HH Hf Hm.
    intros r. unfold rho, K, ball, critical. assert (P := PI_pos). field. repeat split; lra.
  Qed.
  Lemma radius_cube : forall n, (a * radius_of G c factor m n) ^ 3 = K * INR n.
  Proof using HG Ha HH Hf Hm.
    intros n. unfold radius_of. fold a. replace (a * _) with (pow_third (2 * G * INR n * m / factor / Hz c / Hz c)) by (field; unfold a; lra).
    rewrite cube_pow_third; [unfold K; field; lra|].
    replace (2 * G * INR n * m / factor / Hz c / Hz c) with (K * INR n) by (unfold K; field; lra).
    assert (Kp := K_pos). assert (0 <= INR n) by apply pos_INR. nra.
  Qed.
  Lemma below_radius : forall n r, r < radius_of G c factor m n <-> rho * ball (a * r) < INR n * m.
  Proof using HG Ha HH Hf Hm.
    intros n r. rewrite rho_ball. assert (Kp := K_pos).
    assert (E := radius_cube n). assert (C := cube_lt (a * r) (a * radius_of G c factor m n)). rewrite E in C.
    assert (A : 0 < a) by apply Ha.
    split; intros H.
    - assert (H1 : a * r < a * radius_of G c factor m n) by nra. apply C in H1.
      apply Rmult_lt_reg_l with K; [lra|]. replace (K * ((a * r) ^ 3 * m / K)) with ((a * r) ^ 3 * m) by (field; lra). nra.
    - assert (H1 : (a * r) ^ 3 < K * INR n).
      { apply Rmult_lt_compat_l with (r := K) in H; [|lra]. replace (K * ((a * r) ^ 3 * m / K)) with ((a * r) ^ 3 * m) in H by (field; lra).
        apply Rmult_lt_reg_r with m; [lra|]. lra. }
      apply C in H1. nra.
  Qed.
  Lemma at_radius : forall n r, r = radius_of G c factor m n <-> rho * ball (a * r) = INR n * m.
  Proof using HG Ha HH Hf Hm.
    intros n r. rewrite rho_ball. assert (Kp := K_pos). assert (E := radius_cube n). assert (A : 0 < a) by apply Ha.
    split; intros H.
    - rewrite H, E. field. lra.
    - assert (H1 : (a * r) ^ 3 = K * INR n).
      { apply Rmult_eq_reg_r with (m / K); [|apply Rgt_not_eq, Rdiv_lt_0_compat; lra].
        replace ((a * r) ^ 3 * (m / K)) with ((a * r) ^ 3 * m / K) by (field; lra). rewrite H. field. lra. }
      rewrite <- E in H1. apply cube_inj in H1. apply Rmult_eq_reg_l with a; lra.
  Qed.
  Lemma radius_le : forall n n', (n <= n')%nat -> radius_of G c factor m n <= radius_of G c factor m n'.
  Proof using HG Ha HH Hf Hm.
    intros n n' H. destruct (Rle_or_lt (radius_of G c factor m n) (radius_of G c factor m n')) as [|L]; [assumption|].
    apply below_radius in L. assert (E := proj1 (at_radius n' _) eq_refl). rewrite E in L. apply Rmult_lt_reg_r in L; [|lra].
    apply INR_lt in L. lia.
  Qed.
  Lemma radius_lt : forall n n', (n < n')%nat -> radius_of G c factor m n < radius_of G c factor m n'.
  Proof using HG Ha HH Hf Hm.
    intros n n' H. apply below_radius. rewrite (proj1 (at_radius n _) eq_refl). apply lt_INR in H. nra.
  Qed.
  Lemma radius_pos : forall n, (0 < n)%nat -> 0 < radius_of G c factor m n.
  Proof using HG Ha HH Hf Hm.
    intros n H. assert (L := radius_lt 0 n H). apply Rle_lt_trans with (2 := L).
    unfold radius_of. apply Rmult_le_pos; [apply pow_third_nonneg|]. left. apply Rinv_0_lt_compat, Ha.
  Qed.
  Lemma radius_0 : radius_of G c factor m 0 = 0.
  Proof using. unfold radius_of, pow_third. destruct (Rlt_dec _ _) as [L|L]; [|unfold Rdiv; ring].
    exfalso. replace (2 * G * INR 0 * m / factor / Hz c / Hz c) with 0 in L by (simpl; unfold Rdiv; ring). lra. Qed.

  (** Counting. *)
  Variable rs : list R.
  Hypothesis Hs : Sorted Rle rs.

  Lemma sorted_nth : forall i j x y, (i <= j)%nat -> nth_error rs i = Some x -> nth_error rs j = Some y -> x <= y.
  Proof using Hs.
    assert (S := Sorted_StronglySorted (fun a b c => Rle_trans a b c) Hs). clear Hs. induction S as [|r t _ IH F]; intros i j x y L X Y.
    - destruct i; discriminate.
    - destruct i, j; cbn in X, Y.
      + injection X as ->. injection Y as ->. lra.
      + injection X as ->. rewrite Forall_forall in F. apply F, (nth_error_In t j). assumption.
      + lia.
      + eapply IH; [|eassumption..]. lia.
  Qed.
  Lemma closer_le : forall x l, (closer x l <= length l)%nat.
  Proof using. intros x l. induction l as [|r t IH]; cbn; [lia|]. destruct (Rlt_dec r x); lia. Qed.
  Lemma closer_mono : forall x y l, x <= y -> (closer x l <= closer y l)%nat.
  Proof using. intros x y l H. induction l as [|r t IH]; cbn; [lia|]. destruct (Rlt_dec r x), (Rlt_dec r y); try lia. lra. Qed.
  Lemma closer_none : forall x l, Forall (Rle x) l -> closer x l = 0%nat.
  Proof using. intros x l H. induction H as [|r t A _ IH]; cbn; [reflexivity|]. rewrite IH. destruct (Rlt_dec r x); [lra|reflexivity]. Qed.
  Lemma closer_nth : forall x i r, nth_error rs i = Some r -> (r < x <-> (i < closer x rs)%nat).
  Proof using Hs.
    assert (S := Sorted_StronglySorted (fun a b c => Rle_trans a b c) Hs). clear Hs. induction S as [|r0 t _ IH F]; intros x i r E.
    - destruct i; discriminate.
    - cbn. destruct (Rlt_dec r0 x) as [L|L].
      + destruct i; cbn in E; [injection E as ->; split; [lia|intros; lra]|]. rewrite (IH x i r E). lia.
      + assert (C : closer x t = 0%nat) by (apply closer_none; rewrite Forall_forall in *; intros y Y; specialize (F y Y); lra).
        rewrite C. split; [|lia]. intros A. exfalso. destruct i; cbn in E; [injection E as ->; lra|].
        rewrite Forall_forall in F. specialize (F r (nth_error_In t i E)). lra.
  Qed.
  Lemma nth_some : forall i, (i < length rs)%nat -> exists r, nth_error rs i = Some r.
  Proof using. intros i H. destruct (nth_error rs i) eqn:E; [eauto|]. apply nth_error_None in E. lia. Qed.

  Lemma reduce_is : forall x n, (n <= length rs)%nat -> reduce_guess rs x n = Some (Nat.min n (closer x rs)).
  Proof using Hs.
    intros x n. induction n as [|i IH]; intros H; [reflexivity|]. cbn [reduce_guess].
    destruct (nth_some i) as [r E]; [lia|]. rewrite E. assert (C := closer_nth x i r E).
    destruct (Rlt_dec r x) as [L|L].
    - apply C in L. f_equal. lia.
    - rewrite IH by lia. f_equal. assert (~ (i < closer x rs)%nat) by tauto. lia.
  Qed.

  (** Being dense is being inside the sphere of the counted mass. *)
  Lemma dense_iff : forall i, dense a rho m rs i <-> (0 < i <= closer (radius_of G c factor m i) rs)%nat.
  Proof using HG Ha HH Hf Hm Hs.
    intros i. split.
    - intros (r & P & E & D). apply below_radius in D. apply (closer_nth _ _ _ E) in D. lia.
    - intros [P L]. destruct (nth_some (i - 1)) as [r E]; [assert (Q := closer_le (radius_of G c factor m i) rs); lia|].
      exists r. split; [assumption|]. split; [assumption|]. apply below_radius, (closer_nth _ _ _ E). lia.
  Qed.

  (** The brute-force loop. *)
  Lemma scan_number_is : outermost a rho m rs (scan_number (rho_virial_number G c factor m) (rev rs)).
  Proof using HG Ha HH Hf Hm.
    clear Hs. assert (R : forall n r, (rho_virial_number G c factor m * r * r * r < INR n) <-> rho * ball (a * r) < INR n * m).
    { intros n r. rewrite rho_ball. replace (rho_virial_number G c factor m * r * r * r) with ((a * r) ^ 3 / K)
        by (unfold rho_virial_number, K, a; field; lra).
      replace ((a * r) ^ 3 * m / K) with ((a * r) ^ 3 / K * m) by (field; apply Rgt_not_eq, K_pos). split; intros H.
      - apply Rmult_lt_compat_r; lra.
      - apply Rmult_lt_reg_r in H; lra. }
    induction rs as [|r t IH] using rev_ind; [split; [left; reflexivity|]; intros i L (r & P & E & _); destruct (i - 1)%nat; discriminate|].
    rewrite rev_app_distr. cbn [rev app scan_number]. rewrite rev_length.
    assert (D : dense a rho m (t ++ [r]) (S (length t)) <-> rho * ball (a * r) < INR (S (length t)) * m).
    { unfold dense. replace (S (length t) - 1)%nat with (length t) by lia. rewrite nth_error_app2, Nat.sub_diag by lia. cbn [nth_error].
      split; [intros (r' & _ & E & H); injection E as ->; exact H|]. intros H. exists r. repeat split; [lia|assumption]. }
    assert (Dl : forall i, (i <= length t)%nat -> dense a rho m (t ++ [r]) i <-> dense a rho m t i).
    { intros i L. unfold dense. split; intros (r' & P & E & H); exists r'; (split; [assumption|]); (split; [|assumption]).
      - rewrite nth_error_app1 in E by lia. assumption.
      - rewrite nth_error_app1 by lia. assumption. }
    assert (Dg : forall i, (S (length t) < i)%nat -> ~ dense a rho m (t ++ [r]) i).
    { intros i L (r' & _ & E & _). assert (X : nth_error (t ++ [r]) (i - 1) <> None) by congruence. apply nth_error_Some in X.
      rewrite app_length in X. cbn in X. lia. }
    destruct (Rlt_dec _ _) as [L|L].
    - apply R in L. split; [right; apply D, L|exact Dg].
    - destruct IH as [I1 I2]. assert (Lb : (scan_number (rho_virial_number G c factor m) (rev t) <= length t)%nat).
      { rewrite <- (rev_length t). generalize (rev t). intros l. induction l as [|x l IHl]; cbn [scan_number length]; [lia|].
        destruct (Rlt_dec _ _); cbn [length]; lia. }
      split; [destruct I1 as [I1|I1]; [left; exact I1|right; apply Dl; assumption]|].
      intros i Li. destruct (le_lt_dec i (length t)) as [B|B]; [rewrite Dl by assumption; auto|].
      destruct (Nat.eq_dec i (S (length t))) as [->|N]; [rewrite D, <- R; exact L|apply Dg; lia].
  Qed.
  Lemma outermost_fun : forall n n', outermost a rho m rs n -> outermost a rho m rs n' -> n = n'.
  Proof using.
    intros n n' [A B] [A' B']. destruct (lt_eq_lt_dec n n') as [[L|E]|L]; [|assumption|].
    - destruct A' as [->|A']; [lia|]. elim (B _ L A').
    - destruct A as [->|A]; [lia|]. elim (B' _ L A).
  Qed.

  (** The iteration decreases monotonically to the largest fixed point. *)
  Let rv := radius_of G c factor m.
  Lemma guess_loop_is : forall g fuel p n, outermost a rho m rs g -> (g <= n)%nat -> (0 < n < length rs)%nat -> (n <= p)%nat ->
    n = closer (rv p) rs -> (n < fuel)%nat ->
    exists n' p', guess_loop G c fuel factor m rs n (rv p) (rv n) = Done (n', rv n') /\ (g <= n' <= p')%nat /\ (p' < length rs)%nat /\ n' = closer (rv p') rs /\
                  (n' = 0%nat \/ Rabs ((rv n' - rv p') / rv n') < 1 / 100000).
  Proof using HG Ha HH Hf Hm Hs.
    intros g fuel. induction fuel as [|fuel IH]; intros p n Hg Hgn Hn Hp E Hfu; [lia|]. cbn [guess_loop].
    assert (M : (closer (rv n) rs <= n)%nat).
    { rewrite E at 2. apply closer_mono. apply radius_le; assumption. }
    assert (X : (if Rlt_dec (rv n) (rv p) then reduce_guess rs (rv n) n
                 else if Rlt_dec (rv p) (rv n) then Some (raise_guess (skipn n rs) (rv n) n) else Some n) = Some (closer (rv n) rs)).
    { destruct (Rlt_dec (rv n) (rv p)) as [L|L].
      - rewrite reduce_is by lia. f_equal. lia.
      - assert (n = p) by (destruct (Nat.eq_dec n p); [assumption|]; elim L; apply radius_lt; lia). subst p.
        destruct (Rlt_dec (rv n) (rv n)); [lra|]. congruence. }
    rewrite X. set (n1 := closer (rv n) rs) in *. cbv zeta. fold rv.
    assert (G1 : (g <= n1)%nat).
    { destruct Hg as [[->|D] _]; [lia|]. apply dense_iff in D. fold rv in D.
      assert (C := closer_mono (rv g) (rv n) rs (radius_le g n Hgn)). unfold n1. lia. }
    destruct (Nat.eqb_spec n1 0) as [Z|Z].
    { exists n1, n. repeat split; [exact G1|exact M|lia|left; exact Z]. }
    destruct (Nat.eqb_spec (length rs) n1) as [Y|Y]; [lia|].
    destruct (Rlt_dec (Rabs ((rv n1 - rv n) / rv n1)) (1 / 100000)) as [T|T].
    { exists n1, n. repeat split; [exact G1|exact M|lia|right; exact T]. }
    destruct (Nat.eq_dec n1 n) as [En|En].
    { elim T. rewrite En. replace ((rv n - rv n) / rv n) with 0 by (unfold Rdiv; ring). rewrite Rabs_R0. lra. }
    apply IH; [assumption|assumption|lia|lia|reflexivity|lia].
  Qed.
  Lemma tolerance : forall n p, (0 < n <= p)%nat -> Rabs ((rv n - rv p) / rv n) < 1 / 100000 -> rv p < rv n * (100001 / 100000).
  Proof using HG Ha HH Hf Hm.
    intros n p [P L] T. assert (Pn := radius_pos n P). fold rv in Pn. apply Rabs_def2 in T. destruct T as [_ T].
    apply Rmult_lt_compat_r with (r := rv n) in T; [|assumption]. replace ((rv n - rv p) / rv n * rv n) with (rv n - rv p) in T by (field; lra). lra.
  Qed.
  Lemma tolerance_number : forall n p, (0 < n < p)%nat -> rv p < rv n * (100001 / 100000) -> 33333 < INR n.
  Proof using HG Ha HH Hf Hm.
    intros n p [P L] T. assert (Pn := radius_pos n P). fold rv in Pn. assert (A : 0 < a) by apply Ha.
    assert (C : (a * rv p) ^ 3 < (a * (rv n * (100001 / 100000))) ^ 3) by (apply (proj1 (cube_lt _ _)), Rmult_lt_compat_l; assumption).
    replace ((a * (rv n * (100001 / 100000))) ^ 3) with ((a * rv n) ^ 3 * (100001 / 100000) ^ 3) in C by ring.
    unfold rv in C. rewrite !radius_cube in C. assert (Kp := K_pos).
    assert (C1 : INR p < INR n * (100001 / 100000) ^ 3) by (apply Rmult_lt_reg_l with K; lra).
    assert (C2 : INR n + 1 <= INR p) by (rewrite <- S_INR; apply le_INR; lia).
    lra.
  Qed.
End Sizes.
