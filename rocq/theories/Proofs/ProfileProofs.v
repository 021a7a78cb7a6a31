(** Proofs about profiles. *)
From Coq Require Import List ZArith QArith Qminmax Bool Lia Lqa Sorting.Permutation Sorting.Sorted.
From Verif.Model Require Import ListMem Tree Profile.
From Verif.Spec Require Import Profile.
From Verif.Proofs Require Import ListMemProofs ListExtra TreeInsert.
Import ListNotations.
Local Open Scope Q_scope.

Lemma filter_len {A} (f : A -> bool) l : (length (filter f l) <= length l)%nat.
Proof. induction l as [|x l IH]; cbn; [lia|]. destruct (f x); cbn; lia. Qed.
Lemma filter_nothing {A} (f : A -> bool) l : (forall x, In x l -> f x = false) -> filter f l = [].
Proof. induction l as [|x l IH]; intros H; [reflexivity|]. cbn. rewrite (H x (or_introl eq_refl)). apply IH. intros y Hy. apply H. right. exact Hy. Qed.
Lemma filter_everything {A} (f : A -> bool) l : (forall x, In x l -> f x = true) -> filter f l = l.
Proof. induction l as [|x l IH]; intros H; [reflexivity|]. cbn. rewrite (H x (or_introl eq_refl)). f_equal. apply IH. intros y Hy. apply H. right. exact Hy. Qed.
Lemma mass_cons p l : mass (p :: l) = snd p + mass l.
Proof. reflexivity. Qed.
Lemma mass_app a b : mass (a ++ b) == mass a + mass b.
Proof. induction a as [|p a IH]; cbn [app]; [change (mass []) with 0; lra|]. rewrite !mass_cons, IH. lra. Qed.
Lemma mass_perm a b : Permutation a b -> mass a == mass b.
Proof. induction 1; rewrite ?mass_cons; lra. Qed.
Lemma mass_nonneg l : Forall (fun p => 0 <= snd p) l -> 0 <= mass l.
Proof. induction 1; [change (mass []) with 0; lra|rewrite mass_cons; lra]. Qed.
Lemma mass_firstn_mono l : Forall (fun p => 0 <= snd p) l -> forall i j, (i <= j)%nat -> mass (firstn i l) <= mass (firstn j l).
Proof.
  intros HF i j Hij. replace (firstn j l) with (firstn i l ++ skipn i (firstn j l)). 2: { rewrite <- (firstn_skipn i (firstn j l)) at 2. rewrite firstn_firstn, Nat.min_l by lia. reflexivity. }
  rewrite mass_app. assert (0 <= mass (skipn i (firstn j l))); [|lra]. apply mass_nonneg. apply Forall_forall. intros p Hp. rewrite Forall_forall in HF. apply HF. rewrite <- (firstn_skipn j l). apply in_or_app. left. rewrite <- (firstn_skipn i (firstn j l)). apply in_or_app. right. exact Hp.
Qed.
Lemma enclosed_perm soft R a b : Permutation a b -> enclosed soft R a == enclosed soft R b.
Proof. intros H. apply mass_perm. apply perm_filter. exact H. Qed.
Lemma soften_radius soft p : fst (soften soft p) == radius soft p.
Proof.
  unfold soften, radius. cbn [fst]. destruct (Qgtb soft (fst p)) eqn:E.
  - apply Qgtb_spec in E. rewrite Q.max_r by lra. reflexivity.
  - apply Qgtb_false in E. rewrite Q.max_l by lra. reflexivity.
Qed.
Lemma radius_mono soft a b : fst a <= fst b -> radius soft a <= radius soft b.
Proof. intros H. unfold radius. apply Q.max_le_compat_r. exact H. Qed.
Lemma cumulate_nth l : forall a i q, nth_error (cumulate a l) i = Some q -> exists p, nth_error l i = Some p /\ fst q = fst p /\ snd q == a + mass (firstn (S i) l).
Proof.
  induction l as [|p l IH]; intros a i q H; [destruct i; discriminate|]. destruct i as [|i]; cbn [cumulate nth_error] in H.
  - injection H as <-. exists p. split; [reflexivity|]. split; [reflexivity|]. cbn [snd firstn]. rewrite mass_cons. change (mass []) with 0. lra.
  - destruct (IH _ _ _ H) as (p' & H1 & H2 & H3). exists p'. split; [exact H1|]. split; [exact H2|]. rewrite H3. change (firstn (S (S i)) (p :: l)) with (p :: firstn (S i) l). rewrite mass_cons. lra.
Qed.
Lemma cumulate_length l : forall a, length (cumulate a l) = length l.
Proof. induction l as [|p l IH]; intros a; [reflexivity|]. cbn. rewrite IH. reflexivity. Qed.
Lemma inside_prefix soft R l : StronglySorted (fun a b => fst a <= fst b) l -> inside soft R l = firstn (length (inside soft R l)) l.
Proof.
  induction 1 as [|p l HS IH HF]; [reflexivity|]. unfold inside in *. cbn [filter]. destruct (Qle_bool (radius soft p) R) eqn:E.
  - cbn [length firstn]. f_equal. exact IH.
  - replace (filter (fun p0 => Qle_bool (radius soft p0) R) l) with (@nil (Q * Q)); [reflexivity|]. symmetry. clear IH HS. induction HF as [|q l Hq HF IH]; [reflexivity|]. cbn. rewrite IH. destruct (Qle_bool (radius soft q) R) eqn:E2; [|reflexivity].
    apply Qle_bool_iff in E2. pose proof (radius_mono soft p q Hq). assert (radius soft p <= R) by lra. apply Qle_bool_iff in H0. congruence.
Qed.
Lemma sorted_nth l : StronglySorted (fun a b : Q * Q => fst a <= fst b) l -> forall i j a b, (i <= j)%nat -> nth_error l i = Some a -> nth_error l j = Some b -> fst a <= fst b.
Proof.
  induction 1 as [|p l HS IH HF]; intros i j a b Hij Ha Hb; [destruct i; discriminate|]. destruct i as [|i], j as [|j]; cbn [nth_error] in *; try lia.
  - assert (a = b) by congruence. subst. lra.
  - assert (p = a) by congruence. subst. rewrite Forall_forall in HF. apply HF. eapply nth_error_In; eauto.
  - apply (IH i j); [lia|assumption|assumption].
Qed.

Section Prof.
  Variables (soft : Q) (sort : list (Q * Q) -> list (Q * Q)).
  Hypothesis Hsort : sorts_by_radius sort.
  Variable ps : list (Q * Q).
  Hypothesis Hmass : Forall (fun p => 0 <= snd p) ps.
  Local Notation S1 := (sort ps).
  Local Notation prof := (profile sort soft ps).
  Lemma sorted1 : StronglySorted (fun a b => fst a <= fst b) S1. Proof. apply Hsort. Qed.
  Lemma perm1 : Permutation S1 ps. Proof. apply Hsort. Qed.
  Lemma mass1 : Forall (fun p => 0 <= snd p) S1.
  Proof. apply Forall_forall. intros p Hp. rewrite Forall_forall in Hmass. apply Hmass. exact (Permutation_in _ perm1 Hp). Qed.
  Lemma prof_length : length prof = length ps.
  Proof. unfold profile. rewrite map_length, cumulate_length. apply Permutation_length. exact perm1. Qed.
  Lemma prof_nth i q : nth_error prof i = Some q -> exists p, nth_error S1 i = Some p /\ fst q == radius soft p /\ snd q == mass (firstn (S i) S1).
  Proof.
    unfold profile. rewrite nth_error_map. destruct (nth_error (cumulate 0 S1) i) as [q0|] eqn:E; [|discriminate]. intros H. cbn in H. assert (soften soft q0 = q) by congruence. subst q. destruct (cumulate_nth _ _ _ _ E) as (p & H1 & H2 & H3). exists p. split; [exact H1|]. split; [rewrite soften_radius; unfold radius; rewrite H2; reflexivity|]. cbn [snd soften]. rewrite H3. lra.
  Qed.
  (** The last particle at the same radius. *)
  Lemma last_there i p : nth_error S1 i = Some p -> exists j q, (i <= j)%nat /\ nth_error prof j = Some q /\ fst q == radius soft p /\ snd q == enclosed soft (radius soft p) ps.
  Proof.
    intros Hi. set (R := radius soft p). pose proof (inside_prefix soft R S1 sorted1) as HI. set (k := length (inside soft R S1)) in *.
    assert (Hik : (i < k)%nat). { assert (HIn : nth_error (firstn k S1) i = Some p -> (i < k)%nat) by (intros H; apply nth_error_lt in H; rewrite firstn_length in H; lia).
      destruct (Nat.lt_ge_cases i k) as [H|H]; [exact H|]. exfalso. assert (Hlt : (i < length S1)%nat) by (eapply nth_error_lt; eauto). assert (HP : In p (inside soft R S1)) by (apply filter_In; split; [eapply nth_error_In; eauto|apply Qle_bool_iff; unfold R; lra]).
      (* all elements at indices >= k are outside *)
      assert (HD : length (inside soft R S1) = (length (inside soft R (firstn k S1)) + length (inside soft R (skipn k S1)))%nat). { unfold inside. rewrite <- app_length, <- filter_app, firstn_skipn. reflexivity. }
      assert (HE : inside soft R (firstn k S1) = firstn k S1). { rewrite <- HI. unfold inside. clear. induction S1 as [|x l IH]; [reflexivity|]. cbn. destruct (Qle_bool (radius soft x) R) eqn:E; [cbn; rewrite E, IH; reflexivity|exact IH]. }
      rewrite HE, firstn_length in HD. assert (HZ : length (inside soft R (skipn k S1)) = 0%nat) by (unfold k in *; lia). apply length_zero_iff_nil in HZ. assert (HIn2 : In p (inside soft R (skipn k S1))). { apply filter_In. split; [|apply Qle_bool_iff; unfold R; lra]. apply (nth_error_In _ (i - k)). rewrite nth_skipn. replace (k + (i - k))%nat with i by lia. exact Hi. } rewrite HZ in HIn2. destruct HIn2. }
    assert (Hk : (k <= length S1)%nat). { unfold k, inside. clear. induction S1 as [|x l IH]; [cbn; lia|]. cbn. destruct (Qle_bool (radius soft x) R); cbn; lia. }
    destruct (nth_error_in_range prof (k - 1)) as [q Hq]; [rewrite prof_length, <- (Permutation_length perm1); lia|]. destruct (prof_nth _ _ Hq) as (p' & Hp' & Hr & Hm). exists (k - 1)%nat, q. split; [lia|]. split; [exact Hq|]. split.
    - rewrite Hr. assert (H1 : radius soft p <= radius soft p') by (apply radius_mono; eapply (sorted_nth _ sorted1 i (k - 1)); [lia|exact Hi|exact Hp']).
      assert (H2 : In p' (inside soft R S1)). { rewrite HI. apply (nth_error_In _ (k - 1)). rewrite nth_firstn. destruct (Nat.ltb_spec (k - 1) k); [exact Hp'|lia]. } apply filter_In in H2 as [_ H2]. apply Qle_bool_iff in H2. fold R in H1 |- *. lra.
    - rewrite Hm. replace (S (k - 1))%nat with k by lia. rewrite <- HI. fold R. apply enclosed_perm. exact perm1.
  Qed.
  Lemma below_enclosed i q : nth_error prof i = Some q -> snd q <= enclosed soft (fst q) ps.
  Proof.
    intros Hq. destruct (prof_nth _ _ Hq) as (p & Hp & Hr & Hm). destruct (last_there i p Hp) as (j & q' & Hij & Hq' & Hr' & Hm'). destruct (prof_nth _ _ Hq') as (p' & Hp' & _ & Hm2).
    assert (HE : enclosed soft (fst q) ps == enclosed soft (radius soft p) ps). { unfold enclosed, inside. assert (E : forall l, filter (fun p0 => Qle_bool (radius soft p0) (fst q)) l = filter (fun p0 => Qle_bool (radius soft p0) (radius soft p)) l). { intros l. apply filter_ext. intros x. rewrite Hr. reflexivity. } rewrite E. reflexivity. }
    rewrite HE, <- Hm', Hm2, Hm. apply mass_firstn_mono; [exact mass1|lia].
  Qed.
  Lemma enclosed_eq R R' : R == R' -> enclosed soft R ps == enclosed soft R' ps.
  Proof. intros E. unfold enclosed, inside. erewrite filter_ext; [reflexivity|]. intros x. cbv beta. rewrite E. reflexivity. Qed.
  Lemma in_prof p : In p ps -> exists i, nth_error S1 i = Some p.
  Proof. intros H. apply In_nth_error. exact (Permutation_in _ (Permutation_sym perm1) H). Qed.
  Lemma prof_in i p : nth_error S1 i = Some p -> In p ps.
  Proof. intros H. apply (Permutation_in _ perm1). eapply nth_error_In; eauto. Qed.
  Lemma prof_mono i j q q' : (i <= j)%nat -> nth_error prof i = Some q -> nth_error prof j = Some q' -> fst q <= fst q' /\ snd q <= snd q'.
  Proof.
    intros Hij Hq Hq'. destruct (prof_nth _ _ Hq) as (p & Hp & Hr & Hm). destruct (prof_nth _ _ Hq') as (p' & Hp' & Hr' & Hm'). split.
    - rewrite Hr, Hr'. apply radius_mono. eapply (sorted_nth _ sorted1 i j); eauto.
    - rewrite Hm, Hm'. apply mass_firstn_mono; [exact mass1|lia].
  Qed.
End Prof.

(** *** The scan. *)
Lemma scan_spec rho l : match scan rho (rev l) with
  | Some q => exists i, nth_error l i = Some q /\ rho * fst q * fst q * fst q < snd q /\ forall j q', (i < j)%nat -> nth_error l j = Some q' -> snd q' <= rho * fst q' * fst q' * fst q'
  | None => forall j q', nth_error l j = Some q' -> snd q' <= rho * fst q' * fst q' * fst q'
  end.
Proof.
  induction l as [|x l IH] using rev_ind; [cbn; intros [|j] q'; discriminate|]. rewrite rev_unit. cbn [scan]. destruct (Qgtb (snd x) (rho * fst x * fst x * fst x)) eqn:E.
  - apply Qgtb_spec in E. exists (length l). split; [rewrite nth_error_app2, Nat.sub_diag by lia; reflexivity|]. split; [exact E|]. intros j q' Hj Hq. apply nth_error_lt in Hq. rewrite app_length in Hq. cbn in Hq. lia.
  - apply Qgtb_false in E. assert (HL : forall j q', nth_error (l ++ [x]) j = Some q' -> nth_error l j = Some q' \/ q' = x). { intros j q' H. destruct (Nat.lt_ge_cases j (length l)) as [Hj|Hj]; [left; rewrite nth_error_app1 in H by lia; exact H|]. right. rewrite nth_error_app2 in H by lia. destruct (j - length l)%nat as [|[|n]]; cbn in H; congruence. }
    destruct (scan rho (rev l)) as [q|].
    + destruct IH as (i & Hi & Hd & Hj). exists i. split; [rewrite nth_error_app1 by (eapply nth_error_lt; eauto); exact Hi|]. split; [exact Hd|]. intros j q' Hij Hq. destruct (HL j q' Hq) as [H| ->]; [eauto|exact E].
    + intros j q' Hq. destruct (HL j q' Hq) as [H| ->]; [eauto|exact E].
Qed.
Lemma max_from_spec l : forall b, (max_from b l = b \/ In (max_from b l) l) /\ v2 b <= v2 (max_from b l) /\ forall p, In p l -> v2 p <= v2 (max_from b l).
Proof.
  induction l as [|p l IH]; intros b; cbn [max_from].
  - split; [left; reflexivity|]. split; [lra|intros p []].
  - destruct (Qgtb (v2 p) (v2 b)) eqn:E.
    + apply Qgtb_spec in E. destruct (IH p) as (H1 & H2 & H3). split; [right; destruct H1 as [->|H1]; [left; reflexivity|right; exact H1]|]. split; [lra|]. intros q [<-|Hq]; [exact H2|apply H3; exact Hq].
    + apply Qgtb_false in E. destruct (IH b) as (H1 & H2 & H3). split; [destruct H1 as [->|H1]; [left; reflexivity|right; right; exact H1]|]. split; [exact H2|]. intros q [<-|Hq]; [lra|apply H3; exact Hq].
Qed.
Lemma so_count_spec rho l : let n := so_count rho (rev l) in (n <= length l)%nat /\
  (n = 0%nat \/ exists r, nth_error l (n - 1) = Some r /\ rho * r * r * r < inject_Z (Z.of_nat n)) /\
  forall j r, (n <= j)%nat -> nth_error l j = Some r -> inject_Z (Z.of_nat (S j)) <= rho * r * r * r.
Proof.
  cbn zeta. induction l as [|x l IH] using rev_ind; [cbn; split; [lia|]; split; [left; reflexivity|intros [|j] r _; discriminate]|]. rewrite rev_unit. cbn [so_count]. rewrite rev_length, app_length. cbn [length]. destruct (Qgtb (inject_Z (Z.of_nat (S (length l)))) (rho * x * x * x)) eqn:E.
  - apply Qgtb_spec in E. split; [lia|]. split.
    + right. exists x. replace (S (length l) - 1)%nat with (length l) by lia. split; [rewrite nth_error_app2, Nat.sub_diag by lia; reflexivity|exact E].
    + intros j r Hj Hr. apply nth_error_lt in Hr. rewrite app_length in Hr. cbn in Hr. lia.
  - apply Qgtb_false in E. destruct IH as (H1 & H2 & H3). split; [lia|]. split.
    + destruct H2 as [H2|(r & Hr & Hd)]; [left; exact H2|right]. exists r. split; [rewrite nth_error_app1 by (eapply nth_error_lt; eauto); exact Hr|exact Hd].
    + intros j r Hj Hr. destruct (Nat.lt_ge_cases j (length l)) as [Hlt|Hge]; [rewrite nth_error_app1 in Hr by lia; eauto|]. rewrite nth_error_app2 in Hr by lia. assert (Ej : (j - length l)%nat = 0%nat) by (destruct (j - length l)%nat as [|[|n]]; cbn in Hr; congruence). rewrite Ej in Hr. cbn in Hr. assert (x = r) by congruence. subst r. replace j with (length l) by lia. exact E.
Qed.
