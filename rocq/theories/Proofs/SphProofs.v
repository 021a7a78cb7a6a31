(** Facts for C73: sums, ranks and the growth of the radius. *)
From Coq Require Import List ZArith QArith Qpower Qround Bool Lia Lqa Sorting.Permutation.
From Verif.Model Require Import ListMem Run Mymath Tree Sph.
From Verif.Spec Require Import Basic Octree Sph.
From Verif.Proofs Require Import ListMemProofs ListExtra MymathProofs2 OctProofs TreeInsert TreeBuild TreeWalk TreeFinal TreeResults.
Import ListNotations.
Local Open Scope Q_scope.

(** The weight of the code is the spline up to the rounding of its constants. *)
Lemma weight_spline u : 0 <= u -> u <= 1 -> - (1 # 100000000000) <= sph_weight u - spline u <= 1 # 100000000000.
Proof.
  intros H0 H1. unfold sph_weight, spline, k. destruct (Qgtb (1 # 2) u) eqn:E.
  - apply Qgtb_spec in E. destruct (Qlt_le_dec u (1 # 2)); [|lra]. assert (0 <= u * u <= 1) by nra. assert (0 <= (1 - u) * (u * u) <= 1) by nra. nra.
  - apply Qgtb_false in E. destruct (Qlt_le_dec u (1 # 2)); [lra|]. assert (0 <= (1 - u) * (1 - u) <= 1) by nra. assert (0 <= (1 - u) * (1 - u) * (1 - u) <= 1) by nra. destruct (Qlt_le_dec u 1); [nra|].
    assert (E1 : u == 1) by lra. assert (E2 : (1 - u) == 0) by lra. rewrite E2. lra.
Qed.
Lemma spline_zero u : 1 <= u -> spline u == 0.
Proof. intros H. unfold spline. destruct (Qlt_le_dec u (1 # 2)); [lra|]. destruct (Qlt_le_dec u 1); [lra|reflexivity]. Qed.
Lemma spline_eq u v : u == v -> spline u == spline v.
Proof.
  intros H. unfold spline. destruct (Qlt_le_dec u (1 # 2)), (Qlt_le_dec v (1 # 2)); try lra; [rewrite H; reflexivity|].
  destruct (Qlt_le_dec u 1), (Qlt_le_dec v 1); try lra. rewrite H. reflexivity.
Qed.

(** The loop of the sum. *)
Lemma sum_fold (f : Z * Q -> Q) (c : Q) l : forall a, fold_left (fun rho p => rho + c * f p) l a == a + c * fold_right (fun p s => f p + s) 0 l.
Proof. induction l as [|p l IH]; intros a; cbn [fold_left fold_right]; [lra|]. rewrite IH. lra. Qed.

(** Counting. *)
Lemma filter_perm {A} (f : A -> bool) l l' : Permutation l l' -> length (filter f l) = length (filter f l').
Proof. induction 1 as [|x l l' H IH|x y l|l l' l'' H1 I1 H2 I2]; cbn [filter]; try (destruct (f x)); try (destruct (f y)); cbn [length]; congruence. Qed.
Lemma filter_none {A} (f : A -> bool) l : (forall x, In x l -> f x = false) -> length (filter f l) = 0%nat.
Proof. induction l as [|x l IH]; intros H; [reflexivity|]. cbn [filter]. rewrite (H x (or_introl eq_refl)). apply IH. intros y Hy. apply H. right. exact Hy. Qed.
Lemma filter_all {A} (f : A -> bool) l : (forall x, In x l -> f x = true) -> length (filter f l) = length l.
Proof. induction l as [|x l IH]; intros H; [reflexivity|]. cbn [filter]. rewrite (H x (or_introl eq_refl)). cbn [length]. f_equal. apply IH. intros y Hy. apply H. right. exact Hy. Qed.
Lemma filter_bound {A} (f : A -> bool) l : (length (filter f l) <= length l)%nat.
Proof. induction l as [|x l IH]; [reflexivity|]. cbn [filter]. destruct (f x); cbn [length]; lia. Qed.

(** A list without repetition whose elements all lie in [l] can be completed to [l]. *)
Lemma complete (l m : list Z) : NoDup l -> NoDup m -> incl m l ->
  Permutation l (m ++ filter (fun i => negb (existsb (Z.eqb i) m)) l).
Proof.
  intros Hl Hm Hi. apply NoDup_Permutation; [exact Hl| |].
  - induction m as [|a m IH] in Hm, Hi |- *; cbn [app]; [apply NoDup_filter; exact Hl|]. apply NoDup_cons_iff in Hm as [Ha Hm]. constructor.
    + rewrite in_app_iff, filter_In. cbn [existsb]. rewrite Z.eqb_refl. cbn. intros [H|[_ H]]; [contradiction|discriminate].
    + assert (G : forall m', NoDup m' -> (forall i, In i m -> In i m') -> NoDup (m ++ filter (fun i => negb (existsb (Z.eqb i) m')) l)).
      { clear - Hm Hl. induction m as [|b m IH]; intros m' Hm' Hin; cbn [app]; [apply NoDup_filter; exact Hl|]. apply NoDup_cons_iff in Hm as [Hb Hm]. constructor.
        - rewrite in_app_iff, filter_In. intros [H|[_ H]]; [contradiction|]. assert (E : existsb (Z.eqb b) m' = true) by (apply existsb_exists; exists b; split; [apply Hin; left; reflexivity|apply Z.eqb_refl]). rewrite E in H. discriminate.
        - apply (IH Hm m' Hm'). intros i Hi. apply Hin. right. exact Hi. }
      apply (G (a :: m)); [constructor; assumption|]. intros i Hin. right. exact Hin.
  - intros i. rewrite in_app_iff, filter_In. destruct (existsb (Z.eqb i) m) eqn:E.
    + apply existsb_exists in E as (j & Hj & E). apply Z.eqb_eq in E. subst j. split; [auto|]. intros [H|[H _]]; auto.
    + split; [intros H; right; split; [exact H|reflexivity]|]. intros [H|[H _]]; auto.
Qed.

(** The radius passes every bound. *)
Lemma bernoulli n : 1 + inject_Z (Z.of_nat n) * (1 # 10) <= (11 # 10) ^ Z.of_nat n.
Proof.
  induction n as [|n IH]; [vm_compute; discriminate|]. rewrite Nat2Z.inj_succ, <- Z.add_1_r, Qpower_plus by (intros E; discriminate E). rewrite inject_Z_plus. change ((11 # 10) ^ 1) with (11 # 10).
  assert (0 <= inject_Z (Z.of_nat n)) by (rewrite <- (Zle_Qle 0); lia). change (inject_Z 1) with 1. nra.
Qed.
Lemma outgrow (h b : Q) : 0 < h -> exists n, b < h * (11 # 10) ^ Z.of_nat n.
Proof.
  intros Hh. exists (Z.to_nat (10 * (Qceiling (b / h) + 1))). pose proof (bernoulli (Z.to_nat (10 * (Qceiling (b / h) + 1)))) as HB. set (n := Z.of_nat _) in *.
  assert (Hn : inject_Z (Qceiling (b / h)) <= inject_Z n * (1 # 10)).
  { assert (H : (10 * (Qceiling (b / h) + 1) <= n)%Z) by (unfold n; lia). rewrite Zle_Qle in H. rewrite inject_Z_mult, inject_Z_plus in H. change (inject_Z 10) with 10 in H. change (inject_Z 1) with 1 in H. lra. }
  pose proof (Qle_ceiling (b / h)) as Hc. assert (Hb : b == h * (b / h)) by (field; lra). rewrite Hb. apply Qmult_lt_l; [exact Hh|]. lra.
Qed.
