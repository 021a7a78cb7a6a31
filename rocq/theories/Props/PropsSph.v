(** C73: the density estimate from the nearest particles. *)
From Coq Require Import List ZArith QArith Qfield Bool Lia Lqa Sorting.Permutation Sorting.Sorted.
From Verif.Model Require Import ListMem Run Mymath Tree Sph.
From Verif.Spec Require Import Basic Octree Sph.
From Verif.Proofs Require Import ListMemProofs ListExtra MymathProofs2 OctProofs TreeInsert TreeBuild TreeWalk TreeFinal TreeResults SphProofs.
From Verif.Props Require Import PropsTree.
Import ListNotations.
Local Open Scope nat_scope.

Lemma least_unique periodic L a x r r' : least_distance2 periodic L a x r -> least_distance2 periodic L a x r' -> (r == r')%Q.
Proof.
  intros [(a0 & a1 & a2 & A0 & A1 & A2 & A3) A4] [(b0 & b1 & b2 & B0 & B1 & B2 & B3) B4]. pose proof (A4 b0 b1 b2 B0 B1 B2). pose proof (B4 a0 a1 a2 A0 A1 A2). lra.
Qed.
Lemma least_nonneg periodic L a x r : least_distance2 periodic L a x r -> (0 <= r)%Q.
Proof. intros [(a0 & a1 & a2 & A0 & A1 & A2 & A3) _]. rewrite A3. nra. Qed.
Lemma in_particles n i : In i (particles n) <-> (0 <= i < Z.of_nat n)%Z.
Proof. unfold particles. rewrite in_map_iff. split; [intros (m & <- & Hm); apply in_seq in Hm; lia|]. intros H. exists (Z.to_nat i). split; [lia|]. apply in_seq. lia. Qed.
Lemma particles_nodup n : NoDup (particles n).
Proof. apply NoDup_map_inj; [intros; lia|apply seq_NoDup]. Qed.
Lemma particles_length n : length (particles n) = n.
Proof. unfold particles. rewrite map_length, seq_length. reflexivity. Qed.
Lemma total_bound (f : Z -> Q) l : (forall i, In i l -> (0 <= f i)%Q) -> (0 <= total f l)%Q /\ forall i, In i l -> (f i <= total f l)%Q.
Proof.
  induction l as [|a l IH]; intros H; cbn [total fold_right]; [split; [lra|intros i []]|]. destruct IH as [I1 I2]; [intros i Hi; apply H; right; exact Hi|]. fold (total f l). pose proof (H a (or_introl eq_refl)).
  split; [lra|]. intros i [<-|Hi]; [lra|]. specialize (I2 i Hi). lra.
Qed.
Lemma total_app f l m : (total f (l ++ m) == total f l + total f m)%Q.
Proof. induction l as [|a l IH]; cbn [app]; [change (total f []) with 0%Q; lra|]. change (f a + total f (l ++ m) == f a + total f l + total f m)%Q. rewrite IH. lra. Qed.
Lemma total_zero f l : (forall i, In i l -> (f i == 0)%Q) -> (total f l == 0)%Q.
Proof. induction l as [|a l IH]; intros H; cbn [total fold_right]; [lra|]. fold (total f l). rewrite IH by (intros i Hi; apply H; right; exact Hi). rewrite (H a (or_introl eq_refl)). lra. Qed.

Lemma search_ends ps res rnd periodic L fuel0 st x r : ps <> [] -> (forall i, rnd i < 8) -> geo_tree ps res rnd fuel0 = Done st ->
  exists F, forall f, F <= f -> exists found, search ps periodic L f st x r = Done found.
Proof.
  intros Hne Hr Est. destruct (cube_some ps Hne) as (c & len & Hc).
  pose proof (build_tree_ok ps res rnd Hr 0%Z (fun _ a => (a + 1)%Z) (fun (w : vec * Z) a => (a + snd w)%Z) (fun a c => (c, a)) (geo_box res) fuel0 (c, len) Hc Hne) as HB.
  unfold geo_tree in Est. rewrite Est in HB. destruct HB as (cells & sons & E & HW & HF & HFi & HL & HC & HT & L1 & L2).
  eexists. intros f Hf. unfold search. rewrite (root_walk ps _ _ _ _ _ (geo_opens periodic L x r) st sons (c, len) HT HF L2).
  match goal with |- context [?a <? ?b] => destruct (Nat.ltb_spec a b) as [Hlt|Hge] end; [exfalso; apply (Nat.lt_irrefl f); eapply Nat.lt_le_trans; [exact Hlt|exact Hf]|]. cbn [rbind]. eauto.
Qed.

Section Density.
  Variable ps : list vec.
  Variable res : Q.
  Variable rnd : nat -> nat.
  Variable periodic : bool.
  Variable L : Q.
  Variable fuel0 : nat.
  Variable st : list (cell (vec * Z)) * list Z.
  Variable x : vec.
  Variable r2 : Z -> Q.
  Hypothesis Hne : ps <> [].
  Hypothesis Hr : forall i, rnd i < 8.
  Hypothesis Est : geo_tree ps res rnd fuel0 = Done st.
  Hypothesis HP : periodic = true -> (0 < L)%Q /\ in_domain L x /\ Forall (in_domain L) ps.
  Hypothesis Hr2 : forall i, (0 <= i < Z.of_nat (length ps))%Z -> least_distance2 periodic L (position ps i) x (r2 i).

  (** What a search with radius [r] has found. *)
  Definition good (r : Q) (found : list (Z * Q)) : Prop :=
    (0 < r)%Q /\ NoDup (map fst found) /\ (forall i, In i (map fst found) <-> In i (particles (length ps)) /\ (r2 i < r * r)%Q) /\
    (forall p, In p found -> (snd p == r2 (fst p))%Q).
  Lemma search_good r : (0 < r)%Q -> exists F, forall f, F <= f -> exists found, search ps periodic L f st x r = Done found /\ good r found.
  Proof using All.
    intros H0. destruct (C48_search ps res rnd periodic L fuel0 st x r Hne Hr Est ltac:(lra) HP) as (F & HF). exists F. intros f Hf. destruct (HF f Hf) as (found & E & H1 & H2 & H3).
    exists found. split; [exact E|]. assert (HI : forall i, In i (map fst found) <-> In i (particles (length ps)) /\ (r2 i < r * r)%Q).
    { intros i. rewrite H2, in_particles. split.
      - intros (Hi & e & He & Hlt). split; [exact Hi|]. rewrite (least_unique _ _ _ _ _ _ (Hr2 i Hi) He). exact Hlt.
      - intros (Hi & Hlt). split; [exact Hi|]. exists (r2 i). split; [apply Hr2; exact Hi|exact Hlt]. }
    split; [exact H0|]. split; [exact H1|]. split; [exact HI|].
    intros [i e] Hp. cbn [fst snd]. apply (least_unique periodic L (position ps i) x); [apply H3; exact Hp|]. apply Hr2. apply in_particles. apply HI. apply in_map_iff. exists (i, e). split; [reflexivity|exact Hp].
  Qed.
  Lemma good_bound r found : good r found -> length found <= length ps.
  Proof using All.
    intros (_ & H1 & H2 & _). rewrite <- (map_length fst), <- (particles_length (length ps)). apply NoDup_incl_length; [exact H1|]. intros i Hi. apply H2. exact Hi.
  Qed.
  Lemma good_all r found : good r found -> (forall i, In i (particles (length ps)) -> (r2 i < r * r)%Q) -> length found = length ps.
  Proof using All.
    intros G H. apply Nat.le_antisymm; [apply (good_bound r); exact G|]. destruct G as (_ & H1 & H2 & _). rewrite <- (map_length fst found), <- (particles_length (length ps)) at 1.
    apply NoDup_incl_length; [apply particles_nodup|]. intros i Hi. apply H2. split; [exact Hi|apply H; exact Hi].
  Qed.

  Variable num : Z.
  Variable root3 root2 : Q -> Q.
  Hypothesis Hnum : (1 <= num)%Z.
  Hypothesis H3 : forall q, (1 <= q)%Q -> (1 <= root3 q)%Q.

  Lemma guess_grows h m : (0 < h)%Q -> (0 <= m < num)%Z -> (h * (11 # 10) <= next_guess num root3 h m)%Q.
  Proof using All.
    intros Hh Hm. unfold next_guess. destruct (Z.eqb_spec m 0); [lra|]. assert (Hq : (1 <= inject_Z num / inject_Z m)%Q).
    { apply Qle_shift_div_l; [rewrite <- (Zlt_Qlt 0); lia|]. rewrite Qmult_1_l. rewrite <- Zle_Qle. lia. }
    specialize (H3 _ Hq). nra.
  Qed.

  Lemma loop_ok (b : Q) : (0 < b)%Q -> (forall i, In i (particles (length ps)) -> (r2 i < b * b)%Q) -> (num <= Z.of_nat (length ps))%Z ->
    forall n h found, good h found -> (b < h * (11 # 10) ^ Z.of_nat n)%Q -> forall fuel, n <= fuel -> exists F1, forall fuel1, F1 <= fuel1 ->
    exists r found', sph_loop num root3 ps periodic L fuel fuel1 st x h found = Done found' /\ good r found' /\ (num <= Z.of_nat (length found'))%Z.
  Proof using All.
    intros Hb Hall Hn. induction n as [|n IH]; intros h found G Hbh fuel Hf.
    - exists 0. intros fuel1 _. exists h, found. assert (E : length found = length ps). { apply (good_all h); [exact G|]. intros i Hi. specialize (Hall i Hi). change ((11 # 10) ^ Z.of_nat 0)%Q with 1%Q in Hbh. nra. }
      assert (Hl : (num <= Z.of_nat (length found))%Z) by lia. destruct fuel; cbn [sph_loop]; (destruct (Z.ltb_spec (Z.of_nat (length found)) num); [lia|]); auto.
    - destruct fuel as [|fuel]; [lia|]. cbn [sph_loop]. destruct (Z.ltb_spec (Z.of_nat (length found)) num) as [Hlt|Hge]; [|exists 0; intros fuel1 _; exists h, found; auto].
      pose proof (guess_grows h (Z.of_nat (length found)) (proj1 G) ltac:(lia)) as Hg. set (h' := next_guess num root3 h (Z.of_nat (length found))) in *.
      assert (Hh' : (0 < h')%Q) by (destruct G as [G _]; lra). destruct (search_good h' Hh') as (F & HF). 
      assert (Hb' : (b < h' * (11 # 10) ^ Z.of_nat n)%Q).
      { eapply Qlt_le_trans; [exact Hbh|]. rewrite Nat2Z.inj_succ, <- Z.add_1_r, Qpower.Qpower_plus by (intros E; discriminate E). change ((11 # 10) ^ 1)%Q with (11 # 10)%Q.
        pose proof (bernoulli n) as HB. assert (0 <= inject_Z (Z.of_nat n))%Q by (rewrite <- (Zle_Qle 0); lia). assert (0 <= (11 # 10) ^ Z.of_nat n)%Q by lra. nra. }
      (* the list found does not depend on the fuel that is more than enough *)
      destruct (HF F (Nat.le_refl F)) as (found0 & E0 & G0).
      assert (Hsame : forall f, F <= f -> search ps periodic L f st x h' = Done found0).
      { destruct (cube_some ps Hne) as (c & len & Hc).
        pose proof (build_tree_ok ps res rnd Hr 0%Z (fun _ a => (a + 1)%Z) (fun (w : vec * Z) a => (a + snd w)%Z) (fun a c => (c, a)) (geo_box res) fuel0 (c, len) Hc Hne) as HB.
        unfold geo_tree in Est. rewrite Est in HB. destruct HB as (cells & sons & E & HW & HF' & HFi & HL & HC & HT & L1 & L2). intros f Hff. revert E0. unfold search.
        rewrite !(root_walk ps _ _ _ _ _ (geo_opens periodic L x h') st sons (c, len) HT HF' L2). match goal with |- context [?a <? ?b] => destruct (Nat.ltb_spec a b) end; [discriminate|].
        match goal with |- context [?a <? ?b] => destruct (Nat.ltb_spec a b) end; [lia|]. auto. }
      destruct (IH h' found0 G0 Hb' fuel ltac:(lia)) as (F1 & HF1). exists (F + F1). intros fuel1 Hf1. rewrite (Hsame fuel1 ltac:(lia)). cbn [rbind]. apply HF1. lia.
  Qed.

  Hypothesis H2 : root_like root2.

  (** The weights of a found list, compared with the sum of the splines. *)
  Lemma weights_close (h : Q) l : (0 < h)%Q -> (forall p, In p l -> (0 <= root2 (snd p) / h)%Q /\ (root2 (snd p) / h <= 1)%Q /\ (spline (root2 (snd p) / h) == spline (root2 (r2 (fst p)) / h))%Q) ->
    (- (inject_Z (Z.of_nat (length l)) * (1 # 100000000000)) <= fold_right (fun p s => sph_weight (root2 (snd p) / h) + s) 0 l - total (fun i => spline (root2 (r2 i) / h)) (map fst l) <= inject_Z (Z.of_nat (length l)) * (1 # 100000000000))%Q.
  Proof using All.
    intros Hh. induction l as [|p l IH]; intros H; cbn [map total fold_right length]; [vm_compute; split; discriminate|].
    fold (total (fun i => spline (root2 (r2 i) / h)) (map fst l)). destruct (H p (or_introl eq_refl)) as (A & B & C). pose proof (weight_spline _ A B) as HW.
    assert (IH' := IH (fun q Hq => H q (or_intror Hq))). rewrite Nat2Z.inj_succ, <- Z.add_1_r, inject_Z_plus. change (inject_Z 1) with 1%Q. lra.
  Qed.

  Lemma result_ok r found sorted : good r found -> (num <= Z.of_nat (length found))%Z -> places (Z.to_nat (num - 1)) found sorted ->
    exists p, nth_error sorted (Z.to_nat (num - 1)) = Some p /\ nth_smallest (Z.to_nat num) r2 (particles (length ps)) (snd p) /\ (0 <= snd p)%Q /\
      ((0 < snd p)%Q -> let h := root2 (snd p) in exists rho, sph_sum root2 h (firstn (S (Z.to_nat (num - 1))) sorted) = Some rho /\
        (- (inject_Z num * (1 # 100000000000)) <= rho * (h * h * h) - total (fun i => spline (root2 (r2 i) / h)) (particles (length ps)) <= inject_Z num * (1 # 100000000000))%Q).
  Proof using All.
    intros (Hr0 & G1 & G2 & G3) Hlen [HPm Hpl]. set (m := Z.to_nat (num - 1)) in *. assert (Hm : S m = Z.to_nat num) by (unfold m; lia).
    assert (Hls : length sorted = length found) by (symmetry; apply Permutation_length; exact HPm).
    destruct (nth_error sorted m) as [p|] eqn:Ep; [|apply nth_error_None in Ep; unfold m in Ep; lia]. destruct (Hpl p eq_refl) as [Hlo Hhi]. exists p. split; [reflexivity|].
    assert (Hp : In p sorted) by (apply (nth_error_In _ _ Ep)).
    assert (S3 : forall q, In q sorted -> (snd q == r2 (fst q))%Q /\ In (fst q) (particles (length ps)) /\ (r2 (fst q) < r * r)%Q).
    { intros q Hq. apply (Permutation_in _ (Permutation_sym HPm)) in Hq. split; [apply G3; exact Hq|]. apply G2. apply in_map. exact Hq. }
    assert (Hnn : forall i, In i (particles (length ps)) -> (0 <= r2 i)%Q) by (intros i Hi; apply (least_nonneg periodic L (position ps i) x), Hr2, in_particles, Hi).
    assert (Hp0 : (0 <= snd p)%Q) by (destruct (S3 p Hp) as (E & Hi & _); rewrite E; apply Hnn; exact Hi).
    assert (Esplit : sorted = firstn (S m) sorted ++ skipn (S m) sorted) by (symmetry; apply firstn_skipn).
    assert (Hfirst : forall q, In q (firstn (S m) sorted) -> (snd q <= snd p)%Q /\ In q sorted).
    { intros q Hq. apply In_nth_error in Hq as (i & Ei). assert (Hi : i < S m) by (apply nth_error_lt in Ei; rewrite firstn_length in Ei; lia). rewrite nth_firstn in Ei. destruct (Nat.ltb_spec i (S m)); [|lia].
      split; [|apply (nth_error_In _ _ Ei)]. destruct (Nat.eq_dec i m) as [->|Hne']; [rewrite Ep in Ei; injection Ei as <-; lra|apply (Hlo i q); [lia|exact Ei]]. }
    assert (Hrest : forall q, In q (skipn m sorted) -> (snd p <= snd q)%Q /\ In q sorted).
    { intros q Hq. apply In_nth_error in Hq as (i & Ei). rewrite nth_skipn in Ei. split; [|apply (nth_error_In _ _ Ei)].
      destruct (Nat.eq_dec i 0) as [->|Hne']; [rewrite Nat.add_0_r, Ep in Ei; injection Ei as <-; lra|apply (Hhi (m + i) q); [lia|exact Ei]]. }
    assert (HC := complete (particles (length ps)) (map fst sorted) (particles_nodup _) (Permutation_NoDup (Permutation_map fst HPm) G1)).
    set (others := filter (fun i => negb (existsb (Z.eqb i) (map fst sorted))) (particles (length ps))) in *.
    specialize (HC ltac:(intros i Hi; apply in_map_iff in Hi as (q & <- & Hq); apply S3; exact Hq)).
    assert (Hoth : forall i, In i others -> (snd p < r2 i)%Q /\ In i (particles (length ps))).
    { intros i Hi. apply filter_In in Hi as [Hi Hno]. split; [|exact Hi]. destruct (S3 p Hp) as (E & _ & Hlt). rewrite E. destruct (Qlt_le_dec (r2 i) (r * r)) as [Hin|Hge]; [|lra]. exfalso.
      assert (In i (map fst sorted)) by (apply (Permutation_in _ (Permutation_map fst HPm)), G2; split; assumption).
      assert (E' : existsb (Z.eqb i) (map fst sorted) = true) by (apply existsb_exists; exists i; split; [assumption|apply Z.eqb_refl]). rewrite E' in Hno. discriminate. }
    split; [|split; [exact Hp0|]].
    - unfold nth_smallest. rewrite <- Hm. split.
      + rewrite (filter_perm _ _ _ HC), filter_app, app_length. rewrite (filter_none _ others), Nat.add_0_r.
        2: { intros i Hi. destruct (Qlt_le_dec (r2 i) (snd p)); [|reflexivity]. destruct (Hoth i Hi). lra. }
        rewrite <- (firstn_skipn m sorted), map_app, filter_app, app_length. rewrite (filter_none _ (map fst (skipn m sorted))), Nat.add_0_r.
        2: { intros i Hi. apply in_map_iff in Hi as (q & <- & Hq). destruct (Hrest q Hq) as [Hle Hin]. destruct (S3 q Hin) as (E & _). destruct (Qlt_le_dec (r2 (fst q)) (snd p)); [lra|reflexivity]. }
        eapply Nat.le_lt_trans; [apply filter_bound|]. rewrite map_length, firstn_length. lia.
      + rewrite (filter_perm _ _ _ HC), filter_app, app_length. rewrite Esplit, map_app, filter_app, app_length. rewrite (filter_all _ (map fst (firstn (S m) sorted))).
        2: { intros i Hi. apply in_map_iff in Hi as (q & <- & Hq). destruct (Hfirst q Hq) as [Hle Hin]. destruct (S3 q Hin) as (E & _). destruct (Qlt_le_dec (snd p) (r2 (fst q))); [lra|reflexivity]. }
        rewrite map_length, firstn_length. unfold m. lia.
    - intros Hpos h. destruct H2 as (Hmon & Hz & Hpo). assert (Hh : (0 < h)%Q) by (apply Hpo; exact Hpos).
      assert (Hgt1 : forall i, In i (particles (length ps)) -> (snd p <= r2 i)%Q -> (spline (root2 (r2 i) / h) == 0)%Q).
      { intros i Hi Hle. apply spline_zero. apply Qle_shift_div_l; [exact Hh|]. rewrite Qmult_1_l. apply Hmon; [lra|exact Hle]. }
      unfold sph_sum. destruct (Qeq_bool h 0) eqn:Eh; [apply Qeq_bool_iff in Eh; lra|]. eexists. split; [reflexivity|].
      rewrite (sum_fold (fun p => sph_weight (root2 (snd p) / h))). set (s := fold_right _ 0%Q _).
      assert (Es : ((0 + 1 / (h * h * h) * s) * (h * h * h) == s)%Q) by (field; lra). rewrite Es.
      rewrite (total_perm _ _ _ HC), total_app. rewrite (total_zero _ others), Qplus_0_r.
      2: { intros i Hi. destruct (Hoth i Hi). apply Hgt1; [assumption|lra]. }
      assert (Et : (total (fun i => spline (root2 (r2 i) / h)) (map fst sorted) == total (fun i => spline (root2 (r2 i) / h)) (map fst (firstn (S m) sorted)))%Q).
      { rewrite Esplit at 1. rewrite map_app, total_app. rewrite (total_zero _ (map fst (skipn (S m) sorted))), Qplus_0_r; [reflexivity|]. intros i Hi. apply in_map_iff in Hi as (q & <- & Hq).
        assert (Hq' : In q (skipn m sorted)). { rewrite (skipn_cons _ _ _ Ep). right. exact Hq. }
        destruct (Hrest q Hq') as [Hle Hin]. destruct (S3 q Hin) as (E & Hi & _). apply Hgt1; [exact Hi|]. lra. }
      rewrite Et. assert (El : length (firstn (S m) sorted) = Z.to_nat num) by (rewrite firstn_length; lia).
      pose proof (weights_close h (firstn (S m) sorted) Hh) as HW. rewrite El, Z2Nat.id in HW by lia. apply HW. intros q Hq. destruct (Hfirst q Hq) as [Hle Hin]. destruct (S3 q Hin) as (E & Hi & _).
      assert (0 <= snd q)%Q by (rewrite E; apply Hnn; exact Hi). split; [|split].
      + apply Qle_shift_div_l; [exact Hh|]. rewrite Qmult_0_l. rewrite <- Hz. apply Hmon; [lra|assumption].
      + apply Qle_shift_div_r; [exact Hh|]. rewrite Qmult_1_l. apply Hmon; assumption.
      + apply spline_eq. assert (Er : (root2 (snd q) == root2 (r2 (fst q)))%Q) by (apply Qle_antisym; apply Hmon; lra). rewrite Er. reflexivity.
  Qed.
End Density.

(** C73: from a positive first guess the estimate ends with the distance h of the [num]-th nearest particle.  The next guess is a
    hundredth larger.  The density is the sum of the splines of all particles, up to 1e-11 for each neighbour, whatever order
    nth_element leaves; it is not a number if h = 0. *)
Theorem C73_density : forall (num : Z) (root3 root2 : Q -> Q) (nth_element : nat -> list (Z * Q) -> list (Z * Q)) (ps : list vec) (res : Q) (rnd : nat -> nat) (periodic : bool) (L : Q) (fuel0 : nat) st (x : vec) (hguess : Q) (r2 : Z -> Q),
  (forall i, rnd i < 8) -> geo_tree ps res rnd fuel0 = Done st ->
  (periodic = true -> (0 < L)%Q /\ in_domain L x /\ Forall (in_domain L) ps) ->
  (1 <= num <= Z.of_nat (length ps))%Z -> (0 < hguess)%Q ->
  (forall q, (1 <= q)%Q -> (1 <= root3 q)%Q) -> root_like root2 -> (forall m l, m < length l -> places m l (nth_element m l)) ->
  (forall i, (0 <= i < Z.of_nat (length ps))%Z -> least_distance2 periodic L (position ps i) x (r2 i)) ->
  exists F, forall fuel, F <= fuel -> exists F1, forall fuel1, F1 <= fuel1 -> exists rho h2,
    sph_density num root3 root2 nth_element ps periodic L fuel fuel1 st x hguess = Done (rho, root2 h2 * (101 # 100))%Q /\
    nth_smallest (Z.to_nat num) r2 (particles (length ps)) h2 /\ (0 <= h2)%Q /\
    let h := root2 h2 in
    ((h2 == 0)%Q -> rho = None) /\
    ((0 < h2)%Q -> exists d, rho = Some d /\
      (- (inject_Z num * (1 # 100000000000)) <= d * (h * h * h) - total (fun i => spline (root2 (r2 i) / h)) (particles (length ps)) <= inject_Z num * (1 # 100000000000))%Q).
Proof.
  intros num root3 root2 nth_element ps res rnd periodic L fuel0 st x hguess r2 Hr Est HP Hn Hh H3 H2 Hnth Hr2.
  assert (Hne : ps <> []) by (intros ->; cbn [length] in Hn; lia).
  destruct (search_good ps res rnd periodic L fuel0 st x r2 Hne Hr Est HP Hr2 hguess Hh) as (F0 & HF0). destruct (HF0 F0 (Nat.le_refl _)) as (found0 & E0 & G0).
  assert (Hnn : forall i, In i (particles (length ps)) -> (0 <= r2 i)%Q) by (intros i Hi; apply (least_nonneg periodic L (position ps i) x), Hr2, in_particles, Hi).
  destruct (total_bound r2 _ Hnn) as [Ht0 Ht]. set (b := (1 + total r2 (particles (length ps)))%Q).
  assert (Hb : (0 < b)%Q) by (unfold b; lra). assert (Hall : forall i, In i (particles (length ps)) -> (r2 i < b * b)%Q) by (intros i Hi; specialize (Ht i Hi); unfold b; nra).
  destruct (outgrow hguess b Hh) as (n & Hbn). exists n. intros fuel Hf.
  destruct (loop_ok ps res rnd periodic L fuel0 st x r2 Hne Hr Est HP Hr2 num root3 root2 ltac:(lia) H3 b Hb Hall ltac:(lia) n hguess found0 G0 Hbn fuel Hf) as (F1 & HF1).
  assert (Hsame : forall f, F0 <= f -> search ps periodic L f st x hguess = Done found0).
  { destruct (cube_some ps Hne) as (c & len & Hc).
    pose proof (build_tree_ok ps res rnd Hr 0%Z (fun _ a => (a + 1)%Z) (fun (w : vec * Z) a => (a + snd w)%Z) (fun a c => (c, a)) (geo_box res) fuel0 (c, len) Hc Hne) as HB.
    unfold geo_tree in Est. rewrite Est in HB. destruct HB as (cells & sons & E & HW & HF' & HFi & HL & HC & HT & L1 & L2). intros f Hff. revert E0. unfold search.
    rewrite !(root_walk ps _ _ _ _ _ (geo_opens periodic L x hguess) st sons (c, len) HT HF' L2). match goal with |- context [?a <? ?b] => destruct (Nat.ltb_spec a b) end; [discriminate|].
    match goal with |- context [?a <? ?b] => destruct (Nat.ltb_spec a b) end; [lia|]. auto. }
  exists (F0 + F1). intros fuel1 Hf1. destruct (HF1 fuel1 ltac:(lia)) as (r & found & El & G & Hlen).
  assert (Hpl := Hnth (Z.to_nat (num - 1)) found ltac:(lia)).
  destruct (result_ok ps res rnd periodic L fuel0 st x r2 Hne Hr Est HP Hr2 num root3 root2 ltac:(lia) H3 H2 r found _ G Hlen Hpl) as (p & Ep & Hs & Hp0 & Hres).
  exists (sph_sum root2 (root2 (snd p)) (firstn (S (Z.to_nat (num - 1))) (nth_element (Z.to_nat (num - 1)) found))), (snd p). split; [|split; [exact Hs|split; [exact Hp0|]]].
  - unfold sph_density. rewrite (Hsame fuel1 ltac:(lia)). cbn [rbind]. rewrite El. cbn [rbind]. destruct (Z.leb_spec num 0); [lia|]. cbn zeta. rewrite Ep. reflexivity.
  - cbn zeta. split; [|intros Hpos; destruct (Hres Hpos) as (rho & E1 & E2); exists rho; auto].
    intros Hz. unfold sph_sum. destruct H2 as (Hmon & Hz0 & _). assert (E : (root2 (snd p) == 0)%Q). { rewrite <- Hz0. apply Qle_antisym; apply Hmon; lra. }
    apply Qeq_bool_iff in E. rewrite E. reflexivity.
Qed.
Print Assumptions C73_density.

(** C73 fails for a first guess that is not positive: nothing is found and doubling it changes nothing, for ever. *)
Lemma search_nothing ps periodic L fuel st x r found : (r <= 0)%Q -> search ps periodic L fuel st x r = Done found -> found = [].
Proof.
  intros Hr. unfold search. destruct (walk (length ps) (geo_opens periodic L x r) fuel st (Z.of_nat (length ps))) as [its| |]; cbn [rbind]; try discriminate. intros E. injection E as <-.
  induction its as [|i its IH]; [reflexivity|]. cbn [flat_map]. rewrite IH, app_nil_r. unfold geo_item. destruct (i <? Z.of_nat (length ps))%Z; [|reflexivity].
  destruct (inside_range r (apart periodic L (position ps i) x) && Qgtb (r * r) (norm2 (apart periodic L (position ps i) x))) eqn:Ei; [exfalso|reflexivity].
  apply andb_true_iff in Ei as [A B]. destruct (apart periodic L (position ps i) x) as [[d0 d1] d2]. cbn [inside_range norm2] in *. apply andb_true_iff in A as [A A2]. apply andb_true_iff in A as [A0 A1].
  apply Qgtb_spec in B. apply negb_true_iff, orb_false_iff in A0 as [A0 A0']. apply Qgtb_false in A0, A0'. nra.
Qed.
Theorem C73_zero_guess_refuted : forall (num : Z) (root3 root2 : Q -> Q) (nth_element : nat -> list (Z * Q) -> list (Z * Q)) (ps : list vec) (res : Q) (rnd : nat -> nat) (periodic : bool) (L : Q) (fuel0 : nat) st (x : vec) (hguess : Q),
  ps <> [] -> (forall i, rnd i < 8) -> geo_tree ps res rnd fuel0 = Done st -> (1 <= num)%Z -> (hguess <= 0)%Q ->
  (forall fuel fuel1 v, sph_density num root3 root2 nth_element ps periodic L fuel fuel1 st x hguess <> Done v) /\
  forall fuel, exists F, forall fuel1, F <= fuel1 -> sph_density num root3 root2 nth_element ps periodic L fuel fuel1 st x hguess = Running.
Proof.
  intros num root3 root2 nth_element ps res rnd periodic L fuel0 st x hguess Hne Hr Est Hn Hh.
  assert (Hloop : forall fuel fuel1 h v, (h <= 0)%Q -> sph_loop num root3 ps periodic L fuel fuel1 st x h [] <> Done v).
  { induction fuel as [|fuel IH]; intros fuel1 h v Hh0; cbn [sph_loop length]; (destruct (Z.ltb_spec (Z.of_nat 0) num); [|lia]); [discriminate|]. change (next_guess num root3 h (Z.of_nat 0)) with (h * 2)%Q.
    destruct (search ps periodic L fuel1 st x (h * 2)) as [found| |] eqn:Es; cbn [rbind]; [|discriminate|discriminate]. rewrite (search_nothing _ _ _ _ _ _ (h * 2)%Q found ltac:(lra) Es). apply IH. lra. }
  assert (HR : forall fuel h, (h <= 0)%Q -> exists F, forall fuel1, F <= fuel1 -> sph_loop num root3 ps periodic L fuel fuel1 st x h [] = Running).
  { induction fuel as [|fuel IH]; intros h Hh0; [exists 0; intros fuel1 _; cbn [sph_loop length]; destruct (Z.ltb_spec (Z.of_nat 0) num); [reflexivity|lia]|].
    destruct (search_ends ps res rnd periodic L fuel0 st x (h * 2)%Q Hne Hr Est) as (F1 & H1). destruct (IH (h * 2)%Q ltac:(lra)) as (F2 & HF2). exists (F1 + F2). intros fuel1 Hf.
    cbn [sph_loop length]. destruct (Z.ltb_spec (Z.of_nat 0) num); [|lia]. change (next_guess num root3 h (Z.of_nat 0)) with (h * 2)%Q. destruct (H1 fuel1 ltac:(lia)) as (found & Es). rewrite Es. cbn [rbind].
    rewrite (search_nothing _ _ _ _ _ _ (h * 2)%Q found ltac:(lra) Es). apply HF2. lia. }
  split.
  - intros fuel fuel1 v. unfold sph_density. destruct (search ps periodic L fuel1 st x hguess) as [found| |] eqn:Es; cbn [rbind]; [|discriminate|discriminate]. rewrite (search_nothing _ _ _ _ _ _ _ _ Hh Es).
    destruct (sph_loop num root3 ps periodic L fuel fuel1 st x hguess []) as [v'| |] eqn:El; cbn [rbind]; [|discriminate|discriminate]. exfalso. exact (Hloop fuel fuel1 hguess v' Hh El).
  - intros fuel. destruct (search_ends ps res rnd periodic L fuel0 st x hguess Hne Hr Est) as (F1 & H1). destruct (HR fuel hguess Hh) as (F2 & HF2). exists (F1 + F2). intros fuel1 Hf. unfold sph_density.
    destruct (H1 fuel1 ltac:(lia)) as (found & Es). rewrite Es. cbn [rbind]. rewrite (search_nothing _ _ _ _ _ _ _ _ Hh Es), (HF2 fuel1) by lia. reflexivity.
Qed.
Print Assumptions C73_zero_guess_refuted.

(** C73 fails for a tree with fewer particles than neighbours wanted, at least one: the radius grows for ever. *)
Theorem C73_few_particles_refuted : forall (num : Z) (root3 root2 : Q -> Q) (nth_element : nat -> list (Z * Q) -> list (Z * Q)) (ps : list vec) (res : Q) (rnd : nat -> nat) (periodic : bool) (L : Q) (fuel0 : nat) st (x : vec) (hguess : Q) (r2 : Z -> Q),
  ps <> [] -> (forall i, rnd i < 8) -> geo_tree ps res rnd fuel0 = Done st ->
  (periodic = true -> (0 < L)%Q /\ in_domain L x /\ Forall (in_domain L) ps) ->
  (forall i, (0 <= i < Z.of_nat (length ps))%Z -> least_distance2 periodic L (position ps i) x (r2 i)) ->
  (forall q, (1 <= q)%Q -> (1 <= root3 q)%Q) -> (Z.of_nat (length ps) < num)%Z -> (0 < hguess)%Q ->
  forall fuel, exists F, forall fuel1, F <= fuel1 -> sph_density num root3 root2 nth_element ps periodic L fuel fuel1 st x hguess = Running.
Proof.
  intros num root3 root2 nth_element ps res rnd periodic L fuel0 st x hguess r2 Hne Hr Est HP Hr2 H3 Hn Hh.
  assert (Hsg : forall r, (0 < r)%Q -> exists F found, good ps r2 r found /\ forall f, F <= f -> search ps periodic L f st x r = Done found).
  { intros r H0. destruct (search_good ps res rnd periodic L fuel0 st x r2 Hne Hr Est HP Hr2 r H0) as (F & HF). destruct (HF F (Nat.le_refl _)) as (found & E0 & G0). exists F, found. split; [exact G0|].
    destruct (cube_some ps Hne) as (c & len & Hc).
    pose proof (build_tree_ok ps res rnd Hr 0%Z (fun _ a => (a + 1)%Z) (fun (w : vec * Z) a => (a + snd w)%Z) (fun a c => (c, a)) (geo_box res) fuel0 (c, len) Hc Hne) as HB.
    unfold geo_tree in Est. rewrite Est in HB. destruct HB as (cells & sons & E & HW & HF' & HFi & HL & HC & HT & L1 & L2). intros f Hff. revert E0. unfold search.
    rewrite !(root_walk ps _ _ _ _ _ (geo_opens periodic L x r) st sons (c, len) HT HF' L2). match goal with |- context [?a <? ?b] => destruct (Nat.ltb_spec a b) end; [discriminate|].
    match goal with |- context [?a <? ?b] => destruct (Nat.ltb_spec a b) end; [lia|]. auto. }
  assert (HR : forall fuel h found, good ps r2 h found -> exists F, forall fuel1, F <= fuel1 -> sph_loop num root3 ps periodic L fuel fuel1 st x h found = Running).
  { induction fuel as [|fuel IH]; intros h found G; pose proof (good_bound ps res rnd periodic L fuel0 st x r2 Hne Hr Est HP Hr2 h found G) as Hl.
    - exists 0. intros fuel1 _. cbn [sph_loop]. destruct (Z.ltb_spec (Z.of_nat (length found)) num); [reflexivity|lia].
    - pose proof (guess_grows ps res rnd periodic L fuel0 st x r2 Hne Hr Est HP Hr2 num root3 root2 ltac:(lia) H3 h (Z.of_nat (length found)) (proj1 G) ltac:(lia)) as Hg.
      destruct (Hsg (next_guess num root3 h (Z.of_nat (length found)))) as (F & found' & G' & HF); [destruct G as [G _]; lra|]. destruct (IH _ _ G') as (F2 & HF2). exists (F + F2). intros fuel1 Hf. cbn [sph_loop].
      destruct (Z.ltb_spec (Z.of_nat (length found)) num); [|lia]. rewrite HF by lia. cbn [rbind]. apply HF2. lia. }
  intros fuel. destruct (Hsg hguess Hh) as (F & found & G & HF). destruct (HR fuel hguess found G) as (F2 & HF2). exists (F + F2). intros fuel1 Hf. unfold sph_density. rewrite HF by lia. cbn [rbind]. rewrite HF2 by lia. reflexivity.
Qed.
Print Assumptions C73_few_particles_refuted.

(** Three particles on a line, seen from (1,0,0) at the squared distances 1, 4 and 36; any function that keeps the order serves as a
    root here, and nth_element sorts the list.  All hypotheses are met; the two nearest particles count. *)
Definition demo_points : list vec := [(0, 0, 0); (3, 0, 0); (7, 0, 0)]%Q.
Definition demo_r2 (i : Z) : Q := if (i =? 0)%Z then 1%Q else if (i =? 1)%Z then 4%Q else 36%Q.
Definition demo_root (q : Q) : Q := q.
Fixpoint insert (p : Z * Q) (l : list (Z * Q)) := match l with [] => [p] | q :: r => if Qle_bool (snd p) (snd q) then p :: l else q :: insert p r end.
Definition demo_nth (m : nat) (l : list (Z * Q)) : list (Z * Q) := fold_right insert [] l.
Lemma insert_perm p l : Permutation (p :: l) (insert p l).
Proof. induction l as [|q l IH]; [reflexivity|]. cbn [insert]. destruct (Qle_bool (snd p) (snd q)); [reflexivity|]. rewrite perm_swap. constructor. exact IH. Qed.
Lemma insert_sorted p l : StronglySorted (fun a b => snd a <= snd b)%Q l -> StronglySorted (fun a b => snd a <= snd b)%Q (insert p l).
Proof.
  induction 1 as [|q l Hs IH Hq]; [repeat constructor|]. cbn [insert]. destruct (Qle_bool (snd p) (snd q)) eqn:E.
  - apply Qle_bool_iff in E. constructor; [constructor; assumption|]. constructor; [exact E|]. eapply Forall_impl; [|exact Hq]. intros a Ha. cbn beta in *. lra.
  - assert (E' : (snd q <= snd p)%Q). { destruct (Qlt_le_dec (snd q) (snd p)); [lra|]. apply Qle_bool_iff in q0. congruence. }
    constructor; [exact IH|]. apply (Permutation_Forall (insert_perm p l)). constructor; assumption.
Qed.
Lemma demo_places m l : places m l (demo_nth m l).
Proof.
  unfold demo_nth. assert (HP : Permutation l (fold_right insert [] l)). { induction l as [|p l IH]; [reflexivity|]. cbn [fold_right]. rewrite <- insert_perm. constructor. exact IH. }
  assert (HS : StronglySorted (fun a b => snd a <= snd b)%Q (fold_right insert [] l)). { clear. induction l as [|p l IH]; [constructor|]. apply insert_sorted. exact IH. }
  split; [exact HP|]. assert (G : forall (s : list (Z * Q)) i j a b, StronglySorted (fun a b => snd a <= snd b)%Q s -> i < j -> nth_error s i = Some a -> nth_error s j = Some b -> (snd a <= snd b)%Q).
  { clear. induction s as [|c s IH]; intros i j a b HS Hij Ha Hb; [destruct i; discriminate|]. inversion HS as [|? ? HS' HF]; subst. destruct j as [|j]; [lia|]. cbn [nth_error] in Hb. destruct i as [|i].
    - cbn [nth_error] in Ha. injection Ha as <-. rewrite Forall_forall in HF. apply HF. apply (nth_error_In _ _ Hb).
    - apply (IH i j); [exact HS'|lia|exact Ha|exact Hb]. }
  intros p Hp. split; intros i q Hi Hq; [apply (G _ i m q p HS Hi Hq Hp)|apply (G _ m i p q HS Hi Hp Hq)].
Qed.
Example C73_witness : exists st,
  geo_tree demo_points (1 # 10) (fun _ => 0) 50 = Done st /\ root_like demo_root /\ (forall m l, places m l (demo_nth m l)) /\
  (forall i, (0 <= i < Z.of_nat (length demo_points))%Z -> least_distance2 false 0 (position demo_points i) (1, 0, 0)%Q (demo_r2 i)) /\
  match sph_density 2 (fun q => q) demo_root demo_nth demo_points false 0 5 50 st (1, 0, 0)%Q (1 # 10) with
  | Done (Some rho, h) => andb (Qeq_bool h (4 * (101 # 100))) (Qeq_bool (rho * 64) (sph_weight (1 # 4)))
  | _ => false
  end = true.
Proof.
  destruct (geo_tree demo_points (1 # 10) (fun _ => 0) 50) as [st| |] eqn:Est; [|vm_compute in Est; discriminate|vm_compute in Est; discriminate]. exists st. split; [reflexivity|].
  split; [|split; [exact demo_places|split]].
  - split; [intros a b _ H; exact H|]. split; [reflexivity|]. intros a H. exact H.
  - intros i Hi. cbn [demo_points length] in Hi. assert (C : i = 0%Z \/ i = 1%Z \/ i = 2%Z) by lia. destruct C as [->|[->| ->]]; (split; [match goal with |- context [position ?p ?i] => exists (coord 0 (position p i) - 1)%Q, 0%Q, 0%Q; vm_compute; repeat split end|]);
    intros e0 e1 e2; cbn; intros E0 E1 E2; rewrite E0, E1, E2; vm_compute; discriminate.
  - vm_compute in Est. injection Est as <-. vm_compute. reflexivity.
Qed.

(** ... and the guess left by one call can stop the next: with as many particles as neighbours at the place itself the guess is 0. *)
Theorem C73_reuse_refuted : exists (ps : list vec) res rnd fuel0 st x,
  (forall i, rnd i < 8) /\ geo_tree ps res rnd fuel0 = Done st /\
  exists fuel fuel1 h, sph_density 2 (fun q => q) demo_root demo_nth ps false 0 fuel fuel1 st x 1 = Done (None, h) /\
  (forall fuel fuel1 v, sph_density 2 (fun q => q) demo_root demo_nth ps false 0 fuel fuel1 st x h <> Done v).
Proof.
  set (ps := [(1, 0, 0); (1, 0, 0); (3, 0, 0)]%Q : list vec). set (rnd := fun i => i mod 8).
  assert (Hr : forall i, rnd i < 8) by (intros i; apply Nat.mod_upper_bound; lia).
  destruct (geo_tree ps (1 # 10) rnd 50) as [st| |] eqn:Est; [|vm_compute in Est; discriminate|vm_compute in Est; discriminate].
  exists ps, (1 # 10)%Q, rnd, 50, st, (1, 0, 0)%Q. split; [exact Hr|]. split; [exact Est|].
  assert (E : sph_density 2 (fun q => q) demo_root demo_nth ps false 0 5 50 st (1, 0, 0)%Q 1 = Done (None, (inject_Z 0 * (101 # 100))%Q)) by (vm_compute in Est; injection Est as <-; vm_compute; reflexivity).
  exists 5, 50, (inject_Z 0 * (101 # 100))%Q. split; [exact E|].
  apply (C73_zero_guess_refuted 2 (fun q => q) demo_root demo_nth ps (1 # 10) rnd false 0 50 st (1, 0, 0)%Q (inject_Z 0 * (101 # 100))%Q); [discriminate|exact Hr|exact Est|lia|vm_compute; discriminate].
Qed.
Print Assumptions C73_reuse_refuted.
