(** Proofs about averages of coordinates. *)
From Coq Require Import List ZArith QArith Bool Lia Lqa Sorting.Permutation Setoid.
From Verif.Model Require Import Mymath Tree Means.
From Verif.Spec Require Import Basic Octree Chains Means.
From Verif.Proofs Require Import MymathProofs2 LinkSearch TreeResults LinkPara.
Import ListNotations.
Local Open Scope Q_scope.

Lemma fold_add {A} (f : A -> Q) l : forall a, fold_left (fun a x => a + f x) l a == a + wsum f l.
Proof. induction l as [|x r IH]; intros a; cbn [fold_left]; [unfold wsum; cbn [fold_right]; lra|]. rewrite IH. unfold wsum. cbn [fold_right]. lra. Qed.
Lemma wsum_app {A} (f : A -> Q) l1 l2 : wsum f (l1 ++ l2) == wsum f l1 + wsum f l2.
Proof. induction l1 as [|x r IH]; unfold wsum in *; cbn [fold_right app]; [lra|]. rewrite IH. lra. Qed.
Lemma wsum_perm {A} (f : A -> Q) l1 l2 : Permutation l1 l2 -> wsum f l1 == wsum f l2.
Proof. induction 1; unfold wsum in *; cbn [fold_right]; lra. Qed.
Lemma wsum_ext {A} (f g : A -> Q) l : (forall x, In x l -> f x == g x) -> wsum f l == wsum g l.
Proof. induction l as [|x r IH]; intros H; [reflexivity|]. unfold wsum in *. cbn [fold_right]. rewrite (H x) by (left; reflexivity). rewrite IH by (intros y Hy; apply H; right; exact Hy). reflexivity. Qed.
Lemma wsum_plus {A} (f g : A -> Q) l : wsum (fun x => f x + g x) l == wsum f l + wsum g l.
Proof. induction l as [|x r IH]; unfold wsum in *; cbn [fold_right]; [lra|]. rewrite IH. lra. Qed.
Lemma wsum_scale {A} (f : A -> Q) c l : wsum (fun x => c * f x) l == c * wsum f l.
Proof. induction l as [|x r IH]; unfold wsum in *; cbn [fold_right]; [lra|]. rewrite IH. lra. Qed.
Lemma wsum_nonneg {A} (f : A -> Q) l : (forall x, In x l -> 0 <= f x) -> 0 <= wsum f l.
Proof. induction l as [|x r IH]; intros H; unfold wsum in *; cbn [fold_right]; [lra|]. assert (0 <= f x) by (apply H; left; reflexivity). assert (0 <= fold_right (fun p a => f p + a) 0 r) by (apply IH; intros y Hy; apply H; right; exact Hy). lra. Qed.
Lemma reduce_eq {A} (threads : list (list A)) (f : A -> Q) l : Permutation (concat threads) l -> reduce threads f == wsum f l.
Proof.
  intros HP. rewrite <- (wsum_perm f _ _ HP). clear HP. unfold reduce.
  assert (G : forall a, fold_left Qplus (map (fun l => fold_left (fun a x => a + f x) l 0) threads) a == a + wsum f (concat threads)).
  { induction threads as [|t r IH]; intros a; cbn [map fold_left concat]; [unfold wsum; cbn [fold_right]; lra|]. rewrite IH, fold_add, wsum_app. lra. }
  rewrite G. lra.
Qed.

Lemma coord_vmap f a j : coord j (vmap f a) = f (coord j a).
Proof. destruct a as [[? ?] ?]. destruct j as [|[|?]]; reflexivity. Qed.
Lemma coord_vmap2 f a b j : coord j (vmap2 f a b) = f (coord j a) (coord j b).
Proof. destruct a as [[? ?] ?], b as [[? ?] ?]. destruct j as [|[|?]]; reflexivity. Qed.
Lemma reduce_fun {A} (threads : list (list A)) f g : (forall x, f x = g x) -> reduce threads f = reduce threads g.
Proof.
  intros H. unfold reduce. f_equal. apply map_ext. intros l. generalize 0. induction l as [|x r IH]; intros a; cbn [fold_left]; [reflexivity|]. rewrite H. apply IH.
Qed.
Lemma coord_reduce3 {A} (threads : list (list A)) f j : coord j (reduce3 threads f) = reduce threads (fun x => coord j (f x)).
Proof.
  destruct j as [|[|?]]; unfold reduce3; cbn [coord]; apply reduce_fun; intros x; destruct (f x) as [[? ?] ?]; reflexivity.
Qed.
Lemma coord_eq a b : (forall j, coord j a = coord j b) -> a = b.
Proof. destruct a as [[? ?] ?], b as [[? ?] ?]. intros H. pose proof (H 0%nat). pose proof (H 1%nat). pose proof (H 2%nat). cbn in *. congruence. Qed.

Lemma nearest_half L d e : 0 < L -> - ((3 # 2) * L) <= d <= (3 # 2) * L -> same_image L e d -> - ((1 # 2) * L) < e < (1 # 2) * L -> nearest L d == e.
Proof.
  intros HL Hd He Hb. assert (Hh : L / 2 == (1 # 2) * L) by field. destruct (nearest_spec L d HL) as (Hn & HI). { split; lra. }
  destruct He as [k Hk]. destruct HI as [k' Hk'].
  assert (HE : nearest L d - e == inject_Z (k' - k) * L). { unfold Zminus. rewrite inject_Z_plus, inject_Z_opp. rewrite Hk, Hk'. ring. }
  assert (HZ : (k' - k = 0)%Z).
  { assert (H1 : - L < nearest L d - e < L) by (destruct Hn; split; lra). rewrite HE in H1.
    destruct (Z_lt_le_dec 0 (k' - k)) as [HZ|HZ]; [|destruct (Z_lt_le_dec (k' - k) 0) as [HZ'|HZ']; [|lia]].
    - assert (1 <= inject_Z (k' - k)) by (change 1 with (inject_Z 1); rewrite <- Zle_Qle; lia). exfalso. nra.
    - assert (inject_Z (k' - k) <= -1) by (change (-1) with (inject_Z (-1)); rewrite <- Zle_Qle; lia). exfalso. nra. }
  rewrite HZ in HE. change (inject_Z 0) with 0 in HE. lra.
Qed.

Lemma mean_unique l g a b : ~ wsum b_m l == 0 -> is_mean l g a -> is_mean l g b -> a == b.
Proof.
  unfold is_mean. intros HM Ha Hb. assert (H : (a - b) * wsum b_m l == 0) by lra. apply Qmult_integral in H. destruct H as [H|H]; [lra|contradiction].
Qed.
Lemma mean_perm l l' g a : Permutation l l' -> is_mean l g a -> is_mean l' g a.
Proof. unfold is_mean. intros HP Ha. rewrite <- (wsum_perm b_m _ _ HP), <- (wsum_perm _ _ _ HP). exact Ha. Qed.
Lemma mean_div l g m s : ~ wsum b_m l == 0 -> m == wsum b_m l -> s == wsum (fun p => b_m p * g p) l -> is_mean l g (s / m).
Proof. intros HM Hm Hs. unfold is_mean. rewrite <- Hs, <- Hm. field. rewrite Hm. exact HM. Qed.
Lemma mean_shift l g h a c : (forall p, In p l -> h p == g p - c) -> is_mean l h a -> is_mean l g (a + c).
Proof.
  unfold is_mean. intros H Ha. assert (E : wsum (fun p => b_m p * g p) l == wsum (fun p => b_m p * h p + c * b_m p) l) by (apply wsum_ext; intros p Hp; rewrite (H p Hp); ring).
  rewrite E, wsum_plus, wsum_scale, <- Ha. ring.
Qed.
Lemma mean_single p g : is_mean [p] g (g p).
Proof. unfold is_mean, wsum. cbn [fold_right]. ring. Qed.
Lemma mean_ext l g h a : (forall p, In p l -> g p == h p) -> is_mean l g a -> is_mean l h a.
Proof. unfold is_mean. intros H Ha. rewrite Ha. apply wsum_ext. intros p Hp. rewrite (H p Hp). reflexivity. Qed.
Lemma mean_congr l g a b : a == b -> is_mean l g a -> is_mean l g b.
Proof. unfold is_mean. intros H. rewrite H. auto. Qed.
Lemma mean_between l g a lo hi : 0 < wsum b_m l -> (forall p, In p l -> 0 <= b_m p /\ lo <= g p <= hi) -> is_mean l g a -> lo <= a <= hi.
Proof.
  unfold is_mean. intros HM H Ha.
  assert (H1 : 0 <= wsum (fun p => b_m p * g p + - lo * b_m p) l). { apply wsum_nonneg. intros p Hp. destruct (H p Hp) as (? & ? & ?). nra. }
  assert (H2 : 0 <= wsum (fun p => hi * b_m p + - (1) * (b_m p * g p)) l). { apply wsum_nonneg. intros p Hp. destruct (H p Hp) as (? & ? & ?). nra. }
  rewrite wsum_plus, wsum_scale in H1. rewrite wsum_plus, !wsum_scale in H2. rewrite <- Ha in H1, H2. split; nra.
Qed.

(** Offsets from the first particle are differences of the images. *)
Lemma near_images L l y o p j : 0 < L -> (forall p j, In p l -> 0 <= coord j (b_x p) <= L) -> unfolds true L l y -> In o l -> In p l ->
  coord j (apart true L (b_x p) (b_x o)) == coord j (y p) - coord j (y o).
Proof.
  intros HL HB [HI HC] Ho Hp. rewrite apart_coord. apply nearest_half; [exact HL| | |].
  - pose proof (HB p j Hp). pose proof (HB o j Ho). split; lra.
  - destruct (HI p j Hp) as [k Hk]. destruct (HI o j Ho) as [k' Hk']. exists (k - k')%Z. unfold Zminus. rewrite inject_Z_plus, inject_Z_opp, Hk, Hk'. ring.
  - apply HC; assumption.
Qed.
Lemma position_ok periodic L parts threads before y : parts <> [] -> ~ wsum b_m parts == 0 -> Permutation (concat threads) parts -> in_box periodic L parts -> unfolds periodic L parts y ->
  exists a m, average_position periodic L parts threads before = Some (a, m) /\ m == wsum b_m parts /\
    forall j, exists c, is_mean parts (fun p => coord j (y p)) c /\ at_image periodic L (coord j a) c.
Proof.
  intros Hne HM HP HB HU. destruct parts as [|o [|q r]] eqn:El; [contradiction| |]; rewrite <- El in *; assert (Ho : In o parts) by (rewrite El; left; reflexivity).
  - exists (b_x o), (b_m o). split; [rewrite El; reflexivity|]. split; [rewrite El; unfold wsum; cbn [fold_right]; ring|]. intros j. exists (coord j (y o)). split; [rewrite El; apply (mean_single o (fun p => coord j (y p)))|].
    unfold at_image. destruct periodic; [|symmetry; apply HU; exact Ho]. destruct HU as [HI _]. destruct (HI o j Ho) as [k Hk]. exists (- k)%Z. rewrite inject_Z_opp, Hk. ring.
  - assert (Em : reduce threads b_m == wsum b_m parts) by (apply reduce_eq, HP).
    assert (E0 : Qeq_bool (reduce threads b_m) 0 = false). { destruct (Qeq_bool (reduce threads b_m) 0) eqn:E0; [|reflexivity]. apply Qeq_bool_eq in E0. rewrite Em in E0. contradiction. }
    eexists. eexists. split; [unfold average_position; rewrite El; rewrite E0; reflexivity|]. split; [exact Em|]. intros j. destruct periodic.
    + destruct (HB eq_refl) as [HL Hx]. destruct HU as [HI HC]. destruct (HI o j Ho) as [k Hk].
      eexists. split; [apply (mean_shift parts _ (fun p => coord j (apart true L (b_x p) (b_x o))) (reduce threads (fun x => coord j (times (b_m x) (apart true L (b_x x) (b_x o)))) / reduce threads b_m) (coord j (y o)))|].
      * intros p Hp. apply (near_images L parts y); auto. split; assumption.
      * apply mean_div; [exact HM|exact Em|]. rewrite (reduce_eq threads _ parts HP). apply wsum_ext. intros p _. unfold times. rewrite coord_vmap. ring.
      * exists (- k)%Z. rewrite coord_vmap2. unfold over. rewrite coord_vmap, coord_reduce3, inject_Z_opp, Hk. ring.
    + eexists. split; [|unfold over; rewrite coord_vmap; reflexivity]. rewrite coord_reduce3. apply mean_div; [exact HM|exact Em|]. rewrite (reduce_eq threads _ parts HP). apply wsum_ext. intros p Hp. unfold times. rewrite coord_vmap. rewrite (HU p j Hp). ring.
Qed.
Lemma velocity_ok parts threads before : parts <> [] -> ~ wsum b_m parts == 0 -> Permutation (concat threads) parts ->
  exists v m, average_velocity parts threads before = Some (v, m) /\ m == wsum b_m parts /\ forall j, is_mean parts (fun p => coord j (b_v p)) (coord j v).
Proof.
  intros Hne HM HP. destruct parts as [|o [|q r]] eqn:El; [contradiction| |]; rewrite <- El in *.
  - exists (b_v o), (b_m o). split; [rewrite El; reflexivity|]. split; [rewrite El; unfold wsum; cbn [fold_right]; ring|]. intros j. rewrite El. apply (mean_single o (fun p => coord j (b_v p))).
  - assert (Em : reduce threads b_m == wsum b_m parts) by (apply reduce_eq, HP).
    assert (E0 : Qeq_bool (reduce threads b_m) 0 = false). { destruct (Qeq_bool (reduce threads b_m) 0) eqn:E0; [|reflexivity]. apply Qeq_bool_eq in E0. rewrite Em in E0. contradiction. }
    eexists. eexists. split; [unfold average_velocity; rewrite El; rewrite E0; reflexivity|]. split; [exact Em|]. intros j. unfold over. rewrite coord_vmap, coord_reduce3. apply mean_div; [exact HM|exact Em|].
    rewrite (reduce_eq threads _ parts HP). apply wsum_ext. intros p _. unfold times. rewrite coord_vmap. ring.
Qed.

(** ** Dispersions. *)
Lemma serial {A} (l : list A) f : reduce [l] f == wsum f l.
Proof. apply reduce_eq. cbn [concat]. rewrite app_nil_r. apply Permutation_refl. Qed.
Lemma spread_ok l (d : body -> Q) s t m mu v : ~ wsum b_m l == 0 -> m == wsum b_m l -> s == wsum (fun p => b_m p * d p) l -> t == wsum (fun p => b_m p * (d p * d p)) l ->
  spread s t m = (mu, v) -> is_mean l d mu /\ v * wsum b_m l == wsum (fun p => b_m p * ((d p - mu) * (d p - mu))) l.
Proof.
  intros HM Hm Hs Ht E. unfold spread in E. injection E as <- <-. assert (HI : is_mean l d (s / m)) by (apply mean_div; assumption). split; [exact HI|].
  unfold is_mean in HI. set (mu := s / m) in *. assert (HT : t / m * wsum b_m l == t) by (rewrite <- Hm; field; rewrite Hm; exact HM).
  rewrite (wsum_ext (fun p => b_m p * ((d p - mu) * (d p - mu))) (fun p => (b_m p * (d p * d p) + (- (2) * mu) * (b_m p * d p)) + (mu * mu) * b_m p) l) by (intros p _; ring).
  rewrite !wsum_plus, !wsum_scale, <- Ht, <- HI. rewrite <- HT at 2. ring.
Qed.
Lemma spreads_ok core dx : ~ wsum b_m core == 0 -> exists a s2, spreads core dx = Some (a, s2) /\ (forall j, is_mean core (fun p => coord j (dx p)) (coord j a)) /\
  s2 * wsum b_m core == wsum (fun p => b_m p * gap2 (dx p) a) core.
Proof.
  intros HM. unfold spreads. set (S := reduce3 [core] (fun p => times (b_m p) (dx p))). set (T := reduce3 [core] (fun p => times (b_m p) (vmap (fun d => d * d) (dx p)))).
  assert (HS : forall j, coord j S == wsum (fun p => b_m p * coord j (dx p)) core). { intros j. unfold S. rewrite coord_reduce3, serial. apply wsum_ext. intros p _. unfold times. rewrite coord_vmap. ring. }
  assert (HT : forall j, coord j T == wsum (fun p => b_m p * (coord j (dx p) * coord j (dx p))) core). { intros j. unfold T. rewrite coord_reduce3, serial. apply wsum_ext. intros p _. unfold times. rewrite !coord_vmap. ring. }
  destruct S as [[s0 s1] s2], T as [[t0 t1] t2]. assert (Em : reduce [core] b_m == wsum b_m core) by apply serial.
  destruct (Qeq_bool (reduce [core] b_m) 0) eqn:E0; [apply Qeq_bool_eq in E0; rewrite Em in E0; contradiction|].
  destruct (spread s0 t0 (reduce [core] b_m)) as [a0 d0] eqn:F0, (spread s1 t1 (reduce [core] b_m)) as [a1 d1] eqn:F1, (spread s2 t2 (reduce [core] b_m)) as [a2 d2] eqn:F2.
  destruct (spread_ok core (fun p => coord 0 (dx p)) _ _ _ _ _ HM Em (HS 0%nat) (HT 0%nat) F0) as [M0 V0].
  destruct (spread_ok core (fun p => coord 1 (dx p)) _ _ _ _ _ HM Em (HS 1%nat) (HT 1%nat) F1) as [M1 V1].
  destruct (spread_ok core (fun p => coord 2 (dx p)) _ _ _ _ _ HM Em (HS 2%nat) (HT 2%nat) F2) as [M2 V2].
  exists (a0, a1, a2), (d0 + d1 + d2). split; [reflexivity|]. split.
  - intros [|[|j]]; [exact M0|exact M1|]. eapply mean_ext; [|exact M2]. intros p _. cbn beta. destruct (dx p) as [[? ?] ?]. reflexivity.
  - rewrite !Qmult_plus_distr_l, V0, V1, V2, <- !wsum_plus. apply wsum_ext. intros p _. unfold gap2. cbn [coord]. ring.
Qed.
Lemma build_position_ok periodic L parts nb before y : (1 <= nb <= length parts)%nat -> let core := firstn (Nat.min nb core_max) parts in
  ~ wsum b_m core == 0 -> in_box periodic L core -> unfolds periodic L core y ->
  exists a s2 c, build_position periodic L parts nb before = Some (a, s2) /\ (forall j, is_mean core (fun p => coord j (y p)) (coord j c) /\ at_image periodic L (coord j a) (coord j c)) /\
    s2 * wsum b_m core == wsum (fun p => b_m p * gap2 (y p) c) core.
Proof.
  intros Hn core HM HB HU. unfold build_position. rewrite (proj2 (Nat.ltb_ge _ _)) by lia. fold core. assert (Hne : length core <> 0%nat) by (unfold core; rewrite firstn_length; unfold core_max; lia). clearbody core. destruct core as [|o [|q r]] eqn:El; [contradiction| |].
  - exists (b_x o), 0, (y o). split; [reflexivity|]. split.
    + intros j. split; [apply (mean_single o (fun p => coord j (y p)))|]. unfold at_image. destruct periodic; [|symmetry; apply HU; left; reflexivity].
      destruct HU as [HI _]. destruct (HI o j (or_introl eq_refl)) as [k Hk]. exists (- k)%Z. rewrite inject_Z_opp, Hk. ring.
    + unfold wsum. cbn [fold_right]. unfold gap2. ring.
  - cbv beta iota. rewrite <- El in *. assert (Ho : In o core) by (rewrite El; left; reflexivity).
    destruct (spreads_ok core (fun p => if periodic then apart true L (b_x p) (b_x o) else b_x p) HM) as (a & s2 & E & HA & HV). rewrite E. cbn [option_map fst snd]. destruct periodic.
    + destruct (HB eq_refl) as [HL Hx]. assert (HD : forall p j, In p core -> coord j (apart true L (b_x p) (b_x o)) == coord j (y p) - coord j (y o)) by (intros p j Hp; apply (near_images L core y); auto).
      exists (vmap2 Qplus a (b_x o)), s2, (vmap2 Qplus a (y o)). split; [reflexivity|]. split.
      * intros j. rewrite !coord_vmap2. split; [apply (mean_shift core _ (fun p => coord j (apart true L (b_x p) (b_x o)))); [intros p Hp; apply HD; exact Hp|apply HA]|].
        destruct HU as [HI _]. destruct (HI o j Ho) as [k Hk]. exists (- k)%Z. rewrite inject_Z_opp, Hk. ring.
      * rewrite HV. apply wsum_ext. intros p Hp. unfold gap2. rewrite !coord_vmap2, !HD by exact Hp. ring.
    + exists a, s2, a. split; [reflexivity|]. split; [intros j; split; [|reflexivity]; eapply mean_ext; [|apply HA]; intros p Hp; cbn beta; symmetry; apply HU, Hp|].
      rewrite HV. apply wsum_ext. intros p Hp. unfold gap2. rewrite !(HU p _ Hp). reflexivity.
Qed.
Lemma build_velocity_ok parts nb before : (1 <= nb <= length parts)%nat -> let core := firstn (Nat.min nb core_max) parts in ~ wsum b_m core == 0 ->
  exists v s2, build_velocity parts nb before = Some (v, s2) /\ (forall j, is_mean core (fun p => coord j (b_v p)) (coord j v)) /\ s2 * wsum b_m core == wsum (fun p => b_m p * gap2 (b_v p) v) core.
Proof.
  intros Hn core HM. unfold build_velocity. rewrite (proj2 (Nat.ltb_ge _ _)) by lia. fold core. assert (Hne : length core <> 0%nat) by (unfold core; rewrite firstn_length; unfold core_max; lia). clearbody core. destruct core as [|o [|q r]] eqn:El; [contradiction| |].
  - exists (b_v o), 0. split; [reflexivity|]. split; [intros j; apply (mean_single o (fun p => coord j (b_v p)))|]. unfold wsum. cbn [fold_right]. unfold gap2. ring.
  - cbv beta iota. rewrite <- El in *. apply spreads_ok. exact HM.
Qed.
Lemma sq_nonneg q : 0 <= q * q.
Proof. nra. Qed.
Lemma gap2_nonneg a b : 0 <= gap2 a b.
Proof. unfold gap2. pose proof (sq_nonneg (coord 0 a - coord 0 b)). pose proof (sq_nonneg (coord 1 a - coord 1 b)). pose proof (sq_nonneg (coord 2 a - coord 2 b)). lra. Qed.
Lemma dispersion_nonneg core s2 (g : body -> vec) c : (forall p, In p core -> 0 <= b_m p) -> ~ wsum b_m core == 0 -> s2 * wsum b_m core == wsum (fun p => b_m p * gap2 (g p) c) core -> 0 <= s2.
Proof.
  intros Hm HM HV. assert (0 <= wsum b_m core) by (apply wsum_nonneg; exact Hm).
  assert (0 <= wsum (fun p => b_m p * gap2 (g p) c) core). { apply wsum_nonneg. intros p Hp. pose proof (Hm p Hp). pose proof (gap2_nonneg (g p) c). nra. }
  rewrite <- HV in H0. assert (0 < wsum b_m core). { destruct (Qlt_le_dec 0 (wsum b_m core)); [assumption|]. exfalso. apply HM. lra. } nra.
Qed.

(** ** Energies, angular momentum. *)
Lemma apart_offsets periodic L l c : (periodic = true -> 0 < L /\ forall p j, In p l -> near_range L (coord j (b_x p)) (coord j c)) -> offsets periodic L l c (fun p => apart periodic L (b_x p) c).
Proof.
  intros HB p j Hp. unfold least_offset. rewrite apart_coord. destruct periodic; [|reflexivity]. destruct (HB eq_refl) as [HL HR]. specialize (HR p j Hp). split.
  - apply nearest_spec; [exact HL|exact HR].
  - intros e' He. pose proof (Qabs_sq _ _ (nearest_le L _ _ e' HL HR He)). lra.
Qed.

Lemma norm2_coord d : norm2 d == coord 0 d * coord 0 d + coord 1 d * coord 1 d + coord 2 d * coord 2 d.
Proof. destruct d as [[? ?] ?]. reflexivity. Qed.
Lemma cross_coord a b : cross a b = (coord 1 a * coord 2 b - coord 2 a * coord 1 b, coord 2 a * coord 0 b - coord 0 a * coord 2 b, coord 0 a * coord 1 b - coord 1 a * coord 0 b).
Proof. destruct a as [[? ?] ?], b as [[? ?] ?]. reflexivity. Qed.
Lemma kinematics_ok periodic L scale hz X V parts threads : (1 < length parts)%nat -> ~ wsum (fun p => b_m (fst p)) parts == 0 -> Permutation (concat threads) parts ->
  let d := fun p => apart periodic L (b_x (fst p)) X in let w := fun j p => coord j (b_v (fst p)) - coord j V + hz * (scale * coord j (d p)) in
  exists pot kin am, average_kinematics periodic L scale hz X V parts threads = Some (pot, kin, am) /\
    (pot + kin) * wsum (fun p => b_m (fst p)) parts == wsum (fun p => b_m (fst p) * snd p) parts /\
    kin * wsum (fun p => b_m (fst p)) parts == wsum (fun p => (1 # 2) * b_m (fst p) * (w 0%nat p * w 0%nat p + w 1%nat p * w 1%nat p + w 2%nat p * w 2%nat p)) parts /\
    coord 0 am * wsum (fun p => b_m (fst p)) parts == wsum (fun p => b_m (fst p) * scale * (coord 1 (d p) * w 2%nat p - coord 2 (d p) * w 1%nat p)) parts /\
    coord 1 am * wsum (fun p => b_m (fst p)) parts == wsum (fun p => b_m (fst p) * scale * (coord 2 (d p) * w 0%nat p - coord 0 (d p) * w 2%nat p)) parts /\
    coord 2 am * wsum (fun p => b_m (fst p)) parts == wsum (fun p => b_m (fst p) * scale * (coord 0 (d p) * w 1%nat p - coord 1 (d p) * w 0%nat p)) parts.
Proof.
  intros Hn HM HP d w. unfold average_kinematics. rewrite (proj2 (Nat.leb_gt _ _) Hn).
  set (m := reduce threads (fun p => b_m (fst p))). set (M := wsum (fun p => b_m (fst p)) parts) in *. assert (Em : m == M) by (apply reduce_eq, HP).
  destruct (Qeq_bool m 0) eqn:E0; [apply Qeq_bool_eq in E0; rewrite Em in E0; contradiction|]. assert (Hm : ~ m == 0) by (rewrite Em; exact HM).
  eexists. eexists. eexists. split; [reflexivity|].
  set (dv := fun p : body * Q => vmap2 Qplus (vmap2 Qminus (b_v (fst p)) V) (times hz (times scale (apart periodic L (b_x (fst p)) X)))).
  assert (Hw : forall j p, coord j (dv p) == w j p) by (intros j p; unfold dv, w, times, d; rewrite !coord_vmap2, !coord_vmap; ring).
  split; [|split]; [| |split; [|split]].
  - rewrite <- Em. transitivity (reduce threads (fun p => snd p * b_m (fst p))); [field; exact Hm|]. rewrite (reduce_eq threads _ parts HP). apply wsum_ext. intros p _. ring.
  - rewrite <- Em. transitivity ((1 # 2) * reduce threads (fun p => norm2 (dv p) * b_m (fst p))); [unfold dv; field; exact Hm|]. rewrite (reduce_eq threads _ parts HP), <- wsum_scale. apply wsum_ext. intros p _. rewrite norm2_coord, !Hw. ring.
  - unfold over. rewrite coord_vmap, coord_reduce3, <- Em. rewrite Qmult_comm, Qmult_div_r by exact Hm. rewrite (reduce_eq threads _ parts HP). apply wsum_ext. intros p _. unfold times at 1. rewrite coord_vmap, cross_coord. change (vmap2 Qplus (vmap2 Qminus (b_v (fst p)) V) (times hz (times scale (apart periodic L (b_x (fst p)) X)))) with (dv p). cbn [coord]. rewrite !Hw. unfold times. rewrite !coord_vmap. fold (d p). ring.
  - unfold over. rewrite coord_vmap, coord_reduce3, <- Em. rewrite Qmult_comm, Qmult_div_r by exact Hm. rewrite (reduce_eq threads _ parts HP). apply wsum_ext. intros p _. unfold times at 1. rewrite coord_vmap, cross_coord. change (vmap2 Qplus (vmap2 Qminus (b_v (fst p)) V) (times hz (times scale (apart periodic L (b_x (fst p)) X)))) with (dv p). cbn [coord]. rewrite !Hw. unfold times. rewrite !coord_vmap. fold (d p). ring.
  - unfold over. rewrite coord_vmap, coord_reduce3, <- Em. rewrite Qmult_comm, Qmult_div_r by exact Hm. rewrite (reduce_eq threads _ parts HP). apply wsum_ext. intros p _. unfold times at 1. rewrite coord_vmap, cross_coord. change (vmap2 Qplus (vmap2 Qminus (b_v (fst p)) V) (times hz (times scale (apart periodic L (b_x (fst p)) X)))) with (dv p). cbn [coord]. rewrite !Hw. unfold times. rewrite !coord_vmap. fold (d p). ring.
Qed.

(** ** Tensors. *)
Lemma along_coord u d : along u d * along u d == (coord 0 u * coord 0 u) * (coord 0 d * coord 0 d) + (coord 1 u * coord 1 u) * (coord 1 d * coord 1 d) + (coord 2 u * coord 2 u) * (coord 2 d * coord 2 d) +
  2 * ((coord 0 u * coord 1 u) * (coord 0 d * coord 1 d) + (coord 0 u * coord 2 u) * (coord 0 d * coord 2 d) + (coord 1 u * coord 2 u) * (coord 1 d * coord 2 d)).
Proof. unfold along. ring. Qed.
Lemma tensor_quad periodic L threads l (f : body -> vec -> Q -> Q) (k : body -> Q) c mb u : Permutation (concat threads) l -> ~ mb == 0 ->
  (forall p q, In p l -> f p (apart periodic L (b_x p) c) q == q * k p) ->
  quad (tensor_of periodic L threads f c mb) u * mb == wsum (fun p => k p * (along u (apart periodic L (b_x p) c) * along u (apart periodic L (b_x p) c))) l.
Proof.
  intros HP Hb Hf. unfold tensor_of, quad. set (d := fun p => apart periodic L (b_x p) c).
  set (sum := fun g : Q -> Q -> Q -> Q => reduce threads (fun p => let '(x, y, z) := d p in f p (x, y, z) (g x y z))).
  assert (HS : forall g, sum g == wsum (fun p => g (coord 0 (d p)) (coord 1 (d p)) (coord 2 (d p)) * k p) l).
  { intros g. unfold sum. rewrite (reduce_eq threads _ l HP). apply wsum_ext. intros p Hp. pose proof (Hf p (g (coord 0 (d p)) (coord 1 (d p)) (coord 2 (d p))) Hp) as E. fold (d p) in E. destruct (d p) as [[x y] z]. cbn [coord] in *. exact E. }
  rewrite (wsum_ext _ (fun p => (((((coord 0 u * coord 0 u) * (coord 0 (d p) * coord 0 (d p) * k p) + (coord 1 u * coord 1 u) * (coord 1 (d p) * coord 1 (d p) * k p)) + (coord 2 u * coord 2 u) * (coord 2 (d p) * coord 2 (d p) * k p)) +
    (2 * (coord 0 u * coord 1 u)) * (coord 0 (d p) * coord 1 (d p) * k p)) + (2 * (coord 0 u * coord 2 u)) * (coord 0 (d p) * coord 2 (d p) * k p)) + (2 * (coord 1 u * coord 2 u)) * (coord 1 (d p) * coord 2 (d p) * k p)) l).
  2:{ intros p _. fold (d p). rewrite along_coord. ring. }
  rewrite !wsum_plus, !wsum_scale.
  rewrite <- (HS (fun x y z => x * x)), <- (HS (fun x y z => x * y)), <- (HS (fun x y z => x * z)), <- (HS (fun x y z => y * y)), <- (HS (fun x y z => y * z)), <- (HS (fun x y z => z * z)).
  unfold sum, d. cbv beta. field. exact Hb.
Qed.
Lemma at_centre periodic L x c : norm2 (apart periodic L x c) == 0 -> (periodic = true -> 0 < L /\ forall j, near_range L (coord j x) (coord j c)) -> forall j, at_image periodic L (coord j x) (coord j c).
Proof.
  intros H0 HB. assert (H : forall j, coord j (apart periodic L x c) == 0).
  { intros j. rewrite norm2_coord in H0. pose proof (sq_nonneg (coord 0 (apart periodic L x c))). pose proof (sq_nonneg (coord 1 (apart periodic L x c))). pose proof (sq_nonneg (coord 2 (apart periodic L x c))).
    assert (G : forall q, q * q == 0 -> q == 0) by (intros q Hq; apply Qmult_integral in Hq; tauto). destruct (apart periodic L x c) as [[a0 a1] a2]. cbn [coord] in *. destruct j as [|[|j]]; cbn [coord]; apply G; lra. }
  intros j. specialize (H j). rewrite apart_coord in H. unfold at_image. destruct periodic; [|lra]. destruct (HB eq_refl) as [HL HR]. destruct (nearest_spec L (coord j x - coord j c) HL (HR j)) as [_ [k Hk]]. exists (- k)%Z. rewrite inject_Z_opp. rewrite H in Hk. lra.
Qed.
Lemma centre_apart periodic L x c : (forall j, coord j x == coord j c) -> (periodic = true -> 0 < L) -> norm2 (apart periodic L x c) == 0.
Proof.
  intros H HL. assert (E : forall j, coord j (apart periodic L x c) == 0).
  { intros j. rewrite apart_coord. destruct periodic; [|rewrite H; ring]. specialize (HL eq_refl). apply nearest_half; [exact HL| | |]; [rewrite H; split; lra| |split; lra]. exists 0%Z. change (inject_Z 0) with 0. rewrite H. ring. }
  rewrite norm2_coord, !E. ring.
Qed.
