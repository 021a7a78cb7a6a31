From Coq Require Import List ZArith NArith QArith Qround Bool Lia Lqa Arith Psatz.
From Coq Require Import ZifyBool ZifyNat ZifyN.
From Verif.Model Require Import Mymath.
From Verif.Spec Require Import Basic.
From Verif.Proofs Require Import MymathProofs.
Import ListNotations.
Local Open Scope Z_scope.

(** * Cells *)

Lemma get_grid_range x step dim : 0 < dim -> 0 <= get_grid x step dim < dim.
Proof.
  intros Hd. unfold get_grid.
  destruct (Qfloor (x / step) <? 0) eqn:E1; destruct (dim <=? _) eqn:E2; lia.
Qed.

Lemma Qfloor_spec (q : Q) (z : Z) : (inject_Z z <= q)%Q -> (q < inject_Z (z + 1))%Q -> Qfloor q = z.
Proof.
  intros H1 H2.
  pose proof (Qfloor_le q) as H3. pose proof (Qlt_floor q) as H4.
  assert (inject_Z z < inject_Z (Qfloor q + 1))%Q by lra.
  assert (inject_Z (Qfloor q) < inject_Z (z + 1))%Q by lra.
  rewrite <- Zlt_Qlt in *. lia.
Qed.

Lemma get_grid_inside x step dim g : (0 < step)%Q -> 0 <= g < dim ->
  (inject_Z g * step <= x)%Q -> (x < inject_Z (g + 1) * step)%Q -> get_grid x step dim = g.
Proof.
  intros Hs Hg H1 H2. unfold get_grid.
  assert (Hf : Qfloor (x / step) = g).
  { apply Qfloor_spec.
    - apply Qle_shift_div_l; assumption.
    - apply Qlt_shift_div_r; assumption. }
  rewrite Hf. destruct (g <? 0) eqn:E1; [lia|]. destruct (dim <=? g) eqn:E2; lia.
Qed.

Lemma get_grid_below x step dim : (0 < step)%Q -> 0 < dim -> (x < 0)%Q -> get_grid x step dim = 0.
Proof.
  intros Hs Hd Hx. unfold get_grid.
  assert (Hf : Qfloor (x / step) < 0).
  { assert (x / step < 0)%Q by (apply Qlt_shift_div_r; [assumption|lra]).
    pose proof (Qfloor_le (x/step)) as H1. change 0%Q with (inject_Z 0) in H.
    rewrite Zlt_Qlt. lra. }
  destruct (Z.ltb_spec (Qfloor (x / step)) 0); [|lia]. destruct (dim <=? 0) eqn:E2; lia.
Qed.

Lemma get_grid_above x step dim : (0 < step)%Q -> 0 < dim -> (inject_Z dim * step <= x)%Q -> get_grid x step dim = dim - 1.
Proof.
  intros Hs Hd Hx. unfold get_grid.
  assert (Hf : dim <= Qfloor (x / step)).
  { assert (inject_Z dim <= x / step)%Q by (apply Qle_shift_div_l; assumption).
    apply Qfloor_resp_le in H. rewrite Qfloor_Z in H. exact H. }
  destruct (Z.ltb_spec (Qfloor (x / step)) 0); [lia|].
  destruct (Z.leb_spec dim (Qfloor (x / step))); lia.
Qed.

Lemma mixed_radix a1 b1 c1 a2 b2 c2 d1 d2 :
  0 <= b1 < d1 -> 0 <= b2 < d1 -> 0 <= c1 < d2 -> 0 <= c2 < d2 ->
  (a1 * d1 + b1) * d2 + c1 = (a2 * d1 + b2) * d2 + c2 -> a1 = a2 /\ b1 = b2 /\ c1 = c2.
Proof.
  intros Hb1 Hb2 Hc1 Hc2 H.
  assert (Hc : c1 = c2).
  { assert (E1 : ((a1 * d1 + b1) * d2 + c1) mod d2 = c1).
    { rewrite Z.add_comm, Z.mod_add by lia. apply Z.mod_small; lia. }
    assert (E2 : ((a2 * d1 + b2) * d2 + c2) mod d2 = c2).
    { rewrite Z.add_comm, Z.mod_add by lia. apply Z.mod_small; lia. }
    congruence. }
  subst c2. assert (H' : a1 * d1 + b1 = a2 * d1 + b2) by nia.
  assert (Hb : b1 = b2).
  { assert (E1 : (a1 * d1 + b1) mod d1 = b1).
    { rewrite Z.add_comm, Z.mod_add by lia. apply Z.mod_small; lia. }
    assert (E2 : (a2 * d1 + b2) mod d1 = b2).
    { rewrite Z.add_comm, Z.mod_add by lia. apply Z.mod_small; lia. }
    congruence. }
  subst b2. split; [nia|auto].
Qed.

Lemma assign_cell_range p0 p1 p2 s0 s1 s2 d0 d1 d2 : 0 < d0 -> 0 < d1 -> 0 < d2 ->
  0 <= assign_cell (p0,p1,p2) (s0,s1,s2) (d0,d1,d2) < d0 * d1 * d2.
Proof.
  intros H0 H1 H2. unfold assign_cell.
  pose proof (get_grid_range p0 s0 d0 H0) as G0.
  pose proof (get_grid_range p1 s1 d1 H1) as G1.
  pose proof (get_grid_range p2 s2 d2 H2) as G2.
  set (g0 := get_grid p0 s0 d0) in *. set (g1 := get_grid p1 s1 d1) in *. set (g2 := get_grid p2 s2 d2) in *.
  clearbody g0 g1 g2.
  assert (g0 * d1 + g1 <= d0 * d1 - 1) by nia.
  assert (0 <= g0 * d1 + g1) by nia. split; nia.
Qed.

Lemma assign_cell_inj p0 p1 p2 q0 q1 q2 s0 s1 s2 d0 d1 d2 : 0 < d0 -> 0 < d1 -> 0 < d2 ->
  (assign_cell (p0,p1,p2) (s0,s1,s2) (d0,d1,d2) = assign_cell (q0,q1,q2) (s0,s1,s2) (d0,d1,d2) <->
   get_grid p0 s0 d0 = get_grid q0 s0 d0 /\ get_grid p1 s1 d1 = get_grid q1 s1 d1 /\ get_grid p2 s2 d2 = get_grid q2 s2 d2).
Proof.
  intros H0 H1 H2. unfold assign_cell. split.
  - apply mixed_radix; apply get_grid_range; assumption.
  - intros (-> & -> & ->); reflexivity.
Qed.

(** every rank is the target of some position inside the box *)
Lemma get_grid_center g step dim : (0 < step)%Q -> 0 <= g < dim -> get_grid (inject_Z g * step) step dim = g.
Proof.
  intros Hs Hg. apply get_grid_inside; try assumption; [lra|].
  rewrite inject_Z_plus. change (inject_Z 1) with 1%Q. lra.
Qed.

Lemma assign_cell_surj s0 s1 s2 d0 d1 d2 r : 0 < d0 -> 0 < d1 -> 0 < d2 ->
  (0 < s0)%Q -> (0 < s1)%Q -> (0 < s2)%Q ->
  0 <= r < d0 * d1 * d2 -> exists p, assign_cell p (s0,s1,s2) (d0,d1,d2) = r.
Proof.
  intros H0 H1 H2 Hs0 Hs1 Hs2 Hr.
  set (c := r mod d2). set (q := r / d2). set (b := q mod d1). set (a := q / d1).
  assert (Hc : 0 <= c < d2) by (apply Z.mod_pos_bound; lia).
  assert (Hb : 0 <= b < d1) by (apply Z.mod_pos_bound; lia).
  assert (Hq : 0 <= q < d0 * d1).
  { unfold q. split; [apply Z.div_pos; lia|]. apply Z.div_lt_upper_bound; nia. }
  assert (Ha : 0 <= a < d0).
  { unfold a. split; [apply Z.div_pos; lia|]. apply Z.div_lt_upper_bound; nia. }
  exists (inject_Z a * s0, inject_Z b * s1, inject_Z c * s2)%Q.
  unfold assign_cell. rewrite !get_grid_center by assumption.
  unfold a, b, c. pose proof (Z.div_mod q d1 ltac:(lia)). pose proof (Z.div_mod r d2 ltac:(lia)).
  fold q in H3. rewrite H3 at 2. nia.
Qed.

Lemma get_grid_cell x step dim g : (0 < step)%Q -> 0 < dim ->
  (get_grid x step dim = g <-> in_clamped_cell step dim g x).
Proof.
  intros Hs Hd. split.
  - intros <-. split; [apply get_grid_range; assumption|].
    destruct (Qlt_le_dec x 0) as [Hn|Hp].
    { right; left. split; [apply get_grid_below; assumption|assumption]. }
    destruct (Qlt_le_dec x (inject_Z dim * step)) as [Hb|Ha].
    + left.
      assert (Hq0 : (0 <= x / step)%Q) by (apply Qle_shift_div_l; [assumption|lra]).
      assert (Hq1 : (x / step < inject_Z dim)%Q) by (apply Qlt_shift_div_r; assumption).
      pose proof (Qfloor_le (x / step)) as F1. pose proof (Qlt_floor (x / step)) as F2.
      assert (G0 : 0 <= Qfloor (x / step)).
      { change 0%Q with (inject_Z 0) in Hq0. apply Qfloor_resp_le in Hq0. rewrite Qfloor_Z in Hq0. exact Hq0. }
      assert (G1 : Qfloor (x / step) < dim).
      { rewrite Zlt_Qlt. lra. }
      assert (Hg : get_grid x step dim = Qfloor (x / step)).
      { unfold get_grid. destruct (Z.ltb_spec (Qfloor (x / step)) 0); [lia|].
        destruct (Z.leb_spec dim (Qfloor (x / step))); lia. }
      rewrite Hg. assert (Hx : (x == (x / step) * step)%Q) by (field; lra).
      set (y := (x / step)%Q) in *. clearbody y. rewrite inject_Z_plus in *.
      change (inject_Z 1) with 1%Q in *. split; rewrite Hx; nra.
    + right; right. split; [apply get_grid_above; assumption|assumption].
  - intros [Hg [[H1 H2]|[[-> Hn]|[-> Ha]]]].
    + apply get_grid_inside; assumption.
    + apply get_grid_below; assumption.
    + apply get_grid_above; assumption.
Qed.

Lemma assign_cell_iff p0 p1 p2 s0 s1 s2 d0 d1 d2 r : 0 < d0 -> 0 < d1 -> 0 < d2 ->
  (0 < s0)%Q -> (0 < s1)%Q -> (0 < s2)%Q ->
  (assign_cell (p0,p1,p2) (s0,s1,s2) (d0,d1,d2) = r <->
   exists g0 g1 g2, in_clamped_cell s0 d0 g0 p0 /\ in_clamped_cell s1 d1 g1 p1 /\ in_clamped_cell s2 d2 g2 p2 /\
     r = (g0 * d1 + g1) * d2 + g2).
Proof.
  intros H0 H1 H2 Hs0 Hs1 Hs2. unfold assign_cell. split.
  - intros <-. exists (get_grid p0 s0 d0), (get_grid p1 s1 d1), (get_grid p2 s2 d2).
    split; [|split; [|split; [|reflexivity]]]; apply get_grid_cell; auto.
  - intros (g0 & g1 & g2 & G0 & G1 & G2 & ->).
    apply get_grid_cell in G0, G1, G2; auto. congruence.
Qed.

Lemma assign_cell_same p0 p1 p2 q0 q1 q2 s0 s1 s2 d0 d1 d2 : 0 < d0 -> 0 < d1 -> 0 < d2 ->
  (0 < s0)%Q -> (0 < s1)%Q -> (0 < s2)%Q ->
  (assign_cell (p0,p1,p2) (s0,s1,s2) (d0,d1,d2) = assign_cell (q0,q1,q2) (s0,s1,s2) (d0,d1,d2) <->
   exists g0 g1 g2, in_clamped_cell s0 d0 g0 p0 /\ in_clamped_cell s0 d0 g0 q0 /\
     in_clamped_cell s1 d1 g1 p1 /\ in_clamped_cell s1 d1 g1 q1 /\
     in_clamped_cell s2 d2 g2 p2 /\ in_clamped_cell s2 d2 g2 q2).
Proof.
  intros H0 H1 H2 Hs0 Hs1 Hs2. rewrite assign_cell_inj by assumption. split.
  - intros (E0 & E1 & E2). exists (get_grid p0 s0 d0), (get_grid p1 s1 d1), (get_grid p2 s2 d2).
    split; [|split; [|split; [|split; [|split]]]]; apply get_grid_cell; auto.
  - intros (g0 & g1 & g2 & A0 & B0 & A1 & B1 & A2 & B2).
    apply get_grid_cell in A0, A1, A2, B0, B1, B2; auto. repeat split; congruence.
Qed.

(** * Factors *)

Section Factors.
  Variable root : nat -> nat -> nat.

  Lemma factor_down_spec N x : (0 < x)%nat ->
    let f := factor_down N x in (0 < f <= x)%nat /\ Nat.divide f N /\
      forall y, (f < y <= x)%nat -> ~ Nat.divide y N.
  Proof.
    induction x as [|x IH]; intros Hx; [lia|].
    cbn [factor_down]. destruct (Nat.eqb_spec (N mod S x) 0) as [E|E].
    - split; [lia|]. split; [apply Nat.mod_divide in E; [exact E|lia]|]. intros; lia.
    - destruct x as [|x].
      { exfalso. apply E. apply Nat.mod_1_r. }
      destruct (IH ltac:(lia)) as (H1 & H2 & H3).
      split; [lia|]. split; [exact H2|].
      intros y Hy Hd. destruct (Nat.eq_dec y (S (S x))) as [->|Hne].
      + apply E. apply Nat.mod_divide; [lia|exact Hd].
      + apply (H3 y); [lia|exact Hd].
  Qed.

  Hypothesis root_pos : forall N d, (1 <= N)%nat -> (1 <= d)%nat -> (1 <= root N d)%nat.
  Hypothesis root_one : forall N, root N 1 = N.

  Lemma closest_factors_correct dim N : (1 <= N)%nat -> (1 <= dim)%nat ->
    exists fs, closest_factors root N dim = Some fs /\ length fs = dim /\
      Forall (fun f => (1 <= f)%nat) fs /\ nprod fs = N.
  Proof.
    revert N; induction dim as [|dim IH]; intros N HN Hd; [lia|].
    cbn [closest_factors]. unfold largest_root_factor.
    destruct (factor_down_spec N (root N (S dim))) as (Hf1 & [q Hq] & _).
    { pose proof (root_pos N (S dim)); lia. }
    set (x := factor_down N (root N (S dim))) in *.
    destruct (Nat.eqb_spec x 0) as [|Hx0]; [lia|].
    assert (Hdiv : (N / x = q)%nat) by (rewrite Hq; apply Nat.div_mul; lia).
    rewrite Hdiv.
    destruct dim as [|dim].
    - assert (Hx : x = N).
      { unfold x. rewrite root_one. clear -HN. destruct N; [lia|]. cbn [factor_down].
        rewrite Nat.mod_same by lia. reflexivity. }
      exists [x]. split; [reflexivity|]. split; [reflexivity|]. split; [constructor; [lia|constructor]|]. cbn. lia.
    - destruct (IH q) as (fs & E & Hl & Hfa & Hp); [nia|lia|].
      rewrite E. exists (x :: fs). split; [reflexivity|]. split; [cbn; lia|].
      split; [constructor; [lia|exact Hfa]|]. cbn. rewrite Hp. lia.
  Qed.
End Factors.

(** * Minimum image *)

Lemma Qle_bool_true x y : Qle_bool x y = true <-> (x <= y)%Q.
Proof. apply Qle_bool_iff. Qed.
Lemma Qle_bool_false x y : Qle_bool x y = false <-> (y < x)%Q.
Proof.
  split.
  - intros H. apply Qnot_le_lt. intros Hle. apply Qle_bool_iff in Hle. congruence.
  - intros H. destruct (Qle_bool x y) eqn:E; [|reflexivity]. apply Qle_bool_iff in E. lra.
Qed.

Lemma nearest_spec L x : (0 < L)%Q -> (- (3#2) * L <= x <= (3#2) * L)%Q ->
  (- (L / 2) <= nearest L x <= L / 2)%Q /\ same_image L (nearest L x) x.
Proof.
  intros HL Hx. unfold nearest, same_image.
  assert (Hh : (L / 2 == (1#2) * L)%Q) by field.
  destruct (Qle_bool x (L / 2)) eqn:E1; cbn [negb].
  - destruct (Qle_bool (- (L / 2)) x) eqn:E2; cbn [negb].
    + rewrite Qle_bool_true in *. split; [lra|]. exists 0. change (inject_Z 0) with 0%Q. ring.
    + rewrite Qle_bool_true, Qle_bool_false in *. split; [lra|]. exists 1. change (inject_Z 1) with 1%Q. ring.
  - rewrite Qle_bool_false in E1. split; [lra|]. exists (-1). change (inject_Z (-1)) with (-1)%Q. ring.
Qed.

Lemma image_minimal L d e : (0 < L)%Q -> (- (L/2) <= d <= L/2)%Q -> same_image L e d ->
  (Qabs.Qabs d <= Qabs.Qabs e)%Q.
Proof.
  intros HL Hd [k Hk].
  assert (Hh : (L / 2 == (1#2) * L)%Q) by field. rewrite Hh in Hd.
  assert (Hcase : k = 0 \/ 1 <= k \/ k <= -1) by lia.
  destruct Hcase as [->|[Hk1|Hk1]].
  - change (inject_Z 0) with 0%Q in Hk. setoid_replace e with d by lra. apply Qle_refl.
  - rewrite Zle_Qle in Hk1. change (inject_Z 1) with 1%Q in Hk1.
    assert ((1#2) * L <= e)%Q by nra.
    apply Qabs.Qabs_Qle_condition.
    pose proof (Qabs.Qle_Qabs e). lra.
  - rewrite Zle_Qle in Hk1. change (inject_Z (-1)) with (-1)%Q in Hk1.
    assert (e <= - (1#2) * L)%Q by nra.
    apply Qabs.Qabs_Qle_condition.
    pose proof (Qabs.Qle_Qabs (-e)). rewrite Qabs.Qabs_opp in H0. lra.
Qed.

Lemma same_image_trans L x y z : same_image L x y -> same_image L y z -> same_image L x z.
Proof. intros [k Hk] [m Hm]. exists (k + m). rewrite inject_Z_plus. rewrite Hk, Hm. ring. Qed.
Lemma same_image_sym L x y : same_image L x y -> same_image L y x.
Proof. intros [k Hk]. exists (- k). rewrite inject_Z_opp. rewrite Hk. ring. Qed.
Lemma same_image_refl L x : same_image L x x.
Proof. exists 0. change (inject_Z 0) with 0%Q. ring. Qed.
Lemma same_image_add L x y x' y' : same_image L x y -> same_image L x' y' -> same_image L (x + x') (y + y').
Proof. intros [k Hk] [m Hm]. exists (k + m). rewrite inject_Z_plus, Hk, Hm. ring. Qed.
Lemma same_image_opp L x y : same_image L x y -> same_image L (- x) (- y).
Proof. intros [k Hk]. exists (- k). rewrite inject_Z_opp, Hk. ring. Qed.

Lemma nearest_minimal L x e : (0 < L)%Q -> (- (3#2) * L <= x <= (3#2) * L)%Q -> same_image L e x ->
  (Qabs.Qabs (nearest L x) <= Qabs.Qabs e)%Q.
Proof.
  intros HL Hx He. destruct (nearest_spec L x HL Hx) as [Hb Hi].
  apply image_minimal with (L := L); auto.
  eapply same_image_trans; [exact He|]. apply same_image_sym; exact Hi.
Qed.


Lemma nearest_le L x y e : (0 < L)%Q -> near_range L x y -> same_image L e (x - y) ->
  (Qabs.Qabs (nearest L (x - y)) <= Qabs.Qabs e)%Q.
Proof. unfold near_range; intros; apply nearest_minimal; auto. Qed.

Lemma near_range_sym L x y : near_range L x y -> near_range L y x.
Proof. unfold near_range; intros; lra. Qed.

Lemma same_image_Qeq L x y z : same_image L x y -> (y == z)%Q -> same_image L x z.
Proof. intros [k Hk] E. exists k. rewrite <- E. exact Hk. Qed.

Lemma nearest_sym_le L x y : (0 < L)%Q -> near_range L x y ->
  (Qabs.Qabs (nearest L (x - y)) <= Qabs.Qabs (nearest L (y - x)))%Q.
Proof.
  intros HL Hx. rewrite <- (Qabs.Qabs_opp (nearest L (y - x))).
  apply nearest_le; auto.
  destruct (nearest_spec L (y - x) HL) as [_ Hi]; [apply near_range_sym in Hx; exact Hx|].
  apply same_image_opp in Hi. eapply same_image_Qeq; [exact Hi|ring].
Qed.
Lemma nearest_sym L x y : (0 < L)%Q -> near_range L x y ->
  (Qabs.Qabs (nearest L (x - y)) == Qabs.Qabs (nearest L (y - x)))%Q.
Proof. intros HL Hx. apply Qle_antisym; apply nearest_sym_le; auto. apply near_range_sym; auto. Qed.

Lemma nearest_triangle L x y z : (0 < L)%Q -> near_range L x y -> near_range L y z -> near_range L x z ->
  (Qabs.Qabs (nearest L (x - z)) <= Qabs.Qabs (nearest L (x - y)) + Qabs.Qabs (nearest L (y - z)))%Q.
Proof.
  intros HL Hxy Hyz Hxz.
  eapply Qle_trans; [|apply Qabs.Qabs_triangle].
  apply nearest_le; auto.
  destruct (nearest_spec L (x - y) HL Hxy) as [_ H1].
  destruct (nearest_spec L (y - z) HL Hyz) as [_ H2].
  eapply same_image_Qeq; [apply same_image_add; [exact H1|exact H2]|ring].
Qed.

Lemma nearest_zero L x y : (0 < L)%Q -> near_range L x y ->
  (nearest L (x - y) == 0)%Q <-> same_image L x y.
Proof.
  intros HL Hxy. destruct (nearest_spec L (x - y) HL Hxy) as [Hb Hi]. split.
  - intros H0. destruct Hi as [k Hk]. exists (- k). rewrite inject_Z_opp. lra.
  - intros [k Hk]. assert (Hs : same_image L 0 (x - y)).
    { exists (- k). rewrite inject_Z_opp, Hk. ring. }
    pose proof (nearest_le L x y 0 HL Hxy Hs) as Hle. change (Qabs.Qabs 0) with 0%Q in Hle.
    apply Qabs.Qabs_Qle_condition in Hle. lra.
Qed.

Lemma Qabs_sq a b : (Qabs.Qabs a <= Qabs.Qabs b)%Q -> (a * a <= b * b)%Q.
Proof.
  intros H.
  assert (Hs : forall t, (Qabs.Qabs t * Qabs.Qabs t == t * t)%Q).
  { intros t. destruct (Qlt_le_dec t 0).
    - rewrite Qabs.Qabs_neg by lra. ring.
    - rewrite Qabs.Qabs_pos by lra. ring. }
  rewrite <- (Hs a), <- (Hs b). pose proof (Qabs.Qabs_nonneg a). nra.
Qed.

(** squared 3-D distance is minimal over all images *)
Lemma periodic_distance2_minimal L x0 x1 x2 y0 y1 y2 e0 e1 e2 : (0 < L)%Q ->
  near_range L x0 y0 -> near_range L x1 y1 -> near_range L x2 y2 ->
  same_image L e0 (x0 - y0) -> same_image L e1 (x1 - y1) -> same_image L e2 (x2 - y2) ->
  (periodic_distance2 true L (x0,x1,x2) (y0,y1,y2) <= e0*e0 + e1*e1 + e2*e2)%Q.
Proof.
  intros. unfold periodic_distance2.
  pose proof (Qabs_sq _ _ (nearest_le L x0 y0 e0 ltac:(auto) ltac:(auto) ltac:(auto))).
  pose proof (Qabs_sq _ _ (nearest_le L x1 y1 e1 ltac:(auto) ltac:(auto) ltac:(auto))).
  pose proof (Qabs_sq _ _ (nearest_le L x2 y2 e2 ltac:(auto) ltac:(auto) ltac:(auto))).
  lra.
Qed.

Lemma periodic_distance2_attained L x0 x1 x2 y0 y1 y2 : (0 < L)%Q ->
  near_range L x0 y0 -> near_range L x1 y1 -> near_range L x2 y2 ->
  exists e0 e1 e2, same_image L e0 (x0 - y0) /\ same_image L e1 (x1 - y1) /\ same_image L e2 (x2 - y2) /\
  (periodic_distance2 true L (x0,x1,x2) (y0,y1,y2) == e0*e0 + e1*e1 + e2*e2)%Q.
Proof.
  intros HL H0 H1 H2. exists (nearest L (x0-y0)), (nearest L (x1-y1)), (nearest L (x2-y2)).
  repeat split; try (apply nearest_spec; auto).
Qed.

(** Cauchy-Schwarz style triangle inequality on squares *)
Lemma triangle_sq a0 a1 a2 b0 b1 b2 r s : (0 <= r)%Q -> (0 <= s)%Q ->
  (a0*a0 + a1*a1 + a2*a2 <= r*r)%Q -> (b0*b0 + b1*b1 + b2*b2 <= s*s)%Q ->
  ((a0+b0)*(a0+b0) + (a1+b1)*(a1+b1) + (a2+b2)*(a2+b2) <= (r+s)*(r+s))%Q.
Proof.
  intros Hr Hs Ha Hb.
  assert (Hdot : (a0*b0 + a1*b1 + a2*b2 <= r*s)%Q).
  { set (p := (a0*b0 + a1*b1 + a2*b2)%Q).
    assert (Hcs : (p*p <= (a0*a0 + a1*a1 + a2*a2)*(b0*b0 + b1*b1 + b2*b2))%Q).
    { unfold p.
      assert (0 <= (a0*b1 - a1*b0)*(a0*b1 - a1*b0) + (a0*b2 - a2*b0)*(a0*b2 - a2*b0) + (a1*b2 - a2*b1)*(a1*b2 - a2*b1))%Q.
      { assert (Hsq : forall t, (0 <= t * t)%Q) by (intros t; destruct (Qlt_le_dec t 0); nra).
        pose proof (Hsq (a0*b1 - a1*b0)%Q). pose proof (Hsq (a0*b2 - a2*b0)%Q). pose proof (Hsq (a1*b2 - a2*b1)%Q). lra. }
      lra. }
    set (A := (a0*a0 + a1*a1 + a2*a2)%Q) in *. set (B := (b0*b0 + b1*b1 + b2*b2)%Q) in *.
    assert (HA : (0 <= A)%Q).
    { unfold A. assert (Hsq : forall t, (0 <= t * t)%Q) by (intros t; destruct (Qlt_le_dec t 0); nra).
      pose proof (Hsq a0). pose proof (Hsq a1). pose proof (Hsq a2). lra. }
    assert (HB : (0 <= B)%Q).
    { unfold B. assert (Hsq : forall t, (0 <= t * t)%Q) by (intros t; destruct (Qlt_le_dec t 0); nra).
      pose proof (Hsq b0). pose proof (Hsq b1). pose proof (Hsq b2). lra. }
    clearbody p A B.
    assert (Hp2 : (p*p <= (r*s)*(r*s))%Q).
    { assert (A*B <= (r*r)*(s*s))%Q by nra. lra. }
    assert (0 <= r*s)%Q by nra.
    destruct (Qlt_le_dec (r*s) p) as [Hlt|]; [|assumption]. exfalso. nra. }
  lra.
Qed.

Lemma periodic_distance2_triangle periodic L x0 x1 x2 y0 y1 y2 z0 z1 z2 r s : (0 < L)%Q ->
  (near_range L x0 y0 /\ near_range L x1 y1 /\ near_range L x2 y2) ->
  (near_range L y0 z0 /\ near_range L y1 z1 /\ near_range L y2 z2) ->
  (near_range L x0 z0 /\ near_range L x1 z1 /\ near_range L x2 z2) ->
  (0 <= r)%Q -> (0 <= s)%Q ->
  (periodic_distance2 periodic L (x0,x1,x2) (y0,y1,y2) <= r*r)%Q ->
  (periodic_distance2 periodic L (y0,y1,y2) (z0,z1,z2) <= s*s)%Q ->
  (periodic_distance2 periodic L (x0,x1,x2) (z0,z1,z2) <= (r+s)*(r+s))%Q.
Proof.
  intros HL (A0 & A1 & A2) (B0 & B1 & B2) (C0 & C1 & C2) Hr Hs H1 H2.
  destruct periodic.
  - assert (Himg : forall x y z, near_range L x y -> near_range L y z ->
        same_image L (nearest L (x - y) + nearest L (y - z)) (x - z)).
    { intros x y z Hxy Hyz.
      destruct (nearest_spec L (x - y) HL Hxy) as [_ I1].
      destruct (nearest_spec L (y - z) HL Hyz) as [_ I2].
      eapply same_image_Qeq; [apply same_image_add; [exact I1|exact I2]|ring]. }
    eapply Qle_trans.
    + apply (periodic_distance2_minimal L x0 x1 x2 z0 z1 z2
        (nearest L (x0 - y0) + nearest L (y0 - z0)) (nearest L (x1 - y1) + nearest L (y1 - z1))
        (nearest L (x2 - y2) + nearest L (y2 - z2))); auto.
    + unfold periodic_distance2 in H1, H2. apply triangle_sq; auto.
  - unfold periodic_distance2 in *.
    setoid_replace (x0 - z0)%Q with ((x0 - y0) + (y0 - z0))%Q by ring.
    setoid_replace (x1 - z1)%Q with ((x1 - y1) + (y1 - z1))%Q by ring.
    setoid_replace (x2 - z2)%Q with ((x2 - y2) + (y2 - z2))%Q by ring.
    apply triangle_sq; auto.
Qed.

(** * position_modulus *)

Lemma position_modulus_spec x L : (0 < L)%Q ->
  (0 <= position_modulus x L < L)%Q /\ same_image L (position_modulus x L) x.
Proof.
  intros HL. unfold position_modulus.
  destruct (Qle_bool 0 x && negb (Qle_bool L x)) eqn:E.
  - apply andb_true_iff in E as [E1 E2]. apply negb_true_iff in E2.
    rewrite Qle_bool_true in E1. rewrite Qle_bool_false in E2.
    split; [lra|apply same_image_refl].
  - cbv zeta. set (y := (x / L)%Q). pose proof (Qfloor_le y) as H1. pose proof (Qlt_floor y) as H2.
    rewrite inject_Z_plus in H2. change (inject_Z 1) with 1%Q in H2.
    set (fl := inject_Z (Qfloor y)) in *.
    split; [nra|].
    exists (- Qfloor y). rewrite inject_Z_opp. fold fl. unfold y. field. lra.
Qed.

Lemma position_modulus_id x L : (0 <= x < L)%Q -> position_modulus x L = x.
Proof.
  intros [H1 H2]. unfold position_modulus.
  rewrite (proj2 (Qle_bool_true 0 x)) by assumption.
  rewrite (proj2 (Qle_bool_false L x)) by assumption. reflexivity.
Qed.

(** * Fortran records *)

Lemma fread_at pre b post n : n = length b ->
  fread n (mkfile (pre ++ b ++ post) (Z.of_nat (length pre))) =
  Some (b, mkfile (pre ++ b ++ post) (Z.of_nat (length pre + length b))).
Proof.
  intros ->. unfold fread. cbn [pos bytes].
  destruct (Z.ltb_spec (Z.of_nat (length pre)) 0); [lia|].
  rewrite Nat2Z.id, skipn_app, skipn_all, Nat.sub_diag, skipn_O, app_nil_l.
  destruct (Nat.ltb_spec (length (b ++ post)) (length b)) as [Hlt|_]; [rewrite app_length in Hlt; lia|].
  rewrite firstn_app, Nat.sub_diag, firstn_all, firstn_O, app_nil_r.
  f_equal. f_equal. f_equal. lia.
Qed.

Lemma fseek_at bs p off : 0 <= p + off -> fseek_cur off (mkfile bs p) = Some (mkfile bs (p + off)).
Proof. intros H. unfold fseek_cur. cbn. destruct (Z.ltb_spec (p + off) 0); [lia|reflexivity]. Qed.

Lemma stored_length sw e : length (stored sw e) = length e.
Proof. destruct sw; [apply rev_length|reflexivity]. Qed.
Lemma stored_bytes sw e : Forall is_byte e -> Forall is_byte (stored sw e).
Proof. destruct sw; [apply Forall_rev|auto]. Qed.

Lemma concat_length_all m (es : list (list N)) : all_length m es -> length (concat es) = (length es * m)%nat.
Proof. induction 1; simpl; [reflexivity|]. rewrite app_length. lia. Qed.

Lemma fread_swap_members pre (es : list (list N)) post sw sz :
  all_length sz es -> Forall is_byte (concat es) ->
  let b := concat (map (stored sw) es) in
  fread_swap sz (length es) sw (mkfile (pre ++ b ++ post) (Z.of_nat (length pre))) =
  Some (concat es, mkfile (pre ++ b ++ post) (Z.of_nat (length pre + length es * sz))).
Proof.
  intros Hl Hb b.
  assert (Hlb : length b = (length es * sz)%nat).
  { unfold b. rewrite (concat_length_all sz).
    - rewrite map_length; reflexivity.
    - unfold all_length in *. rewrite Forall_map. eapply Forall_impl; [|exact Hl].
      intros e He. rewrite stored_length; exact He. }
  unfold fread_swap. rewrite fread_at by lia.
  destruct sw.
  - unfold stored in b.
    assert (Hb' : swap_Nbyte (length es) sz b = Some (concat es)).
    { pose proof (swap_Nbyte_correct sz (map (@rev N) es) []) as H.
      rewrite map_length in H. rewrite !app_nil_r in H. fold b in H. unfold b. change (map (fun e => rev e) es) with (map (@rev N) es).
      rewrite H.
      - rewrite map_map, (map_ext _ (fun x => x)) by (intros; apply rev_involutive). rewrite map_id; reflexivity.
      - apply all_length_rev; assumption.
      - apply concat_rev_bytes; assumption. }
    rewrite Hb'. rewrite Hlb. reflexivity.
  - unfold b. unfold stored. rewrite map_id. rewrite <- Hlb. unfold b, stored. rewrite map_id. reflexivity.
Qed.

Lemma load32_val b0 b1 b2 b3 : (b0 < 256)%N -> (b1 < 256)%N -> (b2 < 256)%N -> (b3 < 256)%N ->
  load32 b0 b1 b2 b3 = (b0 + 256 * b1 + 65536 * b2 + 16777216 * b3)%N.
Proof.
  intros H0 H1 H2 H3. unfold load32.
  assert (Hadd : forall a b k, (a < 2 ^ k)%N -> N.lor a (N.shiftl b k) = (a + N.shiftl b k)%N).
  { intros a b k Ha. rewrite N.add_nocarry_lxor.
    - symmetry. apply N.lxor_lor. apply N.bits_inj. intros n. rewrite N.land_spec, N.bits_0.
      destruct (N.lt_ge_cases n k).
      + rewrite (N.shiftl_spec_low b k n) by assumption. apply andb_false_r.
      + replace (N.testbit a n) with false; [reflexivity|]. symmetry.
        destruct (N.eq_dec a 0) as [->|]; [apply N.bits_0|].
        apply N.bits_above_log2. apply N.log2_lt_pow2 in Ha; lia.
    - apply N.bits_inj. intros n. rewrite N.land_spec, N.bits_0.
      destruct (N.lt_ge_cases n k).
      + rewrite (N.shiftl_spec_low b k n) by assumption. apply andb_false_r.
      + replace (N.testbit a n) with false; [reflexivity|]. symmetry.
        destruct (N.eq_dec a 0) as [->|]; [apply N.bits_0|].
        apply N.bits_above_log2. apply N.log2_lt_pow2 in Ha; lia. }
  assert (E1 : N.lor (N.shiftl b2 16) (N.shiftl b3 24) = N.shiftl (b2 + 256 * b3) 16).
  { change 24%N with (8 + 16)%N. rewrite <- N.shiftl_shiftl, <- N.shiftl_lor, Hadd by (change (2^8)%N with 256%N; assumption).
    rewrite (N.shiftl_mul_pow2 b3 8). change (2^8)%N with 256%N. rewrite (N.mul_comm b3). reflexivity. }
  rewrite E1.
  assert (E2 : N.lor (N.shiftl b1 8) (N.shiftl (b2 + 256 * b3) 16) = N.shiftl (b1 + 256 * (b2 + 256 * b3)) 8).
  { change 16%N with (8 + 8)%N. rewrite <- N.shiftl_shiftl, <- N.shiftl_lor, Hadd by (change (2^8)%N with 256%N; assumption).
    rewrite (N.shiftl_mul_pow2 (b2 + 256 * b3) 8). change (2^8)%N with 256%N. rewrite (N.mul_comm (b2 + 256 * b3)). reflexivity. }
  rewrite E2, Hadd by (change (2^8)%N with 256%N; assumption).
  rewrite N.shiftl_mul_pow2. change (2^8)%N with 256%N. lia.
Qed.

Ltac Zify.zify_post_hook ::= Z.div_mod_to_equations.

Lemma int32_roundtrip z : 0 <= z < 2147483648 -> int32_of_bytes (bytes_of_int32 z) = Some z.
Proof.
  intros Hz. unfold bytes_of_int32. cbn [map int32_of_bytes].
  change (8 * 0) with 0. change (8*1) with 8. change (8*2) with 16. change (8*3) with 24.
  change (2^0) with 1. change (2^8) with 256. change (2^16) with 65536. change (2^24) with 16777216.
  rewrite load32_val by lia.
  set (v := Z.of_N _).
  assert (Hv : v = z) by (unfold v; lia).
  rewrite Hv. destruct (Z.ltb_spec z 2147483648); [reflexivity|lia].
Qed.

Lemma bytes_of_int32_length z : length (bytes_of_int32 z) = 4%nat.
Proof. reflexivity. Qed.
Lemma bytes_of_int32_bytes z : Forall is_byte (bytes_of_int32 z).
Proof. unfold bytes_of_int32, is_byte. rewrite Forall_map. repeat constructor; lia. Qed.

Lemma read_block_size_at pre post sw z : 0 <= z < 2147483648 ->
  read_block_size sw (mkfile (pre ++ stored sw (bytes_of_int32 z) ++ post) (Z.of_nat (length pre))) =
  Some (z, mkfile (pre ++ stored sw (bytes_of_int32 z) ++ post) (Z.of_nat (length pre + 4))).
Proof.
  intros Hz. unfold read_block_size.
  pose proof (fread_swap_members pre [bytes_of_int32 z] post sw 4) as H.
  cbn [map concat length] in H. rewrite !app_nil_r in H.
  rewrite H.
  - rewrite int32_roundtrip by assumption. reflexivity.
  - constructor; [apply bytes_of_int32_length|constructor].
  - apply bytes_of_int32_bytes.
Qed.

Lemma members_concat sz (es : list (list N)) : all_length sz es -> members sz (length es) (concat es) = es.
Proof.
  induction es as [|e es IH]; intros H; [reflexivity|].
  inversion H; subst. cbn [length members concat].
  rewrite firstn_app, Nat.sub_diag, firstn_all, firstn_O, app_nil_r.
  rewrite skipn_app, Nat.sub_diag, skipn_all, skipn_O, app_nil_l. f_equal. apply IH; assumption.
Qed.

Lemma Forall_firstn' {A} (P : A -> Prop) n l : Forall P l -> Forall P (firstn n l).
Proof. intros H; revert n; induction H; intros [|n]; simpl; constructor; auto. Qed.
Lemma Forall_skipn' {A} (P : A -> Prop) n l : Forall P l -> Forall P (skipn n l).
Proof. intros H; revert n; induction H; intros [|n]; simpl; auto. Qed.
Lemma all_length_firstn {A} sz n (es : list (list A)) : all_length sz es -> all_length sz (firstn n es).
Proof. apply Forall_firstn'. Qed.
Lemma all_length_skipn {A} sz n (es : list (list A)) : all_length sz es -> all_length sz (skipn n es).
Proof. apply Forall_skipn'. Qed.
Lemma concat_bytes_sub (es : list (list N)) : Forall is_byte (concat es) <-> Forall (Forall is_byte) es.
Proof.
  induction es as [|e es IH]; simpl; [split; constructor|]. rewrite Forall_app, IH. split.
  - intros [? ?]; constructor; auto.
  - intros H; inversion H; auto.
Qed.
Lemma map_stored_length sw sz (es : list (list N)) : all_length sz es ->
  length (concat (map (stored sw) es)) = (length es * sz)%nat.
Proof.
  intros Hl. rewrite (concat_length_all sz).
  - rewrite map_length; reflexivity.
  - unfold all_length in *. rewrite Forall_map. eapply Forall_impl; [|exact Hl].
    intros e He. rewrite stored_length; exact He.
Qed.

Lemma fortran_read_correct pre post sw sz (es : list (list N)) n_read n_skip :
  all_length sz es -> Forall is_byte (concat es) ->
  Z.of_nat (length es * sz) < 2147483648 ->
  (n_skip + n_read <= length es)%nat ->
  fortran_read sz n_read n_skip sw (mkfile (pre ++ record sw es ++ post) (Z.of_nat (length pre))) =
  Some (firstn n_read (skipn n_skip es),
        mkfile (pre ++ record sw es ++ post) (Z.of_nat (length (pre ++ record sw es)))).
Proof.
  intros Hl Hb Hsz Hn.
  pose proof (map_stored_length sw sz es Hl) as Hpl.
  set (payload := concat (map (stored sw) es)) in *.
  set (marker := stored sw (bytes_of_int32 (Z.of_nat (length payload)))).
  assert (Hml : length marker = 4%nat) by (unfold marker; rewrite stored_length; reflexivity).
  assert (Hrec : record sw es = marker ++ payload ++ marker) by reflexivity.
  rewrite Hrec.
  set (bs := pre ++ (marker ++ payload ++ marker) ++ post).
  unfold fortran_read.
  assert (Hbs1 : bs = pre ++ marker ++ (payload ++ marker ++ post)).
  { unfold bs. rewrite <- !app_assoc. reflexivity. }
  rewrite Hbs1 at 1. unfold marker at 1. rewrite read_block_size_at by lia.
  fold marker. rewrite <- Hbs1.
  rewrite fseek_at by lia.
  set (es1 := firstn n_skip es). set (es2 := firstn n_read (skipn n_skip es)).
  set (es3 := skipn n_read (skipn n_skip es)).
  assert (Hes : es = es1 ++ es2 ++ es3).
  { unfold es1, es2, es3. rewrite firstn_skipn, firstn_skipn. reflexivity. }
  assert (L1 : length es1 = n_skip) by (unfold es1; rewrite firstn_length; lia).
  assert (L2 : length es2 = n_read) by (unfold es2; rewrite firstn_length, skipn_length; lia).
  assert (A1 : all_length sz es1) by (apply all_length_firstn; assumption).
  assert (A2 : all_length sz es2) by (apply all_length_firstn, all_length_skipn; assumption).
  set (p1 := concat (map (stored sw) es1)). set (p2 := concat (map (stored sw) es2)).
  set (p3 := concat (map (stored sw) es3)).
  assert (Hp : payload = p1 ++ p2 ++ p3).
  { unfold payload, p1, p2, p3. rewrite Hes at 1. rewrite !map_app, !concat_app. reflexivity. }
  assert (LP1 : length p1 = (n_skip * sz)%nat).
  { unfold p1. rewrite (map_stored_length sw sz es1 A1), L1. reflexivity. }
  assert (Hbs2 : bs = (pre ++ marker ++ p1) ++ p2 ++ (p3 ++ marker ++ post)).
  { rewrite Hbs1, Hp. rewrite <- !app_assoc. reflexivity. }
  assert (B2 : Forall is_byte (concat es2)).
  { apply concat_bytes_sub. apply Forall_firstn', Forall_skipn'. apply concat_bytes_sub; assumption. }
  pose proof (fread_swap_members (pre ++ marker ++ p1) es2 (p3 ++ marker ++ post) sw sz A2 B2) as HF.
  cbv zeta in HF. fold p2 in HF. rewrite <- Hbs2 in HF. rewrite L2 in HF.
  replace (Z.of_nat (length pre + 4) + Z.of_nat (n_skip * sz)) with (Z.of_nat (length (pre ++ marker ++ p1)))
    by (rewrite !app_length; lia).
  rewrite HF.
  rewrite !app_length, Hml, LP1.
  assert (Hmul : ((n_skip + n_read) * sz <= length es * sz)%nat) by (apply Nat.mul_le_mono_r; lia).
  rewrite Nat.mul_add_distr_r in Hmul.
  rewrite fseek_at by (rewrite Hpl; rewrite Nat.mul_add_distr_r; lia).
  replace (Z.of_nat (length pre + (4 + n_skip * sz) + n_read * sz) +
           (Z.of_nat (length payload) - Z.of_nat ((n_skip + n_read) * sz)))
    with (Z.of_nat (length (pre ++ marker ++ payload)))
    by (rewrite !app_length, Nat.mul_add_distr_r; lia).
  assert (Hbs3 : bs = (pre ++ marker ++ payload) ++ marker ++ post).
  { rewrite Hbs1. rewrite <- !app_assoc. reflexivity. }
  rewrite Hbs3 at 1. unfold marker at 2. rewrite read_block_size_at by lia.
  fold marker. rewrite Z.eqb_refl. f_equal. f_equal.
  - rewrite <- L2 at 1. apply members_concat. exact A2.
  - rewrite <- Hbs3. f_equal. rewrite !app_length. lia.
Qed.

Lemma skip_fortran_block_correct pre post sw sz (es : list (list N)) :
  all_length sz es -> Forall is_byte (concat es) ->
  Z.of_nat (length es * sz) < 2147483648 ->
  skip_fortran_block sw (mkfile (pre ++ record sw es ++ post) (Z.of_nat (length pre))) =
  Some (Z.of_nat (length es * sz),
        mkfile (pre ++ record sw es ++ post) (Z.of_nat (length (pre ++ record sw es)))).
Proof.
  intros Hl Hb Hsz.
  pose proof (map_stored_length sw sz es Hl) as Hpl.
  set (payload := concat (map (stored sw) es)) in *.
  set (marker := stored sw (bytes_of_int32 (Z.of_nat (length payload)))).
  assert (Hml : length marker = 4%nat) by (unfold marker; rewrite stored_length; reflexivity).
  change (record sw es) with (marker ++ payload ++ marker).
  set (bs := pre ++ (marker ++ payload ++ marker) ++ post).
  assert (Hbs1 : bs = pre ++ marker ++ (payload ++ marker ++ post)).
  { unfold bs. rewrite <- !app_assoc. reflexivity. }
  assert (Hbs3 : bs = (pre ++ marker ++ payload) ++ marker ++ post).
  { rewrite Hbs1. rewrite <- !app_assoc. reflexivity. }
  unfold skip_fortran_block.
  rewrite Hbs1 at 1. unfold marker at 1. rewrite read_block_size_at by lia.
  fold marker. rewrite <- Hbs1. rewrite fseek_at by lia.
  replace (Z.of_nat (length pre + 4) + Z.of_nat (length payload)) with (Z.of_nat (length (pre ++ marker ++ payload)))
    by (rewrite !app_length; lia).
  rewrite Hbs3 at 1. unfold marker at 2. rewrite read_block_size_at by lia.
  fold marker. rewrite Z.eqb_refl. rewrite <- Hbs3. rewrite Hpl. f_equal. f_equal. f_equal.
  rewrite !app_length. lia.
Qed.

(** a record whose closing marker differs is rejected *)
Lemma fortran_read_mismatch pre post sw sz (es : list (list N)) n_read n_skip z2 :
  all_length sz es -> Forall is_byte (concat es) ->
  Z.of_nat (length es * sz) < 2147483648 -> 0 <= z2 < 2147483648 ->
  z2 <> Z.of_nat (length es * sz) ->
  (n_skip + n_read <= length es)%nat ->
  let payload := concat (map (stored sw) es) in
  let m1 := stored sw (bytes_of_int32 (Z.of_nat (length payload))) in
  let m2 := stored sw (bytes_of_int32 z2) in
  fortran_read sz n_read n_skip sw (mkfile (pre ++ m1 ++ payload ++ m2 ++ post) (Z.of_nat (length pre))) = None.
Proof.
  intros Hl Hb Hsz Hz2 Hne Hn payload m1 m2.
  pose proof (map_stored_length sw sz es Hl) as Hpl. fold payload in Hpl.
  assert (Hml : length m1 = 4%nat) by (unfold m1; rewrite stored_length; reflexivity).
  set (bs := pre ++ m1 ++ payload ++ m2 ++ post).
  unfold fortran_read.
  unfold bs at 1. unfold m1 at 1. rewrite read_block_size_at by lia.
  fold m1. fold bs. rewrite fseek_at by lia.
  set (es1 := firstn n_skip es). set (es2 := firstn n_read (skipn n_skip es)).
  set (es3 := skipn n_read (skipn n_skip es)).
  assert (Hes : es = es1 ++ es2 ++ es3).
  { unfold es1, es2, es3. rewrite firstn_skipn, firstn_skipn. reflexivity. }
  assert (L1 : length es1 = n_skip) by (unfold es1; rewrite firstn_length; lia).
  assert (L2 : length es2 = n_read) by (unfold es2; rewrite firstn_length, skipn_length; lia).
  assert (A1 : all_length sz es1) by (apply all_length_firstn; assumption).
  assert (A2 : all_length sz es2) by (apply all_length_firstn, all_length_skipn; assumption).
  set (p1 := concat (map (stored sw) es1)). set (p2 := concat (map (stored sw) es2)).
  set (p3 := concat (map (stored sw) es3)).
  assert (Hp : payload = p1 ++ p2 ++ p3).
  { unfold payload, p1, p2, p3. rewrite Hes at 1. rewrite !map_app, !concat_app. reflexivity. }
  assert (LP1 : length p1 = (n_skip * sz)%nat).
  { unfold p1. rewrite (map_stored_length sw sz es1 A1), L1. reflexivity. }
  assert (Hbs2 : bs = (pre ++ m1 ++ p1) ++ p2 ++ (p3 ++ m2 ++ post)).
  { unfold bs. rewrite Hp. rewrite <- !app_assoc. reflexivity. }
  assert (B2 : Forall is_byte (concat es2)).
  { apply concat_bytes_sub. apply Forall_firstn', Forall_skipn'. apply concat_bytes_sub; assumption. }
  pose proof (fread_swap_members (pre ++ m1 ++ p1) es2 (p3 ++ m2 ++ post) sw sz A2 B2) as HF.
  cbv zeta in HF. fold p2 in HF. rewrite <- Hbs2 in HF. rewrite L2 in HF.
  replace (Z.of_nat (length pre + 4) + Z.of_nat (n_skip * sz)) with (Z.of_nat (length (pre ++ m1 ++ p1)))
    by (rewrite !app_length; lia).
  rewrite HF.
  rewrite !app_length, Hml, LP1.
  assert (Hmul : ((n_skip + n_read) * sz <= length es * sz)%nat) by (apply Nat.mul_le_mono_r; lia).
  rewrite Nat.mul_add_distr_r in Hmul.
  rewrite fseek_at by (rewrite Hpl; rewrite Nat.mul_add_distr_r; lia).
  replace (Z.of_nat (length pre + (4 + n_skip * sz) + n_read * sz) +
           (Z.of_nat (length payload) - Z.of_nat ((n_skip + n_read) * sz)))
    with (Z.of_nat (length (pre ++ m1 ++ payload)))
    by (rewrite !app_length, Nat.mul_add_distr_r; lia).
  assert (Hbs3 : bs = (pre ++ m1 ++ payload) ++ m2 ++ post).
  { unfold bs. rewrite <- !app_assoc. reflexivity. }
  rewrite Hbs3 at 1. unfold m2 at 1. rewrite read_block_size_at by lia.
  destruct (Z.eqb_spec (Z.of_nat (length payload)) z2); [lia|reflexivity].
Qed.
