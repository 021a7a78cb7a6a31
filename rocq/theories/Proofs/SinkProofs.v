(** Proofs about the phase-space distances. *)
From Coq Require Import List ZArith QArith Bool Lia Lqa Reals Qreals Lra.
From Verif.Model Require Import ListMem Mymath Tree Means Subhalo Merge Sink.
From Verif.Spec Require Import Basic Octree Chains Means Sinking Sink.
From Verif.Proofs Require Import ListMemProofs ListExtra MymathProofs2 MeanProofs.
Import ListNotations.

(** * Roots *)
Section Roots.
Local Open Scope R_scope.
Lemma Q2R_nonneg q : (0 <= q)%Q -> 0 <= Q2R q.
Proof. intros H. apply Qle_Rle in H. rewrite RMicromega.Q2R_0 in H. exact H. Qed.
Lemma Q2R_pos q : (0 < q)%Q -> 0 < Q2R q.
Proof. intros H. apply Qlt_Rlt in H. rewrite RMicromega.Q2R_0 in H. exact H. Qed.
Lemma square_lt a b : 0 <= a -> 0 <= b -> (a * a < b * b <-> a < b).
Proof. intros Ha Hb. split; intros H; [|nra]. destruct (Rlt_or_le a b); [assumption|nra]. Qed.
Lemma roots_below_ok c a b : (0 <= a)%Q -> (0 <= b)%Q -> (0 <= c)%Q -> roots_below c a b = true <-> sqrt (Q2R a) + sqrt (Q2R b) < Q2R c.
Proof.
  intros Ha Hb Hc. unfold roots_below. set (rest := (c * c - a - b)%Q).
  rewrite andb_true_iff, !negb_true_iff.
  assert (E1 : Qle_bool rest 0 = false <-> 0 < Q2R rest).
  { destruct (Qle_bool rest 0) eqn:E; split; intros H; try reflexivity; try discriminate.
    - apply Qle_bool_iff in E. apply Qle_Rle in E. rewrite RMicromega.Q2R_0 in E. lra.
    - apply Q2R_pos. destruct (Qlt_le_dec 0 rest) as [Hr|Hr]; [exact Hr|]. apply Qle_bool_iff in Hr. congruence. }
  assert (E2 : Qle_bool (rest * rest) (4 * (a * b)) = false <-> 4 * (Q2R a * Q2R b) < Q2R rest * Q2R rest).
  { assert (E4 : Q2R (4 * (a * b)) = 4 * (Q2R a * Q2R b)). { rewrite !Q2R_mult. f_equal. unfold Q2R. cbn. lra. }
    rewrite <- E4, <- Q2R_mult.
    destruct (Qle_bool (rest * rest) (4 * (a * b))) eqn:E; split; intros H; try reflexivity; try discriminate.
    - apply Qle_bool_iff in E. apply Qle_Rle in E. lra.
    - apply Qlt_Rlt. destruct (Qlt_le_dec (4 * (a * b)) (rest * rest)) as [Hr|Hr]; [exact Hr|]. apply Qle_bool_iff in Hr. congruence. }
  rewrite E1, E2. clear E1 E2.
  assert (Er : Q2R rest = Q2R c * Q2R c - Q2R a - Q2R b) by (unfold rest; rewrite !Q2R_minus, Q2R_mult; reflexivity). rewrite Er. clear Er rest.
  apply Q2R_nonneg in Ha, Hb, Hc. pose proof (sqrt_sqrt _ Ha) as Sa. pose proof (sqrt_sqrt _ Hb) as Sb. pose proof (sqrt_pos (Q2R a)) as Pa. pose proof (sqrt_pos (Q2R b)) as Pb.
  set (x := sqrt (Q2R a)) in *. set (y := sqrt (Q2R b)) in *. rewrite <- Sa, <- Sb. set (d := Q2R c) in *. clearbody x y d. clear a b c Ha Hb Sa Sb.
  assert (Pxy : 0 <= 2 * (x * y)) by nra.
  assert (K : 4 * (x * x * (y * y)) = (2 * (x * y)) * (2 * (x * y))) by ring. rewrite K. split.
  - intros [H1 H2]. assert (H3 := proj1 (square_lt _ _ Pxy (Rlt_le _ _ H1)) H2). apply square_lt; nra.
  - intros H. assert (H3 := proj2 (square_lt (x + y) d ltac:(lra) Hc) H). assert (2 * (x * y) < d * d - x * x - y * y) by nra. split; [lra|]. apply square_lt; lra.
Qed.
Lemma sqrt_quotient a b : (0 <= a)%Q -> (0 < b)%Q -> sqrt (Q2R (a / b)) = sqrt (Q2R a) / sqrt (Q2R b).
Proof.
  intros Ha Hb. rewrite Q2R_div by (intros E; rewrite E in Hb; discriminate Hb). apply sqrt_div; [apply Q2R_nonneg; exact Ha|apply Q2R_pos; exact Hb].
Qed.
Lemma phase_distance_q s2 t2 d2 v2 : (0 < s2)%Q -> (0 < t2)%Q -> (0 <= d2)%Q -> (0 <= v2)%Q ->
  roots_below delta_crit (d2 / s2) (v2 / t2) = true <-> phase_distance s2 t2 d2 v2 < 2.
Proof.
  intros Hs Ht Hd Hv. assert (forall a b, (0 <= a)%Q -> (0 < b)%Q -> (0 <= a / b)%Q).
  { intros a b Ha Hb. apply Qle_shift_div_l; [exact Hb|]. rewrite Qmult_0_l. exact Ha. }
  rewrite roots_below_ok; [|auto|auto|discriminate]. rewrite !sqrt_quotient by assumption. unfold phase_distance.
  replace (Q2R delta_crit) with 2 by (unfold Q2R, delta_crit; cbn; lra). reflexivity.
Qed.
End Roots.

Local Open Scope Q_scope.
(** * Uniqueness of what the specification describes *)
Lemma massive_nz core : massive core -> ~ wsum b_m core == 0.
Proof. intros [_ H] E. rewrite E in H. discriminate H. Qed.
Lemma gap2_congr a b a' b' : (forall j, coord j a == coord j a') -> (forall j, coord j b == coord j b') -> gap2 a b == gap2 a' b'.
Proof. intros H1 H2. unfold gap2. rewrite !H1, !H2. reflexivity. Qed.
Lemma core_unique core y c v s2 t2 c' v' s2' t2' : ~ wsum b_m core == 0 -> core_is core y c v s2 t2 -> core_is core y c' v' s2' t2' ->
  (forall j, coord j c == coord j c') /\ (forall j, coord j v == coord j v') /\ s2 == s2' /\ t2 == t2'.
Proof.
  intros HM [P1 V1 S1 T1] [P2 V2 S2 T2].
  assert (Hc : forall j, coord j c == coord j c') by (intros j; eapply mean_unique; eauto).
  assert (Hv : forall j, coord j v == coord j v') by (intros j; eapply mean_unique; eauto).
  split; [exact Hc|]. split; [exact Hv|]. split.
  - eapply mean_unique; [exact HM|exact S1|]. eapply mean_ext; [|exact S2]. intros p _. cbn beta. apply gap2_congr; [reflexivity|]. intros j. symmetry. apply Hc.
  - eapply mean_unique; [exact HM|exact T1|]. eapply mean_ext; [|exact T2]. intros p _. cbn beta. apply gap2_congr; [reflexivity|]. intros j. symmetry. apply Hv.
Qed.
Lemma at_image_shift periodic L a b x e : at_image periodic L a b -> (if periodic then same_image L e (a - x) else e == a - x) -> (if periodic then same_image L e (b - x) else e == b - x).
Proof.
  unfold at_image. destruct periodic; [|intros H H'; rewrite H', H; reflexivity].
  intros [k Hk] [k' Hk']. exists (k + k')%Z. rewrite inject_Z_plus, Hk', Hk. ring.
Qed.
Lemma at_image_sym periodic L a b : at_image periodic L a b -> at_image periodic L b a.
Proof. unfold at_image. destruct periodic; [|intros ->; reflexivity]. intros [k Hk]. exists (- k)%Z. rewrite inject_Z_opp, Hk. ring. Qed.
Lemma least_image periodic L c c' x r2 : (forall j, at_image periodic L (coord j c) (coord j c')) -> least_distance2 periodic L c x r2 -> least_distance2 periodic L c' x r2.
Proof.
  intros H [(e0 & e1 & e2 & H0 & H1 & H2 & E) HL]. split.
  - exists e0, e1, e2. repeat split; [..|exact E]; (eapply at_image_shift; [apply H|assumption]).
  - intros f0 f1 f2 F0 F1 F2. apply HL; (eapply at_image_shift; [apply at_image_sym, H|assumption]).
Qed.
Lemma least_unique periodic L c x r r' : least_distance2 periodic L c x r -> least_distance2 periodic L c x r' -> r == r'.
Proof.
  intros [(e0 & e1 & e2 & H0 & H1 & H2 & E) HL] [(f0 & f1 & f2 & F0 & F1 & F2 & F) FL]. apply Qle_antisym.
  - rewrite F. apply HL; assumption.
  - rewrite E. apply FL; assumption.
Qed.
Lemma least_nonneg periodic L c x r : least_distance2 periodic L c x r -> 0 <= r.
Proof. intros [(e0 & e1 & e2 & _ & _ & _ & E) _]. rewrite E. pose proof (sq_nonneg e0). pose proof (sq_nonneg e1). pose proof (sq_nonneg e2). Lqa.lra. Qed.
Lemma distance2_gap a b : distance2 a b == gap2 a b.
Proof. destruct a as [[a0 a1] a2], b as [[b0 b1] b2]. unfold distance2, gap2, norm2, vmap2. cbn [coord]. ring. Qed.

(** * The code's distance is the least one *)
Lemma distance_least periodic L x y : (periodic = true -> 0 < L /\ forall j, near_range L (coord j x) (coord j y)) -> least_distance2 periodic L x y (periodic_distance2 periodic L x y).
Proof.
  destruct x as [[x0 x1] x2], y as [[y0 y1] y2]. intros H. destruct periodic.
  - destruct (H eq_refl) as [HL Hn]. pose proof (Hn 0%nat) as N0. pose proof (Hn 1%nat) as N1. pose proof (Hn 2%nat) as N2. cbn [coord] in N0, N1, N2. split.
    + destruct (periodic_distance2_attained L x0 x1 x2 y0 y1 y2 HL N0 N1 N2) as (e0 & e1 & e2 & H0 & H1 & H2 & E). exists e0, e1, e2. cbn [coord]. auto.
    + intros e0 e1 e2 H0 H1 H2. apply (periodic_distance2_minimal L); assumption.
  - split.
    + exists (x0 - y0), (x1 - y1), (x2 - y2). cbn [coord]. repeat split; reflexivity.
    + cbn [coord]. intros e0 e1 e2 H0 H1 H2. unfold periodic_distance2. rewrite H0, H1, H2. apply Qle_refl.
Qed.
(** The centre of the core is less than half a box beside the first particle. *)
Lemma centre_near L parts nb before y a s2 x : (1 <= nb <= length parts)%nat -> let core := firstn (Nat.min nb core_max) parts in
  massive core -> in_box true L core -> unfolds true L core y -> build_position true L parts nb before = Some (a, s2) -> in_domain L x ->
  forall j, near_range L (coord j a) (coord j x).
Proof.
  intros Hn core HM HB HU E HX j. unfold build_position in E. rewrite (proj2 (Nat.ltb_ge _ _)) in E by lia. fold core in E. destruct (HB eq_refl) as [HL Hx].
  assert (Hne : length core <> 0%nat) by (unfold core; rewrite firstn_length; unfold core_max; lia). clearbody core. specialize (HX j). unfold near_range.
  destruct core as [|o [|q r]] eqn:El; [contradiction| |].
  - injection E as <- <-. specialize (Hx o j (or_introl eq_refl)). split; Lqa.lra.
  - cbv beta iota in E. rewrite <- El in *. assert (Ho : In o core) by (rewrite El; left; reflexivity).
    destruct (spreads_ok core (fun p => apart true L (b_x p) (b_x o)) (massive_nz _ HM)) as (a' & s2' & E' & HA & _). rewrite E' in E. cbn [option_map fst snd] in E. injection E as <- <-.
    rewrite coord_vmap2. destruct HM as [Hm HM]. assert (HD : - ((1 # 2) * L) <= coord j a' <= (1 # 2) * L).
    { eapply (mean_between core (fun p => coord j (apart true L (b_x p) (b_x o)))); [exact HM| |apply HA]. intros p Hp. split; [apply Hm; exact Hp|].
      rewrite (near_images L core y o p j HL Hx HU Ho Hp). destruct HU as [_ HC]. specialize (HC p o j Hp Ho). split; Lqa.lra. }
    specialize (Hx o j Ho). split; Lqa.lra.
Qed.

(** * The criterion *)
Lemma core_found periodic L parts nb y sx sv : (1 <= nb <= length parts)%nat -> let core := core_of nb parts in
  compact periodic L core y -> boxed periodic L sx ->
  exists c v s2 t2 d2, core_is core y c v s2 t2 /\ least_distance2 periodic L c sx d2 /\ 0 <= s2 /\ 0 <= t2 /\
    (sinks_into periodic L parts nb sx sv = true <-> 0 < s2 /\ 0 < t2 /\ (phase_distance s2 t2 d2 (gap2 v sv) < 2)%R).
Proof.
  intros Hn core (HM & HB & HU) HX. pose proof (massive_nz _ HM) as HZ. unfold core in *. change (core_of nb parts) with (firstn (Nat.min nb core_max) parts) in *.
  destruct (build_position_ok periodic L parts nb (0, 0, 0) y Hn HZ HB HU) as (a & s2 & c & EP & HP & HS). destruct (build_velocity_ok parts nb (0, 0, 0) Hn HZ) as (v & t2 & EV & HV & HT).
  set (cr := firstn (Nat.min nb core_max) parts) in *.
  assert (HC : core_is cr y c v s2 t2) by (split; [intros j; apply HP|exact HV|exact HS|exact HT]).
  assert (Hs : 0 <= s2) by (apply (dispersion_nonneg cr s2 y c); [apply HM|exact HZ|exact HS]).
  assert (Ht : 0 <= t2) by (apply (dispersion_nonneg cr t2 b_v v); [apply HM|exact HZ|exact HT]).
  assert (HD : least_distance2 periodic L a sx (periodic_distance2 periodic L a sx)).
  { apply distance_least. intros ->. destruct (HX eq_refl) as [HL Hdom]. split; [exact HL|]. eapply centre_near; eassumption. }
  exists c, v, s2, t2, (periodic_distance2 periodic L a sx). split; [exact HC|]. split; [eapply least_image; [|exact HD]; intros j; apply HP|]. split; [exact Hs|]. split; [exact Ht|].
  unfold sinks_into. rewrite EP, EV. pose proof (least_nonneg _ _ _ _ _ HD) as Hd. destruct (Qeq_bool s2 0) eqn:E1; cbn [orb].
  { apply Qeq_bool_eq in E1. split; [discriminate|]. intros (H & _). rewrite E1 in H. discriminate H. }
  destruct (Qeq_bool t2 0) eqn:E2.
  { apply Qeq_bool_eq in E2. split; [discriminate|]. intros (_ & H & _). rewrite E2 in H. discriminate H. }
  assert (Ps : 0 < s2). { destruct (Qlt_le_dec 0 s2) as [H|H]; [exact H|]. assert (s2 == 0) by Lqa.lra. apply Qeq_bool_iff in H0. congruence. }
  assert (Pt : 0 < t2). { destruct (Qlt_le_dec 0 t2) as [H|H]; [exact H|]. assert (t2 == 0) by Lqa.lra. apply Qeq_bool_iff in H0. congruence. }
  rewrite phase_distance_q; [|exact Ps|exact Pt|exact Hd|]; [|rewrite distance2_gap; apply gap2_nonneg].
  assert (EG : phase_distance s2 t2 (periodic_distance2 periodic L a sx) (distance2 v sv) = phase_distance s2 t2 (periodic_distance2 periodic L a sx) (gap2 v sv)).
  { unfold phase_distance. rewrite (Qeq_eqR _ _ (distance2_gap v sv)). reflexivity. }
  rewrite EG. tauto.
Qed.
Lemma phase_congr s2 t2 d2 v2 s2' t2' d2' v2' : s2 == s2' -> t2 == t2' -> d2 == d2' -> v2 == v2' -> phase_distance s2 t2 d2 v2 = phase_distance s2' t2' d2' v2'.
Proof. intros H1 H2 H3 H4. unfold phase_distance. rewrite (Qeq_eqR _ _ H1), (Qeq_eqR _ _ H2), (Qeq_eqR _ _ H3), (Qeq_eqR _ _ H4). reflexivity. Qed.
Lemma at_image_eq periodic L a b : a == b -> at_image periodic L a b.
Proof. unfold at_image. destruct periodic; [|auto]. intros H. exists 0%Z. rewrite H. ring. Qed.
Lemma criterion_ok periodic L parts nb y sx sv c v s2 t2 d2 : (1 <= nb <= length parts)%nat -> let core := core_of nb parts in
  compact periodic L core y -> boxed periodic L sx -> core_is core y c v s2 t2 -> least_distance2 periodic L c sx d2 ->
  sinks_into periodic L parts nb sx sv = true <-> 0 < s2 /\ 0 < t2 /\ (phase_distance s2 t2 d2 (gap2 v sv) < 2)%R.
Proof.
  intros Hn core HC HX HK HD. destruct (core_found periodic L parts nb y sx sv Hn HC HX) as (c' & v' & s2' & t2' & d2' & HK' & HD' & _ & _ & HI).
  destruct (core_unique core y _ _ _ _ _ _ _ _ (massive_nz _ (proj1 HC)) HK HK') as (Ec & Ev & Es & Et).
  assert (Ed : d2 == d2'). { eapply least_unique; [|exact HD']. eapply least_image; [|exact HD]. intros j. apply at_image_eq, Ec. }
  assert (Fs : 0 < s2' <-> 0 < s2) by (rewrite Es; reflexivity). assert (Ft : 0 < t2' <-> 0 < t2) by (rewrite Et; reflexivity).
  rewrite HI, Fs, Ft. rewrite (phase_congr s2 t2 d2 (gap2 v sv) s2' t2' d2' (gap2 v' sv)); [reflexivity|exact Es|exact Et|exact Ed|]. apply gap2_congr; [exact Ev|reflexivity].
Qed.

(** * Other frames *)
Definition image_of (periodic : bool) (L e d : Q) : Prop := if periodic then same_image L e d else e == d.
Lemma image_scale periodic L k o c x c' x' e : c' == k * c + o -> at_image periodic (k * L) x' (k * x + o) -> image_of periodic L e (c - x) -> image_of periodic (k * L) (k * e) (c' - x').
Proof.
  unfold at_image, image_of. destruct periodic; intros Hc.
  - intros [n Hn] [m Hm]. exists (m + n)%Z. rewrite inject_Z_plus, Hc, Hn, Hm. ring.
  - intros Hx He. rewrite He, Hx, Hc. ring.
Qed.
Lemma image_unscale periodic L k o c x c' x' e : ~ k == 0 -> c' == k * c + o -> at_image periodic (k * L) x' (k * x + o) -> image_of periodic (k * L) e (c' - x') -> image_of periodic L (e / k) (c - x).
Proof.
  unfold at_image, image_of. intros Hk. destruct periodic; intros Hc.
  - intros [n Hn] [m Hm]. exists (m - n)%Z. unfold Zminus. rewrite inject_Z_plus, inject_Z_opp, Hm, Hc, Hn. field. exact Hk.
  - intros Hx He. rewrite He, Hx, Hc. field. exact Hk.
Qed.
Lemma least_scale periodic L k o c x c' x' d2 : 0 < k -> (forall j, coord j c' == k * coord j c + coord j o) ->
  (forall j, at_image periodic (k * L) (coord j x') (k * coord j x + coord j o)) -> least_distance2 periodic L c x d2 -> least_distance2 periodic (k * L) c' x' (k * k * d2).
Proof.
  intros Hk Hc Hx [(e0 & e1 & e2 & H0 & H1 & H2 & E) HL]. assert (Hk0 : ~ k == 0) by (intros F; rewrite F in Hk; discriminate Hk). split.
  - exists (k * e0), (k * e1), (k * e2). split; [|split; [|split]]; [..|rewrite E; ring].
    + apply (image_scale periodic L k (coord 0 o) (coord 0 c) (coord 0 x)); auto.
    + apply (image_scale periodic L k (coord 1 o) (coord 1 c) (coord 1 x)); auto.
    + apply (image_scale periodic L k (coord 2 o) (coord 2 c) (coord 2 x)); auto.
  - intros f0 f1 f2 F0 F1 F2.
    apply (image_unscale periodic L k (coord 0 o) (coord 0 c) (coord 0 x)) in F0; [|auto..].
    apply (image_unscale periodic L k (coord 1 o) (coord 1 c) (coord 1 x)) in F1; [|auto..].
    apply (image_unscale periodic L k (coord 2 o) (coord 2 c) (coord 2 x)) in F2; [|auto..].
    specialize (HL _ _ _ F0 F1 F2). assert (EQ : f0 * f0 + f1 * f1 + f2 * f2 == k * k * (f0 / k * (f0 / k) + f1 / k * (f1 / k) + f2 / k * (f2 / k))) by (field; exact Hk0).
    rewrite EQ. apply Qmult_le_l; [Lqa.nra|exact HL].
Qed.
Lemma sums_scale core core' mu al be (g g' : body -> Q) : Forall2 (fun p p' => b_m p' == mu * b_m p /\ g' p' == al * g p + be) core core' ->
  wsum b_m core' == mu * wsum b_m core /\ wsum (fun p => b_m p * g' p) core' == mu * (al * wsum (fun p => b_m p * g p) core + be * wsum b_m core).
Proof.
  induction 1 as [|p p' l l' [Hm Hg] _ [IH1 IH2]]; [split; unfold wsum; cbn [fold_right]; ring|].
  unfold wsum in *. cbn [fold_right]. split; [rewrite IH1, Hm; ring|]. rewrite IH2, Hm, Hg. ring.
Qed.
Lemma mean_scale core core' mu al be (g g' : body -> Q) a : Forall2 (fun p p' => b_m p' == mu * b_m p /\ g' p' == al * g p + be) core core' ->
  is_mean core g a -> is_mean core' g' (al * a + be).
Proof. intros HF Ha. destruct (sums_scale _ _ _ _ _ _ _ HF) as [H1 H2]. unfold is_mean in *. rewrite H1, H2, <- Ha. ring. Qed.
Definition body_eq_dec (p q : body) : {p = q} + {p <> q}.
Proof.
  assert (HQ : forall a b : Q, {a = b} + {a <> b}) by (decide equality; [apply Pos.eq_dec|apply Z.eq_dec]).
  assert (HV : forall a b : vec, {a = b} + {a <> b}) by (decide equality; decide equality). decide equality.
Defined.
Fixpoint lookup_image (core core' : list body) (p' : body) : option body :=
  match core, core' with
  | p :: l, q :: l' => if body_eq_dec q p' then Some p else lookup_image l l' p'
  | _, _ => None
  end.
Lemma lookup_some core core' P p' : Forall2 P core core' -> In p' core' -> exists p, lookup_image core core' p' = Some p /\ In p core /\ P p p'.
Proof.
  induction 1 as [|p q l l' H _ IH]; [intros []|]. cbn [lookup_image]. intros HI. destruct (body_eq_dec q p') as [->|Hn]; [exists p; repeat split; [left; reflexivity|exact H]|].
  destruct HI as [HI|HI]; [contradiction|]. destruct (IH HI) as (r & E & Hr & HP). exists r. repeat split; [exact E|right; exact Hr|exact HP].
Qed.
Lemma Forall2_in {A B} (P : A -> B -> Prop) l l' : Forall2 P l l' -> Forall2 (fun a b => In a l /\ In b l' /\ P a b) l l'.
Proof.
  induction 1 as [|a b l l' H HF IH]; constructor; [repeat split; try (left; reflexivity); exact H|].
  eapply Forall2_impl; [|exact IH]. cbn. intros x y (H1 & H2 & H3). auto.
Qed.
Lemma close_images L a b : 0 < L -> same_image L a b -> - ((1 # 2) * L) < a - b < (1 # 2) * L -> a == b.
Proof.
  intros HL [n Hn] [H1 H2]. assert (n = 0)%Z.
  { destruct (Z.eq_dec n 0) as [|Hz]; [assumption|]. exfalso. assert (C : (n <= -1 \/ 1 <= n)%Z) by lia. destruct C as [C|C]; rewrite Zle_Qle in C.
    - assert (inject_Z n * L <= inject_Z (-1) * L) by (apply Qmult_le_compat_r; [exact C|Lqa.lra]). change (inject_Z (-1)) with (-1#1) in H. Lqa.lra.
    - assert (inject_Z 1 * L <= inject_Z n * L) by (apply Qmult_le_compat_r; [exact C|Lqa.lra]). change (inject_Z 1) with 1 in H. Lqa.lra. }
  subst n. rewrite Hn. change (inject_Z 0) with 0. ring.
Qed.

Section Frame.
  Variables (periodic : bool) (L k h mu : Q) (o w : vec).
  Hypothesis Hk : 0 < k.
  Hypothesis Hmu : 0 < mu.
  Variables (core core' : list body) (y : body -> vec).
  Hypothesis HC : compact periodic L core y.
  Hypothesis HB' : in_box periodic (k * L) core'.
  Hypothesis HF : Forall2 (moved_body periodic L k h mu o w) core core'.
  Definition moved_vec (s : Q) (a b : vec) : vec := vmap2 Qplus (vmap (fun d => s * d) a) b.
  Lemma coord_moved s a b j : coord j (moved_vec s a b) = s * coord j a + coord j b.
  Proof. unfold moved_vec. rewrite coord_vmap2, coord_vmap. reflexivity. Qed.
  Definition image' (p' : body) : vec := match lookup_image core core' p' with Some p => moved_vec k (y p) o | None => b_x p' end.
  Lemma image'_of p p' : In p core -> In p' core' -> moved_body periodic L k h mu o w p p' -> forall j, coord j (image' p') == k * coord j (y p) + coord j o.
  Proof using All.
    intros Hp Hp' HM j. unfold image'. destruct (lookup_some _ _ _ _ HF Hp') as (q & E & Hq & HQ). rewrite E, coord_moved.
    destruct HC as (_ & HB & HU). destruct (proj1 HM j) as [Xp _]. destruct (proj1 HQ j) as [Xq _].
    assert (E' : coord j (y q) == coord j (y p)); [|rewrite E'; reflexivity]. unfold unfolds, at_image in *. destruct periodic.
    - destruct (HB eq_refl) as [HL _]. destruct HU as [HI HD]. apply (close_images L); [exact HL| |apply HD; assumption].
      destruct (HI p j Hp) as [a Ha]. destruct (HI q j Hq) as [b Hb]. destruct Xp as [n Hn]. destruct Xq as [m Hm]. exists (b + n - m - a)%Z.
      unfold Zminus. rewrite !inject_Z_plus, !inject_Z_opp, Ha, Hb. rewrite Hn in Hm.
      assert (EQ : k * (coord j (b_x q) - coord j (b_x p) - (inject_Z n - inject_Z m) * L) == 0) by Lqa.lra.
      apply Qmult_integral in EQ as [EQ|EQ]; [rewrite EQ in Hk; discriminate Hk|]. Lqa.lra.
    - rewrite !HU by assumption. rewrite Xp in Xq. assert (EQ : k * (coord j (b_x q) - coord j (b_x p)) == 0) by Lqa.lra.
      apply Qmult_integral in EQ as [EQ|EQ]; [rewrite EQ in Hk; discriminate Hk|]. Lqa.lra.
  Qed.
  Lemma pairs : Forall2 (fun p p' => (b_m p' == mu * b_m p) /\ (forall j, coord j (image' p') == k * coord j (y p) + coord j o) /\ (forall j, coord j (b_v p') == h * coord j (b_v p) + coord j w)) core core'.
  Proof using All.
    eapply Forall2_impl; [|exact (Forall2_in _ _ _ HF)]. cbn. intros p p' (Hp & Hp' & HM). split; [apply HM|]. split; [apply image'_of; assumption|]. intros j. apply (proj1 HM j).
  Qed.
  Lemma massive' : massive core'.
  Proof using All.
    destruct HC as ((Hm & HW) & _ & _). split.
    - intros p' Hp'. destruct (lookup_some _ _ _ _ HF Hp') as (q & _ & Hq & HQ). destruct HQ as [_ HQ]. rewrite HQ. specialize (Hm q Hq). Lqa.nra.
    - destruct (sums_scale core core' mu 1 0 (fun _ => 0) (fun _ => 0)) as [H _].
      { eapply Forall2_impl; [|exact HF]. intros p p' [_ H]. split; [exact H|ring]. }
      rewrite H. Lqa.nra.
  Qed.
  Lemma found p' : In p' core' -> exists q, In q core /\ (forall j, at_image periodic (k * L) (coord j (b_x p')) (k * coord j (b_x q) + coord j o)) /\
    (forall j, coord j (image' p') == k * coord j (y q) + coord j o).
  Proof using All.
    intros Hp'. destruct (lookup_some _ _ _ _ HF Hp') as (q & _ & Hq & HQ). exists q. split; [exact Hq|]. split; [intros j; apply (proj1 HQ j)|apply image'_of; assumption].
  Qed.
  Lemma compact' : compact periodic (k * L) core' image'.
  Proof using All.
    split; [apply massive'|]. split; [exact HB'|]. pose proof found as HW. pose proof HC as (_ & HB & HU). revert HW HB HU. generalize image'. clear HF HB' HC. unfold unfolds, at_image, in_box. intros im HW HB HU.
    destruct periodic.
    - destruct (HB eq_refl) as [HL _]. destruct HU as [HI HD]. split.
      + intros p' j Hp'. destruct (HW p' Hp') as (q & Hq & Xq & EI). destruct (Xq j) as [n Hn]. destruct (HI q j Hq) as [m Hm]. exists (m - n)%Z. unfold Zminus. rewrite inject_Z_plus, inject_Z_opp, EI, Hn, Hm. ring.
      + intros p' q' j Hp' Hq'. destruct (HW p' Hp') as (p & Hp & _ & EP). destruct (HW q' Hq') as (q & Hq & _ & EQ). rewrite EP, EQ. destruct (HD p q j Hp Hq) as [H1 H2]. split; Lqa.nra.
    - intros p' j Hp'. destruct (HW p' Hp') as (q & Hq & Xq & EI). rewrite EI, Xq, (HU q j Hq). reflexivity.
  Qed.
  Lemma core_moved c v s2 t2 : core_is core y c v s2 t2 -> core_is core' image' (moved_vec k c o) (moved_vec h v w) (k * k * s2) (h * h * t2).
  Proof using All.
    intros [P V S T]. pose proof pairs as HP. split.
    - intros j. rewrite coord_moved. apply (mean_scale core core' mu k (coord j o) (fun p => coord j (y p))); [|apply P]. eapply Forall2_impl; [|exact HP]. intros p p' (H1 & H2 & _). split; [exact H1|apply H2].
    - intros j. rewrite coord_moved. apply (mean_scale core core' mu h (coord j w) (fun p => coord j (b_v p))); [|apply V]. eapply Forall2_impl; [|exact HP]. intros p p' (H1 & _ & H3). split; [exact H1|apply H3].
    - apply (mean_congr _ _ (k * k * s2 + 0)); [ring|]. apply (mean_scale core core' mu (k * k) 0 (fun p => gap2 (y p) c)); [|exact S]. eapply Forall2_impl; [|exact HP]. intros p p' (H1 & H2 & _). split; [exact H1|].
      unfold gap2. rewrite !H2, !coord_moved. ring.
    - apply (mean_congr _ _ (h * h * t2 + 0)); [ring|]. apply (mean_scale core core' mu (h * h) 0 (fun p => gap2 (b_v p) v)); [|exact T]. eapply Forall2_impl; [|exact HP]. intros p p' (H1 & _ & H3). split; [exact H1|].
      unfold gap2. rewrite !H3, !coord_moved. ring.
  Qed.
End Frame.
Lemma root_ratio k a b : 0 < k -> (sqrt (Q2R (k * k * a)) / sqrt (Q2R (k * k * b)) = sqrt (Q2R a) / sqrt (Q2R b))%R.
Proof.
  intros Hk. pose proof (Q2R_pos k Hk) as Pk. rewrite !Q2R_mult. assert (P2 : (0 <= Q2R k * Q2R k)%R) by nra. rewrite !(sqrt_mult_alt _ _ P2), sqrt_square by lra.
  destruct (Req_dec (sqrt (Q2R b)) 0) as [E|E]; [|field; split; lra]. rewrite E, Rmult_0_r. unfold Rdiv. rewrite RIneq.Rinv_0. ring.
Qed.
Lemma Forall2_firstn {A B} (P : A -> B -> Prop) l l' : Forall2 P l l' -> forall n, Forall2 P (firstn n l) (firstn n l').
Proof. induction 1 as [|a b l l' H _ IH]; intros [|n]; cbn [firstn]; constructor; auto. Qed.
Lemma frames_ok periodic L k h mu o w parts parts' nb y sx sv sx' sv' : 0 < k -> 0 < h -> 0 < mu -> (1 <= nb <= length parts)%nat ->
  compact periodic L (core_of nb parts) y -> boxed periodic L sx -> in_box periodic (k * L) (core_of nb parts') -> boxed periodic (k * L) sx' ->
  Forall2 (moved_body periodic L k h mu o w) parts parts' -> moved periodic L k h o w sx sv sx' sv' ->
  sinks_into periodic (k * L) parts' nb sx' sv' = sinks_into periodic L parts nb sx sv.
Proof.
  intros Hk Hh Hmu Hn HC HX HB' HX' HF HS. destruct (core_found periodic L parts nb y sx sv Hn HC HX) as (c & v & s2 & t2 & d2 & HK & HD & _ & _ & HI).
  pose proof (Forall2_firstn _ _ _ HF (Nat.min nb 20)) as HF'. fold (core_of nb parts) in HF'. fold (core_of nb parts') in HF'.
  pose proof (compact' periodic L k h mu o w Hk Hmu _ _ y HC HB' HF') as HC'. pose proof (core_moved periodic L k h mu o w Hk Hmu _ _ y HC HB' HF' _ _ _ _ HK) as HK'.
  assert (HD' : least_distance2 periodic (k * L) (moved_vec k c o) sx' (k * k * d2)).
  { apply (least_scale periodic L k o c sx); [exact Hk|intros j; rewrite coord_moved; reflexivity|intros j; apply HS|exact HD]. }
  assert (HL : length parts = length parts') by (clear - HF; induction HF; cbn; congruence).
  pose proof (criterion_ok periodic (k * L) parts' nb _ sx' sv' _ _ _ _ _ ltac:(rewrite <- HL; exact Hn) HC' HX' HK' HD') as HI'.
  assert (EG : gap2 (moved_vec h v w) sv' == h * h * gap2 v sv).
  { unfold gap2. rewrite !coord_moved, !(fun j => proj2 (HS j)). ring. }
  assert (EPD : phase_distance (k * k * s2) (h * h * t2) (k * k * d2) (gap2 (moved_vec h v w) sv') = phase_distance s2 t2 d2 (gap2 v sv)).
  { rewrite (phase_congr _ _ _ _ (k * k * s2) (h * h * t2) (k * k * d2) (h * h * gap2 v sv)); [|reflexivity..|exact EG]. unfold phase_distance. rewrite !root_ratio by assumption. reflexivity. }
  rewrite EPD in HI'. assert (Kk : 0 < k * k) by (apply Qmult_lt_0_compat; exact Hk). assert (Kh : 0 < h * h) by (apply Qmult_lt_0_compat; exact Hh).
  assert (Ps : 0 < k * k * s2 <-> 0 < s2). { split; intros H; [|apply Qmult_lt_0_compat; assumption]. destruct (Qlt_le_dec 0 s2) as [|F]; [assumption|]. exfalso. Lqa.nra. }
  assert (Pt : 0 < h * h * t2 <-> 0 < t2). { split; intros H; [|apply Qmult_lt_0_compat; assumption]. destruct (Qlt_le_dec 0 t2) as [|F]; [assumption|]. exfalso. Lqa.nra. }
  rewrite Ps, Pt, <- HI in HI'. apply Bool.eq_true_iff_eq. exact HI'.
Qed.

(** * Simple sufficient and necessary conditions *)
Lemma root_le a b : 0 <= a -> (sqrt (Q2R a) <= sqrt (Q2R b))%R <-> a <= b \/ b <= 0 /\ a == 0.
Proof.
  intros Ha. split.
  - intros H. destruct (Qlt_le_dec b a) as [F|F]; [|left; exact F]. right. destruct (Qlt_le_dec 0 b) as [G|G].
    + exfalso. apply Qlt_Rlt in F. assert (sqrt (Q2R b) < sqrt (Q2R a))%R; [|lra]. apply sqrt_lt_1; [apply Q2R_nonneg; Lqa.lra|apply Q2R_nonneg; exact Ha|exact F].
    + split; [exact G|]. assert (Z : sqrt (Q2R b) = 0%R). { apply sqrt_neg_0. apply Qle_Rle in G. rewrite RMicromega.Q2R_0 in G. exact G. }
      rewrite Z in H. pose proof (sqrt_pos (Q2R a)) as P. assert (E : sqrt (Q2R a) = 0%R) by lra. apply sqrt_eq_0 in E; [|apply Q2R_nonneg; exact Ha].
      apply eqR_Qeq. rewrite E, RMicromega.Q2R_0. reflexivity.
  - intros [H|[H H']]; [apply sqrt_le_1_alt, Qle_Rle, H|]. rewrite (Qeq_eqR _ _ H'), RMicromega.Q2R_0, sqrt_0. apply sqrt_pos.
Qed.
Section Simple.
  Local Open Scope R_scope.
  Lemma ratio_nonneg a b : 0 <= sqrt a / sqrt b.
  Proof.
    destruct (Req_dec (sqrt b) 0) as [E|E]; [rewrite E; unfold Rdiv; rewrite RIneq.Rinv_0; lra|]. pose proof (sqrt_pos a). pose proof (sqrt_pos b).
    apply Rmult_le_pos; [assumption|]. apply Rlt_le, Rinv_0_lt_compat. lra.
  Qed.
  Lemma ratio_below a b (n : Z) : (0 <= n)%Z -> (0 < b)%Q -> (0 <= a)%Q -> (a < inject_Z n * inject_Z n * b)%Q -> sqrt (Q2R a) / sqrt (Q2R b) < IZR n.
  Proof.
    intros Hn Hb Ha H. pose proof (sqrt_lt_R0 _ (Q2R_pos b Hb)) as P. apply (Rmult_lt_reg_r (sqrt (Q2R b))); [exact P|]. unfold Rdiv. rewrite Rmult_assoc, Rinv_l, Rmult_1_r by lra.
    apply Qlt_Rlt in H. rewrite !Q2R_mult in H. assert (E : Q2R (inject_Z n) = IZR n) by (unfold Q2R, inject_Z; cbn; lra). rewrite E in H.
    apply IZR_le in Hn. rewrite <- (sqrt_square (IZR n)) by exact Hn. rewrite <- sqrt_mult_alt by nra. apply sqrt_lt_1_alt. split; [apply Q2R_nonneg, Ha|exact H].
  Qed.
  Lemma ratio_above a b (n : Z) : (0 <= n)%Z -> (0 < b)%Q -> (inject_Z n * inject_Z n * b <= a)%Q -> IZR n <= sqrt (Q2R a) / sqrt (Q2R b).
  Proof.
    intros Hn Hb H. pose proof (sqrt_lt_R0 _ (Q2R_pos b Hb)) as P. apply (Rmult_le_reg_r (sqrt (Q2R b))); [exact P|]. unfold Rdiv. rewrite Rmult_assoc, Rinv_l, Rmult_1_r by lra.
    apply Qle_Rle in H. rewrite !Q2R_mult in H. assert (E : Q2R (inject_Z n) = IZR n) by (unfold Q2R, inject_Z; cbn; lra). rewrite E in H.
    apply IZR_le in Hn. rewrite <- (sqrt_square (IZR n)) by exact Hn. rewrite <- sqrt_mult_alt by nra. apply sqrt_le_1_alt. exact H.
  Qed.
End Simple.

(** * Sinking in the tree of subhalos *)
Section Captures.
  Context {R : Type}.
  Variables (periodic : bool) (L : Q) (mb_pos mb_vel : R -> vec) (subs : list (sub body R)).
  Hypothesis Hsub : forall u, In u subs -> (s_nbound u <= length (s_parts u))%nat /\ boxed periodic L (mb_pos (s_rest u)) /\
    ((1 < s_nbound u)%nat -> exists y, compact periodic L (core_of (s_nbound u) (map snd (s_parts u))) y).
  Lemma zget_in (l : list (sub body R)) i s : zget l i = Some s -> In s l.
  Proof. unfold zget. destruct (i <? 0)%Z; [discriminate|]. apply nth_error_In. Qed.
  Lemma takes_ok i k : takes (sink_near periodic L mb_pos mb_vel) subs i k <-> captures periodic L mb_pos mb_vel subs i k.
  Proof using All.
    split; intros (s & u & Hs & Hu & Hn & H); exists s, u; (split; [exact Hs|]); (split; [exact Hu|]); (split; [exact Hn|]);
    destruct (Hsub u (zget_in _ _ _ Hu)) as (Hl & _ & HC); destruct (Hsub s (zget_in _ _ _ Hs)) as (_ & HX & _); destruct (HC Hn) as [y HY]; cbn [sink_near] in *.
    - exists y. split; [apply HY|]. destruct (core_found periodic L (map snd (s_parts u)) (s_nbound u) y (mb_pos (s_rest s)) (mb_vel (s_rest s))) as (c & v & s2 & t2 & d2 & HK & HD & _ & _ & HI); [rewrite map_length; lia|exact HY|exact HX|].
      apply HI in H as (H1 & H2 & H3). exists c, v, s2, t2, d2. auto.
    - destruct H as (y' & HU & c & v & s2 & t2 & d2 & HK & HD & H1 & H2 & H3).
      apply (criterion_ok periodic L (map snd (s_parts u)) (s_nbound u) y' (mb_pos (s_rest s)) (mb_vel (s_rest s)) c v s2 t2 d2); auto; [rewrite map_length; lia|]. destruct HY as (HY1 & HY2 & _). split; [exact HY1|]. split; assumption.
  Qed.
  Lemma sinks_ok up i k : sinks_by (sink_near periodic L mb_pos mb_vel) up subs i k <-> captured_by periodic L mb_pos mb_vel up subs i k.
  Proof using All.
    split; intros (d & H1 & H2 & H3); exists d; (split; [exact H1|]); (split; [apply takes_ok; exact H2|]); intros d' k' Hd Ha Ht; apply (H3 d' k' Hd Ha), takes_ok, Ht.
  Qed.
End Captures.

(** * The kinetic distance *)
Lemma kinetic_gap periodic L hz a xv xv0 : kinetic2 periodic L hz a xv xv0 == gap2 (vmap2 Qplus (snd xv) (vmap (fun d => hz * a * d) (apart periodic L (fst xv) (fst xv0)))) (snd xv0).
Proof.
  destruct xv as [x v], xv0 as [x0 v0]. unfold kinetic2, relative_velocity, times. cbn [fst snd]. rewrite norm2_coord. unfold gap2. rewrite !coord_vmap2, !coord_vmap. ring.
Qed.
Lemma apart_least periodic L x x0 j : (periodic = true -> 0 < L /\ near_range L (coord j x) (coord j x0)) -> least_offset periodic L (coord j x) (coord j x0) (coord j (apart periodic L x x0)).
Proof.
  intros H. pose proof (apart_offsets periodic L [mkbody x x 0] x0) as HO. unfold offsets in HO. unfold apart. rewrite coord_vmap, coord_vmap2. unfold least_offset. destruct periodic; [|reflexivity].
  destruct (H eq_refl) as [HL HN]. split; [apply (nearest_spec L (coord j x - coord j x0) HL HN)|]. intros e' He. apply Qabs_sq. apply nearest_le; assumption.
Qed.
Lemma kinetic_ok periodic L hz a xv xv0 : (periodic = true -> 0 < L /\ forall j, near_range L (coord j (fst xv)) (coord j (fst xv0))) ->
  expansion_velocity2 periodic L hz a xv xv0 (kinetic2 periodic L hz a xv xv0).
Proof. intros H. exists (apart periodic L (fst xv) (fst xv0)). split; [|apply kinetic_gap]. intros j. apply apart_least. intros E. destruct (H E) as [HL HN]. auto. Qed.
(** The offset is unique unless it is half a box. *)
Lemma offset_unique periodic L a b e e' : least_offset periodic L a b e -> least_offset periodic L a b e' -> (periodic = true -> 0 < L /\ ~ e * e == (1 # 4) * (L * L)) -> e == e'.
Proof.
  unfold least_offset. destruct periodic; [|intros -> ->; reflexivity]. intros [[n Hn] H] [[m Hm] H'] HT. destruct (HT eq_refl) as [HL HE]. 
  assert (E2 : e * e == e' * e') by (apply Qle_antisym; [apply H; exists m; exact Hm|apply H'; exists n; exact Hn]).
  assert (EQ : (e - e') * (e + e') == 0) by Lqa.lra. apply Qmult_integral in EQ as [EQ|EQ]; [Lqa.lra|].
  (* e' = - e, so 2 e is a multiple of L; if it were not 0, e would not be smallest unless it is half a box *)
  assert (EM : 2 * e == inject_Z (n - m) * L) by (unfold Zminus; rewrite inject_Z_plus, inject_Z_opp; Lqa.lra).
  destruct (Z.eq_dec (n - m) 0) as [Z0|Z0]; [rewrite Z0 in EM; change (inject_Z 0) with 0 in EM; Lqa.lra|]. exfalso.
  assert (HP : same_image L (e - L) (a - b)) by (exists (n - 1)%Z; unfold Zminus; rewrite inject_Z_plus, Hn; change (inject_Z (Z.opp 1)) with (-1#1); ring).
  assert (HQ : same_image L (e + L) (a - b)) by (exists (n + 1)%Z; rewrite inject_Z_plus, Hn; change (inject_Z 1) with 1; ring).
  apply H in HP, HQ. assert (B1 : e <= (1 # 2) * L) by Lqa.nra. assert (B2 : - ((1 # 2) * L) <= e) by Lqa.nra.
  assert (C : (n - m <= -1 \/ 1 <= n - m)%Z) by lia. destruct C as [C|C]; rewrite Zle_Qle in C.
  - assert (F : inject_Z (n - m) * L <= inject_Z (-1) * L) by (apply Qmult_le_compat_r; [exact C|Lqa.lra]). change (inject_Z (-1)) with (-1#1) in F. apply HE. assert (e == - ((1 # 2) * L)) by Lqa.lra. rewrite H0. ring.
  - assert (F : inject_Z 1 * L <= inject_Z (n - m) * L) by (apply Qmult_le_compat_r; [exact C|Lqa.lra]). change (inject_Z 1) with 1 in F. apply HE. assert (e == (1 # 2) * L) by Lqa.lra. rewrite H0. ring.
Qed.
Lemma expansion_congr hz a v v' v0 e e' : (forall j, coord j e == coord j e') -> (forall j, coord j v == coord j v') -> gap2 (vmap2 Qplus v (vmap (fun d => hz * a * d) e)) v0 == gap2 (vmap2 Qplus v' (vmap (fun d => hz * a * d) e')) v0.
Proof. intros H Hv. unfold gap2. rewrite !coord_vmap2, !coord_vmap, !H, !Hv. reflexivity. Qed.
