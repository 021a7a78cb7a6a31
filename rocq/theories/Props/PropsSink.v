(** C83 and C84: when a subhalo sinks into another one, and which subhalo is nearest to its halo. *)
From Coq Require Import List ZArith QArith Bool Lia Lqa Reals Qreals Lra Sorting.Permutation.
From Verif.Model Require Import ListMem Mymath Tree Means Subhalo Merge Sink.
From Verif.Spec Require Import Basic Octree Chains Means Members Sinking Sink.
From Verif.Proofs Require Import ListMemProofs MymathProofs2 MeanProofs MemberProofs SinkProofs.
From Verif.Props Require Import PropsMembers.
Import ListNotations.
Local Open Scope Q_scope.

(** * C83: the sink criterion *)
(** SinkDistance(...)<DeltaCrit holds exactly if the most bound particle of the satellite is within two dispersions of the core
    of the host: the distance to the nearest image of the core's centre in units of the position dispersion plus the relative
    velocity in units of the velocity dispersion is below 2. *)
Theorem C83_criterion : forall (periodic : bool) (L : Q) (parts : list body) (nbound : nat) (y : body -> vec) (sx sv c v : vec) (s2 t2 d2 : Q),
  (1 <= nbound <= length parts)%nat -> let core := core_of nbound parts in
  compact periodic L core y -> boxed periodic L sx -> core_is core y c v s2 t2 -> least_distance2 periodic L c sx d2 ->
  sinks_into periodic L parts nbound sx sv = true <-> 0 < s2 /\ 0 < t2 /\ (phase_distance s2 t2 d2 (gap2 v sv) < 2)%R.
Proof. exact criterion_ok. Qed.
Print Assumptions C83_criterion.
(** Such a core has a centre, dispersions and a distance. *)
Theorem C83_defined : forall (periodic : bool) (L : Q) (parts : list body) (nbound : nat) (y : body -> vec) (sx : vec),
  (1 <= nbound <= length parts)%nat -> let core := core_of nbound parts in compact periodic L core y -> boxed periodic L sx ->
  exists c v s2 t2 d2, core_is core y c v s2 t2 /\ least_distance2 periodic L c sx d2 /\ 0 <= s2 /\ 0 <= t2 /\ 0 <= d2.
Proof.
  intros periodic L parts nb y sx Hn core HC HX. destruct (core_found periodic L parts nb y sx (0, 0, 0) Hn HC HX) as (c & v & s2 & t2 & d2 & HK & HD & Hs & Ht & _).
  exists c, v, s2, t2, d2. pose proof (least_nonneg _ _ _ _ _ HD). auto.
Qed.
Print Assumptions C83_defined.
(** So a satellite within one dispersion in both respects always sinks, one beyond two dispersions in any respect never does. *)
Theorem C83_bounds : forall (periodic : bool) (L : Q) (parts : list body) (nbound : nat) (y : body -> vec) (sx sv c v : vec) (s2 t2 d2 : Q),
  (1 <= nbound <= length parts)%nat -> let core := core_of nbound parts in
  compact periodic L core y -> boxed periodic L sx -> core_is core y c v s2 t2 -> least_distance2 periodic L c sx d2 ->
  (d2 < s2 -> gap2 v sv < t2 -> sinks_into periodic L parts nbound sx sv = true) /\
  (4 * s2 <= d2 -> sinks_into periodic L parts nbound sx sv = false) /\ (4 * t2 <= gap2 v sv -> sinks_into periodic L parts nbound sx sv = false).
Proof.
  intros periodic L parts nb y sx sv c v s2 t2 d2 Hn core HC HX HK HD. pose proof (criterion_ok periodic L parts nb y sx sv c v s2 t2 d2 Hn HC HX HK HD) as HI.
  pose proof (least_nonneg _ _ _ _ _ HD) as Pd. pose proof (gap2_nonneg v sv) as Pv. split; [|split].
  - intros H1 H2. apply HI. assert (Ps : 0 < s2) by Lqa.lra. assert (Pt : 0 < t2) by Lqa.lra. split; [exact Ps|]. split; [exact Pt|]. unfold phase_distance.
    pose proof (ratio_below d2 s2 1 ltac:(lia) Ps Pd ltac:(change (inject_Z 1) with 1; Lqa.lra)). pose proof (ratio_below (gap2 v sv) t2 1 ltac:(lia) Pt Pv ltac:(change (inject_Z 1) with 1; Lqa.lra)). lra.
  - intros H. apply not_true_is_false. intros E. apply HI in E as (Ps & Pt & E). unfold phase_distance in E.
    pose proof (ratio_above d2 s2 2 ltac:(lia) Ps ltac:(change (inject_Z 2) with 2; Lqa.lra)). pose proof (ratio_nonneg (Q2R (gap2 v sv)) (Q2R t2)). lra.
  - intros H. apply not_true_is_false. intros E. apply HI in E as (Ps & Pt & E). unfold phase_distance in E.
    pose proof (ratio_above (gap2 v sv) t2 2 ltac:(lia) Pt ltac:(change (inject_Z 2) with 2; Lqa.lra)). pose proof (ratio_nonneg (Q2R d2) (Q2R s2)). lra.
Qed.
Print Assumptions C83_bounds.
(** The decision is the same in any units of length, velocity and mass, after any shift of the periodic box, and in any frame
    moving at constant velocity. *)
Theorem C83_frames : forall (periodic : bool) (L k h mu : Q) (o w : vec) (parts parts' : list body) (nbound : nat) (y : body -> vec) (sx sv sx' sv' : vec),
  0 < k -> 0 < h -> 0 < mu -> (1 <= nbound <= length parts)%nat -> compact periodic L (core_of nbound parts) y -> boxed periodic L sx ->
  in_box periodic (k * L) (core_of nbound parts') -> boxed periodic (k * L) sx' ->
  Forall2 (moved_body periodic L k h mu o w) parts parts' -> moved periodic L k h o w sx sv sx' sv' ->
  sinks_into periodic (k * L) parts' nbound sx' sv' = sinks_into periodic L parts nbound sx sv.
Proof. exact frames_ok. Qed.
Print Assumptions C83_frames.
(** Hence DetectTraps (C39, with this criterion) makes a subhalo sink into the nearest resolved subhalo above it in the nest whose
    core it is close to. *)
Theorem C83_sinking : forall (R : Type) (periodic : bool) (L : Q) (mb_pos mb_vel : R -> vec) (subs : list (sub body R)) (heads : list (list nat)),
  (forall u, In u subs -> (s_nbound u <= length (s_parts u))%nat /\ boxed periodic L (mb_pos (s_rest u)) /\
     ((1 < s_nbound u)%nat -> exists y, compact periodic L (core_of (s_nbound u) (map snd (s_parts u))) y)) ->
  forall i k, sinks_to (sink_near periodic L mb_pos mb_vel) heads subs i k <-> captured_by periodic L mb_pos mb_vel (inside heads subs) subs i k.
Proof. intros R periodic L mp mv subs heads H i k. apply sinks_ok. exact H. Qed.
Print Assumptions C83_sinking.
(** Two particles on both sides of the border: centre (-1/3, 2, 19/3), dispersions 40/9 and 4.  A satellite at (1, 2, 7) with
    velocity (4, 0, 3) sinks, one with velocity (7, 0, 2) does not. *)
Definition c83_parts := [mkbody (97, 2, 5) (1, 0, 0) 1; mkbody (1, 2, 7) (4, 0, 3) 2].
Definition c83_y (p : body) : vec := let '(x0, x1, x2) := b_x p in ((if Qle_bool 50 x0 then x0 - 100 else x0), x1, x2).
Lemma c83_compact : compact true 100 (core_of 2 c83_parts) c83_y.
Proof.
  split; [split; [intros p [<-|[<-|[]]]; discriminate|reflexivity]|]. split.
  - intros _. split; [reflexivity|]. intros p j [<-|[<-|[]]]; destruct j as [|[|?]]; cbn; split; discriminate.
  - split.
    + intros p j [<-|[<-|[]]]; destruct j as [|[|?]]; cbn; [exists (-1)%Z|exists 0%Z|exists 0%Z|exists 0%Z|exists 0%Z|exists 0%Z]; reflexivity.
    + intros p q j [<-|[<-|[]]] [<-|[<-|[]]]; destruct j as [|[|?]]; cbn; split; reflexivity.
Qed.
Example C83_witness : compact true 100 (core_of 2 c83_parts) c83_y /\ boxed true 100 (1, 2, 7) /\ core_is (core_of 2 c83_parts) c83_y (- 1 # 3, 2, 19 # 3) (3, 0, 2) (40 # 9) 4 /\
  least_distance2 true 100 (- 1 # 3, 2, 19 # 3) (1, 2, 7) (20 # 9) /\
  sinks_into true 100 c83_parts 2 (1, 2, 7) (4, 0, 3) = true /\ sinks_into true 100 c83_parts 2 (1, 2, 7) (7, 0, 2) = false /\
  sinks_into true 200 (map (fun p => mkbody (times 2 (b_x p)) (times 3 (b_v p)) (5 * b_m p)) c83_parts) 2 (2, 4, 14) (12, 0, 9) = true.
Proof.
  split; [exact c83_compact|]. split; [intros _; split; [reflexivity|intros [|[|?]]; cbn; split; discriminate]|]. split; [|split].
  - split; [intros [|[|?]]; reflexivity|intros [|[|?]]; reflexivity|reflexivity|reflexivity].
  - assert (H : least_distance2 true 100 (- 1 # 3, 2, 19 # 3) (1, 2, 7) (periodic_distance2 true 100 (- 1 # 3, 2, 19 # 3) (1, 2, 7))).
    { apply distance_least. intros _. split; [reflexivity|]. intros [|[|?]]; cbn; split; discriminate. }
    destruct H as [(e0 & e1 & e2 & H0 & H1 & H2 & E) HL]. split; [exists e0, e1, e2; repeat split; try assumption; rewrite <- E; reflexivity|].
    intros f0 f1 f2 F0 F1 F2. eapply Qle_trans; [|apply HL; assumption]. discriminate.
  - repeat split; vm_compute; reflexivity.
Qed.
(** Not even a satellite at the very centre of a core sinks if the particles of the core have equal velocities (or positions): the
    distance is 0/0. *)
Theorem C83_cold_core_refuted : exists (parts : list body) (nbound : nat) (y : body -> vec) (c v : vec) (s2 t2 : Q),
  (2 <= nbound <= length parts)%nat /\ compact true 100 (core_of nbound parts) y /\ core_is (core_of nbound parts) y c v s2 t2 /\ boxed true 100 c /\
  sinks_into true 100 parts nbound c v = false.
Proof.
  exists [mkbody (7, 2, 5) (1, 0, 0) 1; mkbody (1, 2, 7) (1, 0, 0) 1], 2%nat, b_x, (4, 2, 6), (1, 0, 0), 10, 0. split; [cbn; lia|]. split; [|split; [|split]].
  - split; [split; [intros p [<-|[<-|[]]]; discriminate|reflexivity]|]. split.
    + intros _. split; [reflexivity|]. intros p j [<-|[<-|[]]]; destruct j as [|[|?]]; cbn; split; discriminate.
    + split.
      * intros p j [<-|[<-|[]]]; destruct j as [|[|?]]; cbn; exists 0%Z; reflexivity.
      * intros p q j [<-|[<-|[]]] [<-|[<-|[]]]; destruct j as [|[|?]]; cbn; split; reflexivity.
  - split; [intros [|[|?]]; reflexivity|intros [|[|?]]; reflexivity|reflexivity|reflexivity].
  - intros _. split; [reflexivity|]. intros [|[|?]]; cbn; split; discriminate.
  - vm_compute. reflexivity.
Qed.
Print Assumptions C83_cold_core_refuted.

(** * C84: the kinetic distance *)
(** KineticDistance is the relative velocity including the expansion along the shortest way. *)
Theorem C84_kinetic_distance : forall (periodic : bool) (L hz a : Q) (xv xv0 : vec * vec),
  (periodic = true -> 0 < L /\ forall j, near_range L (coord j (fst xv)) (coord j (fst xv0))) ->
  0 <= kinetic2 periodic L hz a xv xv0 /\ expansion_velocity2 periodic L hz a xv xv0 (kinetic2 periodic L hz a xv xv0).
Proof. intros periodic L hz a xv xv0 H. split; [rewrite kinetic_gap; apply gap2_nonneg|apply kinetic_ok; exact H]. Qed.
Print Assumptions C84_kinetic_distance.
(** It is proportional to the unit of velocity and otherwise independent of units, of the origin of the box and of a common
    velocity, except for objects exactly half a box apart along an axis. *)
Theorem C84_frames : forall (periodic : bool) (L k h hz hz' a : Q) (o w : vec) (xv xv0 xv' xv0' : vec * vec),
  0 < k -> hz' * k == h * hz ->
  (periodic = true -> 0 < L /\ forall j, near_range L (coord j (fst xv)) (coord j (fst xv0)) /\ near_range (k * L) (coord j (fst xv')) (coord j (fst xv0')) /\
     ~ same_image L (coord j (fst xv)) (coord j (fst xv0) + (1 # 2) * L)) ->
  moved periodic L k h o w (fst xv) (snd xv) (fst xv') (snd xv') -> moved periodic L k h o w (fst xv0) (snd xv0) (fst xv0') (snd xv0') ->
  kinetic2 periodic (k * L) hz' a xv' xv0' == h * h * kinetic2 periodic L hz a xv xv0.
Proof.
  intros periodic L k h hz hz' a o w xv xv0 xv' xv0' Hk Hz HN HM HM0.
  assert (Hk0 : ~ k == 0) by (intros F; rewrite F in Hk; discriminate Hk).
  assert (HE : forall j, coord j (apart periodic (k * L) (fst xv') (fst xv0')) == k * coord j (apart periodic L (fst xv) (fst xv0))).
  { intros j. destruct (HM j) as [X _]. destruct (HM0 j) as [X0 _].
    assert (H1 : least_offset periodic L (coord j (fst xv)) (coord j (fst xv0)) (coord j (apart periodic L (fst xv) (fst xv0)))) by (apply apart_least; intros E; destruct (HN E) as [HL Hj]; split; [exact HL|apply Hj]).
    assert (H2 : least_offset periodic (k * L) (coord j (fst xv')) (coord j (fst xv0')) (coord j (apart periodic (k * L) (fst xv') (fst xv0')))).
    { apply apart_least. intros E. destruct (HN E) as [HL Hj]. split; [apply Qmult_lt_0_compat; assumption|apply Hj]. }
    assert (H3 : least_offset periodic L (coord j (fst xv)) (coord j (fst xv0)) (coord j (apart periodic (k * L) (fst xv') (fst xv0')) / k)).
    { unfold least_offset, at_image in *. destruct periodic; [|rewrite H2, X, X0; field; exact Hk0]. destruct X as [n Hn]. destruct X0 as [m Hm]. destruct H2 as [[q Hq] H2]. split.
      - exists (q + n - m)%Z. unfold Zminus. rewrite !inject_Z_plus, inject_Z_opp, Hq, Hn, Hm. field. exact Hk0.
      - intros e' [r Hr]. assert (S : same_image (k * L) (k * e') (coord j (fst xv') - coord j (fst xv0'))).
        { exists (r - n + m)%Z. unfold Zminus. rewrite !inject_Z_plus, inject_Z_opp, Hr, Hn, Hm. ring. }
        apply H2 in S. set (b := coord j (apart true (k * L) (fst xv') (fst xv0'))) in *. clearbody b. assert (EQ : b * b == k * k * (b / k * (b / k))) by (field; exact Hk0). rewrite EQ in S.
        assert (Kk : 0 < k * k) by (apply Qmult_lt_0_compat; exact Hk). apply (Qmult_le_l _ _ (k * k) Kk). Lqa.lra. }
    assert (EQ := offset_unique _ _ _ _ _ _ H1 H3). rewrite EQ; [field; exact Hk0|]. intros E. destruct (HN E) as [HL Hj]. split; [exact HL|]. intros F. destruct (Hj j) as (_ & _ & Hj3). apply Hj3.
    subst periodic. destruct H1 as [[n Hn] _]. set (e := coord j (apart true L (fst xv) (fst xv0))) in *. clearbody e.
    assert (G : (e - (1 # 2) * L) * (e + (1 # 2) * L) == 0) by Lqa.lra. apply Qmult_integral in G as [G|G].
    - exists (- n)%Z. rewrite inject_Z_opp. Lqa.lra.
    - exists (- n - 1)%Z. unfold Zminus. rewrite inject_Z_plus, !inject_Z_opp. change (inject_Z 1) with 1. Lqa.lra. }
  rewrite !kinetic_gap. unfold gap2. rewrite !coord_vmap2, !coord_vmap, !HE, !(fun j => proj2 (HM j)), !(fun j => proj2 (HM0 j)).
  assert (ES : forall t, hz' * a * (k * t) == h * (hz * a * t)) by (intros t; setoid_replace (hz' * a * (k * t)) with (hz' * k * (a * t)) by ring; rewrite Hz; ring).
  rewrite !ES. ring.
Qed.
Print Assumptions C84_frames.
(** DecideCentrals with this distance (C23): the central is the member above the mass limit whose relative velocity to the halo is
    smallest. *)
Theorem C84_central : forall (X R H : Type) (sort : list nat -> list nat) (ratio : Q) (periodic : bool) (L hz a : Q) (of_sub : R -> vec * vec) (of_halo : H -> vec * vec)
    (subs : list (sub X R)) (halos : list (list (Z * X) * H)),
  Forall (fun s => (-1 <= s_host s < Z.of_nat (length halos))%Z) subs -> sorts_by_mass subs sort -> Forall (fun s => 0 <= s_mass s) subs -> ratio <= 1 ->
  (periodic = true -> 0 < L /\ forall s ph j, In s subs -> In ph halos -> near_range L (coord j (fst (of_sub (s_rest s)))) (coord j (fst (of_halo (snd ph))))) ->
  exists table0 table, build_table sort true (length halos) subs = Some table0 /\
    decide_centrals ratio (kinetic_dist periodic L hz a of_sub of_halo) subs (map snd halos) table0 = Some table /\
    forall g hp h, nth_error halos g = Some (hp, h) -> (exists i, hosted_by subs i (Z.of_nat g)) ->
      exists c rest sc rc, nth_error table (S g) = Some (c :: rest) /\ nth_error subs c = Some sc /\ s_host sc = Z.of_nat g /\
        expansion_velocity2 periodic L hz a (of_sub (s_rest sc)) (of_halo h) rc /\
        exists top, (exists t, hosted_by subs t (Z.of_nat g) /\ nth_error subs t = Some top) /\ (forall i s, nth_error subs i = Some s -> s_host s = Z.of_nat g -> s_mass s <= s_mass top) /\
          s_mass top * ratio <= s_mass sc /\
          forall i s, nth_error subs i = Some s -> s_host s = Z.of_nat g -> s_mass top * ratio <= s_mass s ->
            exists r, expansion_velocity2 periodic L hz a (of_sub (s_rest s)) (of_halo h) r /\ (sqrt (Q2R rc) <= sqrt (Q2R r))%R.
Proof.
  intros X R H sort ratio periodic L hz a os oh subs halos H1 H2 H3 H4 HN.
  destruct (C23_central_is_best X R H sort ratio (kinetic_dist periodic L hz a os oh) subs halos H1 H2 H3 H4) as (t0 & t & HB & HD & _ & HC). exists t0, t. split; [exact HB|]. split; [exact HD|].
  intros g hp h Hh Hi. destruct (HC g hp h Hh Hi) as (c & rest & Ht & sc & Hsc & Hhc & top & Htop & Hmax & Hlim & Hmin).
  assert (HE : forall s, In s subs -> expansion_velocity2 periodic L hz a (os (s_rest s)) (oh h) (kinetic_dist periodic L hz a os oh s h)).
  { intros s Hs. apply kinetic_ok. intros E. destruct (HN E) as [HL Hr]. split; [exact HL|]. intros j. apply (Hr s (hp, h) j Hs). eapply nth_error_In, Hh. }
  exists c, rest, sc, (kinetic_dist periodic L hz a os oh sc h). split; [exact Ht|]. split; [exact Hsc|]. split; [exact Hhc|]. split; [apply HE; eapply nth_error_In, Hsc|].
  exists top. split; [exact Htop|]. split; [exact Hmax|]. split; [exact Hlim|]. intros i s Hs Hg Hm. exists (kinetic_dist periodic L hz a os oh s h). split; [apply HE; eapply nth_error_In, Hs|].
  apply sqrt_le_1_alt, Qle_Rle. eapply Hmin; eassumption.
Qed.
Print Assumptions C84_central.
(** A subhalo beyond the border, 3 from its halo, moving away at 1 with an expansion of 1/2 per unit; the same in other units,
    shifted by 10 in a frame moving at 5. *)
Example C84_witness : (forall j, near_range 100 (coord j (98, 0, 0)) (coord j (1, 0, 0))) /\ (forall j, ~ same_image 100 (coord j (98, 0, 0)) (coord j (1, 0, 0) + (1 # 2) * 100)) /\
  kinetic2 true 100 (1 # 2) 1 ((98, 0, 0), (0, 0, 0)) ((1, 0, 0), (1, 0, 0)) == (25 # 4) /\
  moved true 100 2 3 (10, 0, 0) (5, 0, 0) (98, 0, 0) (0, 0, 0) (6, 0, 0) (5, 0, 0) /\ moved true 100 2 3 (10, 0, 0) (5, 0, 0) (1, 0, 0) (1, 0, 0) (12, 0, 0) (8, 0, 0) /\
  kinetic2 true 200 (3 # 4) 1 ((6, 0, 0), (5, 0, 0)) ((12, 0, 0), (8, 0, 0)) == 9 * (25 # 4).
Proof.
  split; [intros [|[|?]]; cbn; split; discriminate|]. split.
  { intros j [z Hz]. assert (C : inject_Z 47 == inject_Z (z * 100) \/ inject_Z (- 50) == inject_Z (z * 100)) by (rewrite inject_Z_mult; change (inject_Z 47) with 47; change (inject_Z (- 50)) with (- (50)); change (inject_Z 100) with 100; destruct j as [|[|?]]; cbn [coord] in Hz; [left|right|right]; Lqa.lra).
    destruct C as [C|C]; apply (proj1 (inject_Z_injective _ _)) in C; lia. }
  split; [reflexivity|]. split; [|split; [|reflexivity]].
  - intros [|[|?]]; cbn; (split; [|reflexivity]); [exists (-1)%Z|exists 0%Z|exists 0%Z]; reflexivity.
  - intros [|[|?]]; cbn; (split; [|reflexivity]); exists 0%Z; reflexivity.
Qed.
(** Exactly half a box apart the distance depends on where the border is: the same pair, shifted by half a box. *)
Theorem C84_half_box_refuted : exists (xv xv0 xv' xv0' : vec * vec), in_domain 100 (fst xv) /\ in_domain 100 (fst xv0) /\ in_domain 100 (fst xv') /\ in_domain 100 (fst xv0') /\
  moved true 100 1 1 (50, 0, 0) (0, 0, 0) (fst xv) (snd xv) (fst xv') (snd xv') /\ moved true 100 1 1 (50, 0, 0) (0, 0, 0) (fst xv0) (snd xv0) (fst xv0') (snd xv0') /\
  ~ kinetic2 true 100 1 1 xv' xv0' == kinetic2 true 100 1 1 xv xv0.
Proof.
  exists ((20, 0, 0), (1, 0, 0)), ((70, 0, 0), (0, 0, 0)), ((70, 0, 0), (1, 0, 0)), ((20, 0, 0), (0, 0, 0)).
  split; [intros [|[|?]]; cbn; split; discriminate|]. split; [intros [|[|?]]; cbn; split; discriminate|]. split; [intros [|[|?]]; cbn; split; discriminate|]. split; [intros [|[|?]]; cbn; split; discriminate|].
  split; [|split].
  - intros [|[|?]]; cbn; (split; [|reflexivity]); exists 0%Z; reflexivity.
  - intros [|[|?]]; cbn; (split; [|reflexivity]); [exists (-1)%Z|exists 0%Z|exists 0%Z]; reflexivity.
  - vm_compute. discriminate.
Qed.
Print Assumptions C84_half_box_refuted.
