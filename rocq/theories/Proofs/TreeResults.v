(** Potentials and searches on the finished trees. *)
From Coq Require Import List ZArith QArith Qabs Qfield Bool Lia Lqa Sorting.Permutation.
From Verif.Model Require Import ListMem Run Mymath Tree.
From Verif.Spec Require Import Basic Octree.
From Verif.Proofs Require Import ListMemProofs ListExtra MymathProofs2 OctProofs TreeInsert TreeBuild TreeWalk TreeFinal.
Import ListNotations.
Local Open Scope nat_scope.

Lemma fold_total {A} (f : A -> Q) l : forall s, (fold_left (fun p i => p + f i) l s == s + fold_right (fun i a => f i + a) 0 l)%Q.
Proof. induction l as [|x l IH]; intros s; cbn [fold_left fold_right]; [ring|]. rewrite IH. ring. Qed.
Lemma total_ext f g l : (forall i, In i l -> (f i == g i)%Q) -> (total f l == total g l)%Q.
Proof. induction l as [|x l IH]; intros H; cbn [total fold_right]; [reflexivity|]. fold (total f l). fold (total g l). rewrite IH by (intros i Hi; apply H; right; exact Hi). rewrite (H x) by (left; reflexivity). reflexivity. Qed.
Lemma group_sum_app m r2 kernel a b : (group_sum m r2 kernel (a ++ b) == group_sum m r2 kernel a + group_sum m r2 kernel b)%Q.
Proof. induction a as [|x a IH]; cbn [app group_sum fold_right]; [unfold group_sum; ring|]. fold (group_sum m r2 kernel (a ++ b)). fold (group_sum m r2 kernel a). rewrite IH. ring. Qed.

Lemma position_nth ps i x : nth_error ps i = Some x -> position ps (Z.of_nat i) = x.
Proof. intros H. unfold position. rewrite zget_nat by lia. rewrite Nat2Z.id, H. reflexivity. Qed.

Lemma extents_domain L l : forall mm, in_domain L (fst mm) -> in_domain L (snd mm) -> Forall (in_domain L) l ->
  let mm' := fold_left (fun mm x => extent x mm) l mm in in_domain L (fst mm') /\ in_domain L (snd mm').
Proof.
  induction l as [|x l IH]; intros mm H1 H2 HF; cbn [fold_left]; [split; assumption|]. inversion HF as [|? ? Hx HF']; subst.
  apply IH; [| |exact HF'].
  - intros j. specialize (H1 j). specialize (Hx j). destruct mm as [[[m0 m1] m2] M], x as [[x0 x1] x2]. cbn [fst extent] in *. unfold vmap2.
    destruct j as [|[|j]]; cbn [coord] in *; match goal with |- context [if ?c then _ else _] => destruct c end; lra.
  - intros j. specialize (H2 j). specialize (Hx j). destruct mm as [m [[m0 m1] m2]], x as [[x0 x1] x2]. cbn [snd extent] in *. unfold vmap2.
    destruct j as [|[|j]]; cbn [coord] in *; match goal with |- context [if ?c then _ else _] => destruct c end; lra.
Qed.
Lemma cube_domain L ps c len : Forall (in_domain L) ps -> cube ps = Some (c, len) -> (len <= L)%Q.
Proof.
  destruct ps as [|x r]; [discriminate|]. intros HF. inversion HF as [|? ? Hx HF']; subst. unfold cube. pose proof (extents_domain L r (x, x) Hx Hx HF') as HD.
  destruct (fold_left (fun mm x => extent x mm) r (x, x)) as [mn mx]. cbn [fst snd] in HD. destruct HD as [D1 D2]. intros E. injection E as _ <-.
  pose proof (D1 0) as A0. pose proof (D1 1) as A1. pose proof (D1 2) as A2. pose proof (D2 0) as B0. pose proof (D2 1) as B1. pose proof (D2 2) as B2.
  destruct mn as [[m0 m1] m2], mx as [[M0 M1] M2]. cbn [coord] in *. unfold max_side, vmap2.
  destruct (Qgtb (M1 - m1) (M0 - m0)); [destruct (Qgtb (M2 - m2) (M1 - m1))|destruct (Qgtb (M2 - m2) (M0 - m0))]; lra.
Qed.

Section Results.
  Variable ps : list vec.
  Local Notation n := (length ps).
  Local Notation N := (Z.of_nat (length ps)).
  Variable res : Q.
  Variables (periodic : bool) (L : Q).
  Local Notation pos := (position ps).

  Lemma geo_len k b : (0 <= snd b)%Q -> (0 <= snd (geo_box res k b) <= snd b)%Q.
  Proof. intros H. unfold geo_box. destruct (Qle_bool res (snd b)); [cbn [snd]; rewrite half_field; lra|lra]. Qed.
  Lemma fits_spans t b : (0 <= snd b)%Q -> fits ps res b t -> spans pos (map Z.of_nat (leaves t)) (snd b).
  Proof.
    intros Hb HF i k j Hi Hk. apply in_map_iff in Hi as (i0 & <- & Hi). apply in_map_iff in Hk as (k0 & <- & Hk).
    destruct (fits_leaves ps res t b Hb HF i0 Hi) as (x & Ex & Bx). destruct (fits_leaves ps res t b Hb HF k0 Hk) as (y & Ey & By).
    rewrite (position_nth _ _ _ Ex), (position_nth _ _ _ Ey). specialize (Bx j). specialize (By j). rewrite half_field in Bx, By. lra.
  Qed.

  Section Potential.
    Variable pmass : Z -> Q.
    Variable kernel : Q -> Q.
    Variables (soft angle2 : Q).
    Variable x : vec.
    Local Notation d2 := (fun c => norm2 (apart periodic L c x)).
    Local Notation gpay := (pay (0%Q, (0, 0, 0)%Q) (grav_part ps pmass) grav_cell grav_finish (grav_box res)).
    Local Notation gthr := (thr ps (0%Q, (0, 0, 0)%Q) (grav_part ps pmass) grav_cell grav_finish (grav_box res)).
    Local Notation gitems := (items (0%Q, (0, 0, 0)%Q) (grav_part ps pmass) grav_cell grav_finish (grav_box res) (grav_opens periodic L angle2 x)).
    Local Notation contrib st := (grav_item ps periodic L pmass kernel st x).

    Lemma groups_ok st (Hst : length (snd st) = n) t : full t -> t <> OEmpty -> (forall i, In i (leaves t) -> (0 < pmass (Z.of_nat i))%Q) ->
      forall b c next, snd c = snd b -> (0 <= snd b)%Q -> fits ps res c t -> gthr st t next b ->
      exists gs, (total (contrib st) (gitems t b) == group_sum pmass d2 kernel gs)%Q /\ concat (map snd gs) = map Z.of_nat (leaves t) /\ Forall (group pos pmass d2 angle2) gs.
    Proof.
      induction t as [|i|id sons IH]; intros HF Hne Hm b c next Hc Hb Hfits HT; [congruence| |].
      - exists [(pos (Z.of_nat i), [Z.of_nat i])]. split; [|split].
        + cbn [items total group_sum fold_right fst snd]. unfold grav_item. cbn [thr] in HT. apply zget_some in HT. destruct (Z.ltb_spec (Z.of_nat i) N); [|lia]. rewrite !Qplus_0_r. reflexivity.
        + reflexivity.
        + constructor; [|constructor]. left. exists (Z.of_nat i). split; reflexivity.
      - pose proof HT as HT0. rewrite thr_cell in HT. destruct HT as [H1 H2]. cbn [items]. destruct (grav_opens periodic L angle2 x (snd b) (gpay (OCell id sons) b)) eqn:Eo.
        + cbn [leaves]. rewrite <- (flat_kids leaves) by reflexivity.
          assert (G : forall ks, (forall k, In k ks -> k < 8 /\ sons k <> OEmpty) -> thrs ps (0%Q, (0, 0, 0)%Q) (grav_part ps pmass) grav_cell grav_finish (grav_box res) st sons next b ks ->
            exists gs, (total (contrib st) (flat_map (fun k => gitems (sons k) (grav_box res k b)) ks) == group_sum pmass d2 kernel gs)%Q /\
              concat (map snd gs) = map Z.of_nat (flat_map (fun k => leaves (sons k)) ks) /\ Forall (group pos pmass d2 angle2) gs).
          { induction ks as [|k ks IHk]; intros Hks HTs; [exists []; split; [reflexivity|]; split; [reflexivity|constructor]|].
            destruct (Hks k (or_introl eq_refl)) as [Hk Hkne]. cbn [thrs] in HTs. destruct HTs as [T1 T2].
            assert (Hmk : forall i, In i (leaves (sons k)) -> (0 < pmass (Z.of_nat i))%Q). { intros i Hi. apply Hm. cbn [leaves]. apply in_flat_map. exists k. split; [apply in8; exact Hk|exact Hi]. }
            destruct (IH k (proj2 HF k Hk) Hkne Hmk (grav_box res k b) (geo_box res k c) (first sons ks next) (eq_sym (snd_boxes res k b c (eq_sym Hc)))) as (g1 & A1 & B1 & C1).
            { rewrite (snd_boxes res k b c (eq_sym Hc)). apply geo_len. rewrite Hc. exact Hb. }
            { apply Hfits. exact Hk. }
            { exact T1. }
            destruct (IHk (fun j Hj => Hks j (or_intror Hj)) T2) as (g2 & A2 & B2 & C2). exists (g1 ++ g2). cbn [flat_map]. split; [|split].
            - rewrite total_app, group_sum_app, A1, A2. reflexivity.
            - rewrite map_app, concat_app, B1, B2, map_app. reflexivity.
            - apply Forall_app. split; assumption. }
          apply G; [intros k; apply kids_in|exact H2].
        + pose proof (grav_pay_ok ps res pmass (OCell id sons) HF Hne Hm b) as [P1 P2].
          exists [(fst (gpay (OCell id sons) b), map Z.of_nat (leaves (OCell id sons)))]. split; [|split].
          * cbn [total group_sum fold_right fst snd]. unfold grav_item. apply zget_some in H1 as Hr. destruct (Z.ltb_spec id N); [lia|]. rewrite H1. rewrite !Qplus_0_r, P1. reflexivity.
          * cbn [map snd concat]. apply app_nil_r.
          * constructor; [|constructor]. right. cbn [fst snd]. split; [exact P2|]. exists (snd b). split; [exact Hb|]. split.
            { rewrite <- Hc. apply fits_spans; [rewrite Hc; exact Hb|exact Hfits]. }
            { unfold grav_opens in Eo. apply Qgtb_false in Eo. exact Eo. }
    Qed.
    Lemma items_open t : (angle2 == 0)%Q -> forall b, (0 < snd b)%Q -> gitems t b = map Z.of_nat (leaves t).
    Proof.
      intros Ha. induction t as [|i|id sons IH]; intros b Hb; cbn [items leaves]; [reflexivity|reflexivity|].
      assert (Eo : grav_opens periodic L angle2 x (snd b) (gpay (OCell id sons) b) = true). { unfold grav_opens. apply Qgtb_spec. rewrite Ha. nra. }
      rewrite Eo. rewrite <- (flat_kids leaves) by reflexivity. generalize (kids sons). intros ks. induction ks as [|k ks IHk]; [reflexivity|]. cbn [flat_map]. rewrite IHk, map_app. f_equal.
      apply IH. unfold grav_box. cbn [snd]. destruct (Qle_bool res (snd b)); [rewrite half_field; lra|exact Hb].
    Qed.
  End Potential.

  (** *** Searching. *)
  Lemma apart_coord j a x : coord j (apart periodic L a x) = if periodic then nearest L (coord j a - coord j x) else (coord j a - coord j x)%Q.
  Proof. destruct a as [[a0 a1] a2], x as [[x0 x1] x2]. unfold apart, vmap, vmap2. destruct j as [|[|j]]; reflexivity. Qed.
  Lemma norm2_coord d : norm2 d = (coord 0 d * coord 0 d + coord 1 d * coord 1 d + coord 2 d * coord 2 d)%Q.
  Proof. destruct d as [[d0 d1] d2]. reflexivity. Qed.
  Lemma inside_range_spec r d : inside_range r d = true <-> forall j, (- r <= coord j d <= r)%Q.
  Proof.
    assert (G : forall q, negb (Qgtb q r || Qgtb (- r)%Q q) = true <-> (- r <= q <= r)%Q).
    { intros q. rewrite negb_true_iff, orb_false_iff, !Qgtb_false. tauto. }
    destruct d as [[d0 d1] d2]. cbn [inside_range]. rewrite !andb_true_iff, !G. split.
    - intros [[H0 H1] H2] j. destruct j as [|[|j]]; assumption.
    - intros H. split; [split|]; [apply (H 0)|apply (H 1)|apply (H 2)].
  Qed.
  (** Positions and the centre must be in the box if it is periodic. *)
  Definition domain (x : vec) : Prop := periodic = true -> in_domain L x.
  Lemma nearest_ge a p x : (0 < L)%Q -> near_range L a x -> near_range L a p -> near_range L p x -> (Qabs (nearest L (a - x)) <= Qabs (a - p) + Qabs (nearest L (p - x)))%Q.
  Proof.
    intros HL H1 H2 H3. pose proof (nearest_triangle L a p x HL H2 H3 H1). pose proof (nearest_le L a p (a - p) HL H2 (same_image_refl L (a - p))). lra.
  Qed.
  Lemma abs_range a r : (Qabs a <= r)%Q <-> (- r <= a <= r)%Q.
  Proof. apply Qabs_Qle_condition. Qed.

  Lemma far_cell b x p radius : (periodic = true -> 0 < L /\ snd b <= L)%Q -> domain x -> domain p -> inbox b p -> (0 <= radius)%Q ->
    inside_range (snd b / 2 + radius) (apart periodic L (fst b) x) = false -> (radius * radius <= norm2 (apart periodic L p x))%Q.
  Proof.
    intros HP Dx Dp Hb Hr Hf.
    destruct (Qlt_le_dec (norm2 (apart periodic L p x)) (radius * radius)) as [Hlt|]; [|assumption]. exfalso.
    assert (Hin : forall j, (- radius <= coord j (apart periodic L p x) <= radius)%Q).
    { intros j. rewrite norm2_coord in Hlt. set (d := apart periodic L p x) in *.
      assert (Hj : (coord j d * coord j d <= coord 0 d * coord 0 d + coord 1 d * coord 1 d + coord 2 d * coord 2 d)%Q).
      { destruct d as [[d0 d1] d2]. destruct j as [|[|j]]; cbn [coord]; nra. }
      split; nra. }
    assert (inside_range (snd b / 2 + radius) (apart periodic L (fst b) x) = true); [|congruence].
    apply inside_range_spec. intros j. rewrite apart_coord. specialize (Hin j). rewrite apart_coord in Hin. specialize (Hb j). rewrite half_field in *.
    unfold domain in Dx, Dp. destruct periodic; [|lra]. destruct (HP eq_refl) as [HL HbL]. specialize (Dx eq_refl j). specialize (Dp eq_refl j).
    set (a := coord j (fst b)) in *. set (q := coord j p) in *. set (y := coord j x) in *.
    apply abs_range. apply abs_range in Hin. apply abs_range in Hb. rewrite Qabs_Qminus in Hb.
    pose proof (nearest_ge a q y HL). assert ((Qabs (a - q) <= snd b * (1 # 2))%Q) as Hb2 by exact Hb. apply abs_range in Hb2.
    assert (Qabs (nearest L (a - y)) <= Qabs (a - q) + Qabs (nearest L (q - y)))%Q; [apply H; unfold near_range; lra|]. lra.
  Qed.

  Lemma item_far x radius i y : nth_error ps i = Some y -> (radius * radius <= norm2 (apart periodic L y x))%Q -> geo_item ps periodic L x radius (Z.of_nat i) = [].
  Proof.
    intros Hi Hfar. unfold geo_item. destruct (Z.of_nat i <? N)%Z; [|reflexivity]. rewrite (position_nth _ _ _ Hi).
    assert (E : Qgtb (radius * radius) (norm2 (apart periodic L y x)) = false) by (apply Qgtb_false; exact Hfar). rewrite E, andb_false_r. reflexivity.
  Qed.
  Local Notation geo_p := (pay 0%Z (fun _ a => (a + 1)%Z) (fun (w : vec * Z) a => (a + snd w)%Z) (fun a c => (c, a)) (geo_box res)).
  Local Notation geo_its x radius := (items 0%Z (fun _ a => (a + 1)%Z) (fun (w : vec * Z) a => (a + snd w)%Z) (fun a c => (c, a)) (geo_box res) (geo_opens periodic L x radius)).

  Lemma search_items x radius : (0 <= radius)%Q -> domain x -> Forall domain ps -> (periodic = true -> 0 < L)%Q -> forall t b, (0 <= snd b)%Q -> (periodic = true -> snd b <= L)%Q -> fits ps res b t ->
    (forall id, In id (cellids t) -> (N <= id)%Z) ->
    flat_map (geo_item ps periodic L x radius) (geo_its x radius t b) = flat_map (geo_item ps periodic L x radius) (map Z.of_nat (leaves t)).
  Proof.
    intros Hr Dx Dps HL t. induction t as [|i|id sons IH]; intros b Hb HbL HF HN; [reflexivity|reflexivity|].
    cbn [items]. destruct (geo_opens periodic L x radius (snd b) (geo_p (OCell id sons) b)) eqn:Eo.
    - cbn [leaves]. rewrite <- (flat_kids leaves) by reflexivity.
      assert (G : forall ks, (forall k, In k ks -> k < 8) -> flat_map (geo_item ps periodic L x radius) (flat_map (fun k => geo_its x radius (sons k) (geo_box res k b)) ks) =
        flat_map (geo_item ps periodic L x radius) (map Z.of_nat (flat_map (fun k => leaves (sons k)) ks))).
      { induction ks as [|k ks IHk]; intros Hks; [reflexivity|]. assert (Hk : k < 8) by (apply Hks; left; reflexivity).
        cbn [flat_map]. rewrite flat_map_app, map_app, flat_map_app. rewrite IHk by (intros j Hj; apply Hks; right; exact Hj). f_equal.
        pose proof (geo_len k b Hb) as Hlen. apply IH; [apply Hlen|intros Hp; specialize (HbL Hp); lra|apply HF; exact Hk|].
        intros id' Hin. apply HN. cbn [cellids]. right. apply in_flat_map. exists k. split; [apply in8; exact Hk|exact Hin]. }
      apply G. intros k Hk. apply kids_in in Hk. apply Hk.
    - cbn [flat_map]. unfold geo_item at 1. pose proof (HN id (or_introl eq_refl)). destruct (Z.ltb_spec id N); [lia|]. cbn [app]. symmetry.
      pose proof (fits_leaves ps res (OCell id sons) b Hb HF) as HFL. unfold geo_opens in Eo. rewrite (geo_pay_ok res (OCell id sons) b) in Eo. cbn [fst] in Eo.
      revert HFL. generalize (leaves (OCell id sons)). intros l. induction l as [|i l IHl]; intros HFL; [reflexivity|]. cbn [map flat_map].
      destruct (HFL i (or_introl eq_refl)) as (y & Ey & By). rewrite (item_far x radius i y Ey); [apply IHl; intros j Hj; apply HFL; right; exact Hj|].
      apply (far_cell b x y radius); auto. rewrite Forall_forall in Dps. apply Dps. apply (nth_error_In _ _ Ey).
  Qed.

  Lemma apart_least a x : domain a -> domain x -> (periodic = true -> 0 < L)%Q -> least_distance2 periodic L a x (norm2 (apart periodic L a x)).
  Proof.
    intros Da Dx HL. unfold least_distance2, domain in *. rewrite norm2_coord, !apart_coord. destruct periodic.
    - specialize (HL eq_refl). assert (R : forall j, near_range L (coord j a) (coord j x)). { intros j. specialize (Da eq_refl j). specialize (Dx eq_refl j). unfold near_range. lra. }
      split.
      + exists (nearest L (coord 0 a - coord 0 x)), (nearest L (coord 1 a - coord 1 x)), (nearest L (coord 2 a - coord 2 x)).
        split; [apply nearest_spec; auto; apply R|]. split; [apply nearest_spec; auto; apply R|]. split; [apply nearest_spec; auto; apply R|reflexivity].
      + intros e0 e1 e2 E0 E1 E2. pose proof (Qabs_sq _ _ (nearest_le L _ _ e0 HL (R 0) E0)). pose proof (Qabs_sq _ _ (nearest_le L _ _ e1 HL (R 1) E1)). pose proof (Qabs_sq _ _ (nearest_le L _ _ e2 HL (R 2) E2)). lra.
    - split; [do 3 eexists; repeat split; reflexivity|]. intros e0 e1 e2 E0 E1 E2. rewrite E0, E1, E2. apply Qle_refl.
  Qed.
  Lemma least_unique a x r r' : least_distance2 periodic L a x r -> least_distance2 periodic L a x r' -> (r == r')%Q.
  Proof.
    intros [(e0 & e1 & e2 & A0 & A1 & A2 & A3) A4] [(f0 & f1 & f2 & B0 & B1 & B2 & B3) B4].
    specialize (A4 f0 f1 f2 B0 B1 B2). specialize (B4 e0 e1 e2 A0 A1 A2). lra.
  Qed.

  Definition within_radius (x : vec) (radius : Q) (i : Z) : Prop :=
    (0 <= i < N)%Z /\ exists r2, least_distance2 periodic L (pos i) x r2 /\ (r2 < radius * radius)%Q.
  Lemma item_spec x radius i : (0 <= radius)%Q -> domain x -> Forall domain ps -> (periodic = true -> 0 < L)%Q -> (0 <= i < N)%Z ->
    forall p, In p (geo_item ps periodic L x radius i) <-> within_radius x radius i /\ p = (i, norm2 (apart periodic L (pos i) x)).
  Proof.
    intros Hr Dx Dps HL Hi p. assert (Dp : domain (pos i)).
    { unfold position. destruct (zget_in_range ps i Hi) as [y Ey]. rewrite Ey. rewrite Forall_forall in Dps. apply Dps. rewrite zget_nat in Ey by lia. apply (nth_error_In _ _ Ey). }
    pose proof (apart_least (pos i) x Dp Dx HL) as HA. unfold geo_item. destruct (Z.ltb_spec i N); [|lia].
    destruct (inside_range radius (apart periodic L (pos i) x) && Qgtb (radius * radius) (norm2 (apart periodic L (pos i) x))) eqn:E.
    - apply andb_true_iff in E as [_ E]. apply Qgtb_spec in E. split.
      + intros [<-|[]]. split; [|reflexivity]. split; [exact Hi|]. eauto.
      + intros [_ ->]. left. reflexivity.
    - split; [intros []|]. intros [(_ & r2 & HA' & Hlt) _]. exfalso. rewrite (least_unique _ _ _ _ HA' HA) in Hlt.
      apply andb_false_iff in E as [E|E]; [|apply Qgtb_false in E; lra].
      assert (inside_range radius (apart periodic L (pos i) x) = true); [|congruence]. apply inside_range_spec. intros j. rewrite norm2_coord in Hlt.
      destruct (apart periodic L (pos i) x) as [[d0 d1] d2]. destruct j as [|[|j]]; cbn [coord] in *; split; nra.
  Qed.
End Results.
