(** UpdateTracks with INCLUSIVE_MASS: UpdateTracks without it, but for the order of the particles of each subhalo and its
    position and velocity. *)
From Coq Require Import List ZArith QArith Bool Lia Sorting.Permutation.
From Verif.Model Require Import ListMem Mpi Run Hash Subhalo Tracks Nest UpdateTracks UpdateInclusive.
From Verif.Model Require Purge.
From Verif.Spec Require Import Forest Nesting NestHistory Members Reporting Masking Leading.
From Verif.Spec Require Purge.
From Verif.Proofs Require Import ListMemProofs MpiProofs ListExtra MemberProofs TrackProofs TreeProofs NestProofs NestProofs2 NestProofs3 NestProofs4 NestProofs5 LocalizeProofs ForestSteps HistorySteps HistorySteps2 ReachProofs HistoryProofs NestFinal ReportProofs PurgeProofs.
Import ListNotations.
Local Open Scope Z_scope.

Lemma mapM_rel {A B} (Ra : A -> A -> Prop) (Rb : B -> B -> Prop) (f f' : A -> option B) l l' : Forall2 Ra l l' ->
  (forall a a' b, Ra a a' -> f a = Some b -> exists b', f' a' = Some b' /\ Rb b b') -> forall m, mapM f l = Some m -> exists m', mapM f' l' = Some m' /\ Forall2 Rb m m'.
Proof.
  intros HF Hf. induction HF as [|a a' l l' Ha HF IH]; intros m E; cbn [mapM] in E.
  - injection E as <-. exists []. split; [reflexivity|constructor].
  - destruct (f a) as [b|] eqn:Eb; [|discriminate]. destruct (mapM f l) as [m0|]; [|discriminate]. injection E as <-.
    destruct (Hf _ _ _ Ha Eb) as (b' & Eb' & Rbb). destruct (IH _ eq_refl) as (m' & Em' & HFm). exists (b' :: m'). cbn [mapM]. rewrite Eb', Em'. split; [reflexivity|constructor; assumption].
Qed.
Lemma concat_permuted {A} (l l' : list (list A)) : Permutation l l' -> Permutation (concat l) (concat l').
Proof.
  induction 1 as [|x l l' _ IH|x y l|l1 l2 l3 _ IH1 _ IH2]; cbn; [constructor|apply Permutation_app_head, IH| |etransitivity; eauto].
  rewrite !app_assoc. apply Permutation_app_tail, Permutation_app_comm.
Qed.
Lemma picked {A} (t : list A) order : Permutation order (seq 0 (length t)) -> exists l, mapM (nth_error t) order = Some l /\ Permutation t l.
Proof.
  intros HP. assert (E : forall l pre, t = pre ++ l -> mapM (nth_error t) (seq (length pre) (length l)) = Some l).
  { induction l as [|a l IH]; intros pre Et; [reflexivity|]. cbn [length seq mapM].
    assert (Ea : nth_error t (length pre) = Some a) by (rewrite Et, nth_error_app2, Nat.sub_diag by lia; reflexivity). rewrite Ea.
    specialize (IH (pre ++ [a])). rewrite app_length in IH. cbn [length] in IH. rewrite Nat.add_1_r in IH. rewrite IH; [reflexivity|]. rewrite <- app_assoc. exact Et. }
  specialize (E t [] eq_refl). cbn [length] in E.
  assert (HG : forall o1 o2, Permutation o1 o2 -> forall l, mapM (nth_error t) o2 = Some l -> exists l', mapM (nth_error t) o1 = Some l' /\ Permutation l l').
  { induction 1 as [|x o1 o2 _ IH|x y o|o1 o2 o3 _ IH1 _ IH2]; intros l El; cbn [mapM] in *.
    - exists []. injection El as <-. auto.
    - destruct (nth_error t x) as [b|]; [|discriminate]. destruct (mapM (nth_error t) o2) as [m|]; [|discriminate]. injection El as <-. destruct (IH _ eq_refl) as (m' & -> & Hm). exists (b :: m'). auto.
    - destruct (nth_error t y) as [b|], (nth_error t x) as [c|]; try discriminate; destruct (mapM (nth_error t) o) as [m|]; try discriminate. injection El as <-. eexists. split; [reflexivity|]. constructor.
    - destruct (IH2 _ El) as (l2 & E2 & P2). destruct (IH1 _ E2) as (l1 & E1 & P1). exists l1. split; [exact E1|]. etransitivity; eauto. }
  exact (HG _ _ HP _ E).
Qed.

Section S.
  Context {X R H : Type}.
  Local Notation subs_t := (list (sub X R)).
  Variable promoted : Z * X -> R -> R.
  Local Notation repurged := (repurged promoted).

  Lemma finish_repurged snap ids a a' b : repurged a a' -> finish_one snap ids a = Some b -> exists b', finish_one snap ids a' = Some b' /\ repurged b b' /\ s_parts b' = s_parts a' /\ s_parts b = s_parts a.
  Proof.
    intros (ps & r & -> & HP & HL). unfold finish_one, update_track. destruct a. cbn in *.
    match goal with |- context [?t =? -1] => destruct (t =? -1) end; cbn.
    - match goal with |- context [?t <? 0] => destruct (t <? 0) end; cbn; [|destruct (zget ids _); [|discriminate]]; intros E; injection E as <-; eexists; (split; [reflexivity|]); cbn; (split; [|auto]); exists ps, r; cbn; auto.
    - match goal with |- context [?t =? 0] => destruct (t =? 0) end; cbn; destruct (Qle_bool _ _); cbn; (match goal with |- context [?t <? 0] => destruct (t <? 0) end; cbn; [|destruct (zget ids _); [|discriminate]]);
        intros E; injection E as <-; eexists; (split; [reflexivity|]); cbn; (split; [|auto]); exists ps, r; cbn; auto.
  Qed.
  Lemma globalize_repurged snap all all' a a' b : Forall2 repurged all all' -> repurged a a' -> globalize_one snap all a = Some b -> exists b', globalize_one snap all' a' = Some b' /\ repurged b b' /\ s_parts b' = s_parts a' /\ s_parts b = s_parts a.
  Proof.
    intros HF (ps & r & -> & HP & HL). assert (Hz : forall i, option_map s_track (zget all' i) = option_map s_track (zget all i)).
    { intros i. unfold zget. destruct (i <? 0); [reflexivity|]. generalize (Z.to_nat i). induction HF as [|x y l l' (p1 & r1 & -> & _) HF IH]; intros [|n]; cbn; auto. }
    unfold globalize_one. cbv zeta. cbn [s_nest s_snapsink s_sink set_rest set_parts].
    assert (Em : mapM (fun i => option_map s_track (zget all' i)) (s_nest a) = mapM (fun i => option_map s_track (zget all i)) (s_nest a)).
    { induction (s_nest a) as [|c l IH]; [reflexivity|]. cbn [mapM]. rewrite Hz, IH. reflexivity. }
    rewrite Em, Hz. destruct (s_snapsink a =? snap).
    - destruct (option_map s_track (zget all (s_sink a))) as [t|]; cbn beta iota delta [option_map]; [|intros E; discriminate E].
      destruct (mapM (fun i => option_map s_track (zget all i)) (s_nest a)) as [n|]; cbn beta iota; intros E; [|discriminate E]. injection E as <-. eexists. split; [reflexivity|]. split; [|split; reflexivity]. exists ps, r. split; [reflexivity|split; [exact HP|exact HL]].
    - destruct (mapM (fun i => option_map s_track (zget all i)) (s_nest a)) as [n|]; cbn beta iota; intros E; [|discriminate E]. injection E as <-. eexists. split; [reflexivity|]. split; [|split; reflexivity]. exists ps, r. split; [reflexivity|split; [exact HP|exact HL]].
  Qed.

  Variables (before : list subs_t) (ps : list (@proc X R H)) (p : @proc X R H).
  Hypothesis Hhist : @nest_history X R H before.
  Hypothesis Hb : nest_begun before ps.
  Hypothesis Hp : In p ps.

  Lemma update_inclusive sort order porder snap halo_ids ranked out : sorts_by_mass (p_reg p) sort -> length halo_ids = length (p_halos p) ->
    Permutation order (seq 0 (length halo_ids)) -> Permutation porder (seq 0 (1 + length halo_ids)) ->
    update_tracks sort (length (p_reg p)) order snap halo_ids (p_heads p) (p_reg p) = Done (ranked, out) ->
    exists ranked' out', update_tracks_inclusive promoted sort (length (p_reg p)) order porder snap halo_ids (p_heads p) (p_reg p) = Done (ranked', out') /\
      Forall2 repurged out out' /\ (NoDup halo_ids -> led out').
  Proof using Hhist Hb Hp.
    intros Hs Hids Hord Hpord EU. destruct (reported before ps p Hhist Hb Hp sort order snap halo_ids ranked out Hs Hids Hord EU) as (HRp & HSb & HRk).
    assert (Hk := Hp). apply In_nth_error in Hk as [k Hk]. destruct (begun_spec before ps (history_ok _ Hhist) Hb) as [H1 H2].
    destruct (H1 k p Hk) as (_ & (tn & HN) & Hheads & _). destruct (H2 k p Hk) as (tr & HR). destruct Hb as (_ & _ & _ & Hwork & _). rewrite Forall_forall in Hwork. rewrite Hids in Hord, Hpord.
    destruct (ranked_spec _ _ _ _ _ _ _ _ _ _ order (Hwork p Hp) HN HR Hheads Hs Hord) as (table2 & s1 & s2 & s3 & E0 & E1 & E2 & E3 & HT2 & HU & ts3 & Hts3).
    unfold update_tracks in EU. unfold update_tracks_inclusive. rewrite Hids, E0 in EU |- *. cbn [of_opt rbind] in EU |- *. rewrite E1 in EU |- *. cbn [rbind] in EU |- *. rewrite E2 in EU |- *. cbn [of_opt rbind] in EU |- *. rewrite E3 in EU |- *. cbn [rbind] in EU |- *.
    destruct (mapM (finish_one snap halo_ids) s3) as [s4|] eqn:E4; [|discriminate]. cbn [of_opt rbind] in EU. destruct (globalize snap s4) as [s5|] eqn:E5; [|discriminate]. cbn [of_opt rbind] in EU. injection EU as -> ->.
    assert (HTP := table_for_perm _ _ _ HT2). destruct HT2 as (HTL & HTG & HTH). destruct HU as (HLu & HUs & HUg).
    destruct (picked table2 porder) as (groups & Eg & Pg); [rewrite HTL; exact Hpord|]. rewrite Eg. cbn [of_opt rbind].
    assert (HM : Spec.Purge.members_ok groups (map purge_view ranked)).
    { apply concat_permuted in Pg. split.
      - eapply Permutation_NoDup; [exact Pg|]. eapply Permutation_NoDup; [symmetry; exact HTP|]. apply seq_NoDup.
      - intros m Hm. apply (Permutation_in _ (Permutation_sym Pg)) in Hm. apply (Permutation_in _ HTP) in Hm. apply in_seq in Hm. rewrite map_length. lia. }
    destruct (purge_ok fst Some Some groups (map purge_view ranked) HM) as (us & EP & LP & Pout & Pin). unfold purge_subs. rewrite EP. cbn [of_opt rbind]. rewrite map_length in LP.
    assert (HO : forall m s u, nth_error ranked m = Some s -> nth_error us m = Some u -> Permutation (s_parts s) (Purge.u_parts u) /\
      exists g j, In g groups /\ nth_error g j = Some m /\ outcome fst Some Some (Spec.Purge.masked fst (map purge_view ranked) g j) (purge_view s) u).
    { intros m s u Hm Hu. assert (Hin : In m (concat groups)).
      { apply (Permutation_in _ (concat_permuted _ _ Pg)). apply (Permutation_in _ (Permutation_sym HTP)). apply in_seq. apply nth_error_lt in Hm. lia. }
      apply in_concat in Hin as (g & Hg & Hmg). apply In_nth_error in Hmg as [j Hj]. destruct (Pin g j m (purge_view s) Hg Hj (map_nth_error _ _ _ Hm)) as (u' & Hu' & Ho). assert (u' = u) by congruence. subst u'.
      split; [exact (proj1 (outcome_perm _ _ _ _ _ _ Ho))|]. exists g, j. auto. }
    set (s3' := map (purge_back promoted) (combine ranked us)).
    assert (Hn3 : forall m s', nth_error s3' m = Some s' <-> exists s u, nth_error ranked m = Some s /\ nth_error us m = Some u /\ s' = purge_back promoted (s, u)).
    { intros m s'. unfold s3'. rewrite nth_error_map. split.
      - destruct (nth_error (combine ranked us) m) as [[s u]|] eqn:Ec; [|discriminate]. cbn [option_map]. intros E. injection E as <-. apply combine_nth_error_inv in Ec as [A B]. eauto.
      - intros (s & u & A & B & ->). rewrite (combine_nth_error _ _ _ _ _ A B). reflexivity. }
    assert (L3 : length ranked = length s3') by (unfold s3'; rewrite map_length, combine_length; lia).
    assert (F3 : Forall2 repurged ranked s3').
    { apply Forall2_of_nth; [exact L3|]. intros m s s' A B. apply Hn3 in B as (s0 & u & A' & B & ->). assert (s0 = s) by congruence. subst s0. eexists _, _. split; [reflexivity|]. destruct (HO m s u A B) as (PA & g & j & _ & _ & Ho). split; [exact PA|]. unfold outcome in Ho. destruct (1 <? Purge.u_nbound (purge_view s)).
      - destruct Ho as [[_ ->]|(i & pq & (_ & Hi & _) & (_ & (_ & Hx & _) & Hpos & _))]; [left; split; reflexivity|]. right. exists pq. split; [rewrite Hx; exact Hi|]. rewrite Hpos. reflexivity.
      - rewrite Ho. left; split; reflexivity. }
    destruct (mapM_rel repurged repurged (finish_one snap halo_ids) (finish_one snap halo_ids) ranked s3' F3) with (m := s4) as (s4' & E4' & F4); [|exact E4|].
    { intros a a' b Ra Ea. destruct (finish_repurged _ _ _ _ _ Ra Ea) as (b' & A & B & _). eauto. }
    rewrite E4'. cbn [of_opt rbind]. unfold globalize in E5.
    destruct (mapM_rel repurged repurged (globalize_one snap s4) (globalize_one snap s4') s4 s4' F4) with (m := out) as (out' & E5' & F5); [|exact E5|].
    { intros a a' b Ra Ea. destruct (globalize_repurged _ _ _ _ _ _ F4 Ra Ea) as (b' & A & B & _). eauto. }
    unfold globalize. rewrite E5'. cbn [of_opt rbind]. exists s3', out'. split; [reflexivity|]. split; [exact F5|].
    (* who leads *)
    intros HND. assert (Lo := F2_length _ _ _ F5). assert (LR := F2_length _ _ _ HRk). assert (LP' := F2_length _ _ _ HRp).
    assert (Hat : forall m o', nth_error out' m = Some o' -> exists o s u rg, nth_error out m = Some o /\ nth_error ranked m = Some s /\ nth_error us m = Some u /\ nth_error (p_reg p) m = Some rg /\
      s_parts o' = Purge.u_parts u /\ s_nbound o' = s_nbound s /\ s_rank o' = s_rank s /\ s_host o' = s_host o /\ s_host s = s_host rg /\ reports snap halo_ids (p_reg p) rg o).
    { intros m o' Ho'. destruct (nth_error_in_range out m) as [o Ho]; [rewrite Lo; eapply nth_error_lt; eauto|]. destruct (nth_error_in_range ranked m) as [s Hm]; [rewrite LR; eapply nth_error_lt; eauto|].
      destruct (nth_error_in_range us m) as [u Hu]; [rewrite LP; eapply nth_error_lt; eauto|]. destruct (nth_error_in_range (p_reg p) m) as [rg Hrg]; [rewrite LP'; eapply nth_error_lt; eauto|].
      exists o, s, u, rg. do 4 (split; [assumption|]).
      pose proof (F2_nth _ _ _ HRp m rg o Hrg Ho) as HR1. pose proof (F2_nth _ _ _ HSb m rg s Hrg Hm) as HR2. destruct (F2_nth _ _ _ HRk m s o Hm Ho) as (HR3 & _).
      destruct (F2_nth _ _ _ F5 m o o' Ho Ho') as (qs & r & -> & _).
      assert (Hp3 : nth_error s3' m = Some (purge_back promoted (s, u))) by (apply Hn3; eauto). 
      destruct (mapM_nth _ _ _ _ _ E4' Hp3) as (f' & Ef' & Hf'). destruct (mapM_nth _ _ _ _ _ E5' Hf') as (o2 & Eo2 & Ho2). assert (o2 = set_rest r (set_parts qs o)) by congruence. subst o2.
      assert (RF : forall z : sub X R, repurged z z). { intros z. exists (s_parts z), (s_rest z). split; [destruct z; reflexivity|]. split; [reflexivity|left; split; reflexivity]. }
      destruct (finish_repurged _ _ _ _ _ (RF _) Ef') as (_ & _ & _ & _ & Pf). assert (RFs : Forall2 repurged s4' s4') by (clear -RF; induction s4'; constructor; auto).
      destruct (globalize_repurged _ _ _ _ _ _ RFs (RF _) Eo2) as (_ & _ & _ & _ & Po). rewrite Po, Pf. split; [reflexivity|]. cbn.
      assert (A : s_host s = s_host rg) by (symmetry; apply same_but_host; exact HR2). assert (Nn : s_nbound s = s_nbound rg) by (unfold same_but_nest in HR2; apply (f_equal s_nbound) in HR2; cbn in HR2; auto).
      destruct HR1 as [B1 B2 (B3 & B4 & B5) B6 B7 B8 B9]. split; [congruence|]. split; [exact HR3|]. split; [reflexivity|]. split; [exact A|]. constructor; auto. }
    assert (Hhost : forall o rg : sub X R, reports snap halo_ids (p_reg p) rg o -> s_host o <> -1 -> s_host rg <> -1 /\ zget halo_ids (s_host rg) = Some (s_host o)).
    { intros o rg [B1 _ _ _ _ _ _] Hne. destruct (Z.eqb_spec (s_host rg) (-1)) as [E|E]; [contradiction|auto]. }
    (* positions in a group and ranks *)
    assert (Hrank : forall g j m s, In g table2 -> nth_error g j = Some m -> nth_error ranked m = Some s -> s_host s <> -1 -> s_rank s = Z.of_nat j).
    { intros g j m s Hg Hj Hm Hne. apply In_nth_error in Hg as [h Hh]. destruct (HTG h g Hh) as [_ Hi]. destruct (proj1 (Hi m) (nth_error_In _ _ Hj)) as (rg & Hrg & Eh).
      pose proof (F2_nth _ _ _ HSb m rg s Hrg Hm) as A. apply same_but_host in A. destruct h as [|h]; [exfalso; apply Hne; lia|]. specialize (HUg h g Hh). unfold group_done in HUg. destruct g as [|c g]; [destruct j; discriminate|].
      destruct HUg as (_ & _ & _ & _ & Hrk & _). eapply Hrk; eauto. }
    intros o' pt Ho' Hpt HNb (Hne0 & v & Hv & EHv & Ert & HNv & Hidv) q Hq.
    apply In_nth_error in Ho' as [m Ho']. apply In_nth_error in Hv as [m2 Hv].
    destruct (Hat m o' Ho') as (o & s & u & rg & A1 & A2 & A3 & A4 & A5 & A6 & A7 & A8 & A9 & A10). destruct (Hat m2 v Hv) as (o2 & s' & u2 & rg2 & B1 & B2 & B3 & B4 & B5 & B6 & B7 & B8 & B9 & B10).
    destruct (HO m s u A2 A3) as (PA & g & j & Hg & Hj & Ho). destruct (HO m2 s' u2 B2 B3) as (PB & _).
    assert (Hg2 := Permutation_in _ (Permutation_sym Pg) Hg).
    destruct (Hhost o rg A10) as [Hne C2]; [congruence|].
    assert (Hgm : forall n w, nth_error (p_reg p) n = Some w -> (In n g <-> s_host w = s_host rg)).
    { intros n w Hw. apply In_nth_error in Hg2 as [h Hh]. destruct (HTG h g Hh) as [_ Hi]. destruct (proj1 (Hi m) (nth_error_In _ _ Hj)) as (rg' & Hrg' & Eh). assert (rg' = rg) by congruence. subst rg'. rewrite (Hi n), Eh. split; [intros (w' & Hw' & E); congruence|eauto]. }
    assert (Heq : forall n w z, nth_error (p_reg p) n = Some w -> reports snap halo_ids (p_reg p) w z -> s_host z = s_host o' -> s_host w = s_host rg).
    { intros n w z Hw Hz E. destruct (Hhost z w Hz) as [W1 G2]; [congruence|]. rewrite <- A8, <- E in C2. pose proof (zget_some _ _ _ C2). pose proof (zget_some _ _ _ G2). rewrite zget_nat in C2, G2 by lia.
      rewrite NoDup_nth_error in HND. assert (Z.to_nat (s_host w) = Z.to_nat (s_host rg)); [|lia]. apply HND; [eapply nth_error_lt; exact G2|congruence]. }
    assert (Rj : s_rank s = Z.of_nat j) by (apply (Hrank g j m s Hg2 Hj A2); congruence).
    assert (Hto : forall id, Spec.Purge.masked fst (map purge_view ranked) g j id -> in_smaller out' o' id).
    { intros id (k' & m' & t & Hkj & Hm' & Ht & Hb1 & Hid). rewrite nth_error_map in Ht. destruct (nth_error ranked m') as [z|] eqn:Ez; [|discriminate]. cbn in Ht. injection Ht as <-. cbn in Hb1, Hid.
      destruct (nth_error_in_range out' m') as [w Hw]; [rewrite <- Lo, <- LR; eapply nth_error_lt; eauto|]. destruct (Hat m' w Hw) as (ow & z' & uw & rw & G1 & G2 & G3 & G4 & G5 & G6 & G7 & G8 & G9 & G10). assert (z' = z) by congruence. subst z'.
      assert (Er : s_host rw = s_host rg) by (apply (Hgm m' rw G4); eapply nth_error_In; exact Hm').
      split; [exact Hne0|]. exists w. split; [eapply nth_error_In; exact Hw|]. split; [|split; [|split]].
      - destruct G10 as [G11 _ _ _ _ _ _]. rewrite Er in G11. destruct (Z.eqb_spec (s_host rg) (-1)) as [E|_]; [contradiction|]. congruence.
      - rewrite G7, A7, Rj, (Hrank g k' m' z Hg2 Hm' Ez) by congruence. lia.
      - lia.
      - unfold part_ids. rewrite G5. destruct (HO m' z uw Ez G3) as [PZ _]. eapply Permutation_in; [apply Permutation_map, PZ|exact Hid]. }
    assert (Hfrom : forall id w, In w out' -> s_host w = s_host o' -> s_rank o' < s_rank w -> (1 < s_nbound w)%nat -> In id (part_ids w) -> Spec.Purge.masked fst (map purge_view ranked) g j id).
    { intros id w Hw Ew Erk Hbw Hid. apply In_nth_error in Hw as [n Hw]. destruct (Hat n w Hw) as (ow & z & uw & rw & G1 & G2 & G3 & G4 & G5 & G6 & G7 & G8 & G9 & G10).
      assert (Er : s_host rw = s_host rg) by (apply (Heq n rw ow G4 G10); congruence). assert (Hin : In n g) by (apply (Hgm n rw G4); exact Er). apply In_nth_error in Hin as [k' Hk'].
      exists k', n, (purge_view z). split; [|split; [exact Hk'|split; [apply map_nth_error; exact G2|split; [cbn; lia|]]]].
      - rewrite G7, A7, Rj, (Hrank g k' n z Hg2 Hk' G2) in Erk by congruence. lia.
      - cbn. unfold part_ids in Hid. rewrite G5 in Hid. destruct (HO n z uw G2 G3) as [PZ _]. eapply Permutation_in; [symmetry; apply Permutation_map, PZ|exact Hid]. }
    apply Hto. assert (Hmp : Spec.Purge.masked fst (map purge_view ranked) g j (fst pt)) by (apply (Hfrom (fst pt) v); [eapply nth_error_In; exact Hv|assumption..]).
    unfold outcome in Ho. replace (1 <? Purge.u_nbound (purge_view s)) with true in Ho by (symmetry; apply Z.ltb_lt; cbn; lia). rewrite A5 in Hpt, Hq.
    destruct Ho as [[Hall ->]|(i & pq & (_ & Hi & Hun & _) & (_ & (_ & Hx & _) & _))].
    - cbn in Hall, Hpt, Hq. apply In_nth_error in Hq as [[|n] Hn]; [change (nth_error (s_parts s) 0 = Some pt) in Hpt; rewrite Hn in Hpt; injection Hpt as ->; exact Hmp|]. apply (Hall (S n) q); [lia|exact Hn].
    - exfalso. apply Hun. rewrite Hx, Hi in Hpt. injection Hpt as ->. exact Hmp.
  Qed.
End S.
