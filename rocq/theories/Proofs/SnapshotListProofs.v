(** Proofs for toolbox/CreateSnapshotList.py. *)
From Coq Require Import List ZArith Lia String Sorting.Sorted Sorting.Permutation.
From Verif.Model Require Import Mpi SnapshotList.
From Verif.Spec Require Import SnapshotList.
From Verif.Proofs Require Import MpiProofs HostProofs.
Import ListNotations.
Local Open Scope nat_scope.

Lemma strict_nodup l : NoDup l -> StronglySorted le l -> StronglySorted lt l.
Proof.
  intros HN HS. induction HS as [|a l HS IH HF]; [constructor|]. apply NoDup_cons_iff in HN as [H1 H2]. constructor; [exact (IH H2)|].
  rewrite Forall_forall in *. intros b Hb. specialize (HF b Hb). assert (a <> b) by (intros ->; contradiction). lia.
Qed.
(** Elements at increasing positions are a sublist. *)
Lemma picked_sublist {A} (src : list A) : forall idx l k, StronglySorted lt idx -> Forall (fun i => k <= i) idx -> mapM (fun i => nth_error src (i - k)) idx = Some l -> sublist l src.
Proof.
  induction src as [|a src IH]; intros idx l k HS HF HM.
  - destruct idx as [|i idx]; cbn [mapM] in HM; [injection HM as <-; constructor|]. destruct (i - k); discriminate HM.
  - assert (G : forall idx l, StronglySorted lt idx -> Forall (fun i => S k <= i) idx -> mapM (fun i => nth_error (a :: src) (i - k)) idx = Some l -> sublist l src).
    { intros idx' l' HS' HF' HM'. apply (IH idx' l' (S k) HS' HF'). rewrite <- HM'. clear -HF'. induction HF' as [|i r Hi HF' IHr]; [reflexivity|]. cbn [mapM]. rewrite IHr. replace (i - k) with (S (i - S k)) by lia. reflexivity. }
    destruct idx as [|i idx].
    + cbn in HM. injection HM as <-. clear. constructor. induction src; constructor; assumption.
    + destruct (Nat.eq_dec i k) as [->|Hne].
      * cbn [mapM] in HM. rewrite Nat.sub_diag in HM. cbn [nth_error] in HM. destruct (mapM _ idx) as [r|] eqn:Er; [|discriminate]. injection HM as <-.
        apply StronglySorted_inv in HS as [HS Hlt]. apply sub_keep. apply (G idx r HS); [|exact Er]. eapply Forall_impl; [|exact Hlt]. intros j Hj. exact Hj.
      * apply sub_skip. apply (G (i :: idx) l HS); [|exact HM]. apply StronglySorted_inv in HS as [_ Hlt]. apply Forall_cons_iff in HF as [Hi _]. constructor; [lia|]. eapply Forall_impl; [|exact Hlt]. intros j Hj. cbn beta in Hj. lia.
Qed.

Section List.
  Variable redshift : string -> option Z.
  Variable sort_index : list nat -> list nat.
  Variable unique : list Z -> list nat.
  Hypothesis Hsort : sorts_index sort_index.
  Hypothesis Huni : first_indices unique.
  Variable key : string -> Z.
  Let named (l : list string) : Prop := forall x, In x l -> redshift x = Some (key x).

  Lemma clear_dup_ok src : named src -> exists l, clear_dup redshift sort_index unique src = Some l /\ firsts key src l.
  Proof using Hsort Huni.
    intros HN. unfold clear_dup. rewrite (mapM_some redshift key src HN). destruct (Huni (map key src)) as [HD HI]. destruct (Hsort (unique (map key src))) as [HP HS].
    set (idx := sort_index (unique (map key src))) in *.
    assert (HI' : forall i, In i idx <-> exists z, nth_error (map key src) i = Some z /\ forall j, j < i -> nth_error (map key src) j <> Some z).
    { intros i. rewrite <- HI. split; apply Permutation_in; [exact HP|symmetry; exact HP]. }
    assert (HD' : NoDup idx) by (eapply Permutation_NoDup; [symmetry; exact HP|exact HD]).
    assert (HT : exists l, mapM (nth_error src) idx = Some l).
    { assert (forall i, In i idx -> exists x, nth_error src i = Some x).
      { intros i Hi. apply HI' in Hi as (z & Hz & _). destruct (nth_error src i) as [x|] eqn:E; [eauto|]. apply nth_error_None in E. assert (i < List.length (map key src)) by (apply nth_error_Some; congruence). rewrite map_length in *. lia. }
      clear -H. induction idx as [|i r IH]; [exists []; reflexivity|]. destruct (H i (or_introl eq_refl)) as [x Ex]. destruct IH as [l El]; [intros j Hj; apply H; right; exact Hj|]. exists (x :: l). cbn. rewrite Ex, El. reflexivity. }
    destruct HT as [l El]. exists l. split; [exact El|]. split; [|split].
    - apply (picked_sublist src idx l 0); [exact (strict_nodup idx HD' HS)|apply Forall_forall; intros; lia|]. rewrite <- El. clear. induction idx as [|i r IH]; [reflexivity|]. cbn [mapM]. rewrite IH, Nat.sub_0_r. reflexivity.
    - assert (G : forall a b i j x y, nth_error idx a = Some i -> nth_error idx b = Some j -> nth_error src i = Some x -> nth_error src j = Some y -> key x = key y -> i = j).
      { intros a b i j x y Ha Hb Hx Hy Hk. apply nth_error_In in Ha, Hb. apply HI' in Ha as (z & Hz & Hz'). apply HI' in Hb as (w & Hw & Hw'). rewrite (map_nth_error key _ _ Hx) in Hz. rewrite (map_nth_error key _ _ Hy) in Hw. injection Hz as <-. injection Hw as <-.
        destruct (Nat.lt_trichotomy i j) as [C|[C|C]]; [|exact C|]; exfalso; [apply (Hw' i C); rewrite (map_nth_error key _ _ Hx); congruence|apply (Hz' j C); rewrite (map_nth_error key _ _ Hy); congruence]. }
      apply NoDup_nth_error. intros a b Ha Hab. rewrite map_length in Ha. assert (La : a < List.length idx) by (rewrite <- (mapM_length _ _ _ El); exact Ha).
      destruct (nth_error idx a) as [i|] eqn:Ei; [|apply nth_error_None in Ei; lia]. destruct (mapM_nth _ _ _ _ _ El Ei) as (x & Hx & Hlx). rewrite (map_nth_error key _ _ Hlx) in Hab.
      symmetry in Hab. assert (Lb : b < List.length l) by (rewrite <- (map_length key); apply nth_error_Some; congruence). assert (Lb' : b < List.length idx) by (rewrite <- (mapM_length _ _ _ El); exact Lb).
      destruct (nth_error idx b) as [j|] eqn:Ej; [|apply nth_error_None in Ej; lia]. destruct (mapM_nth _ _ _ _ _ El Ej) as (y & Hy & Hly). rewrite (map_nth_error key _ _ Hly) in Hab. injection Hab as Hab.
      assert (i = j) by (eapply G; eauto). subst j. rewrite NoDup_nth_error in HD'. apply HD'; [exact La|congruence].
    - intros x Hx.
      assert (F : exists pre y post, src = pre ++ y :: post /\ key y = key x /\ forall w, In w pre -> key w <> key x).
      { clear -Hx. induction src as [|a src IH]; [destruct Hx|]. destruct (Z.eq_dec (key a) (key x)) as [E|E]; [exists [], a, src; split; [reflexivity|split; [exact E|intros w []]]|].
        destruct Hx as [->|Hx]; [contradiction|]. destruct (IH Hx) as (pre & y & post & -> & H2 & H3). exists (a :: pre), y, post. split; [reflexivity|]. split; [exact H2|]. intros w [<-|Hw]; [exact E|exact (H3 w Hw)]. }
      destruct F as (pre & y & post & E1 & E2 & E3). exists pre, y, post. split; [exact E1|]. split; [exact E2|]. split; [|exact E3].
      assert (Hp : nth_error src (List.length pre) = Some y) by (rewrite E1, nth_error_app2, Nat.sub_diag by lia; reflexivity).
      assert (Hin : In (List.length pre) idx).
      { apply HI'. exists (key y). split; [exact (map_nth_error key _ _ Hp)|]. intros j Hj. rewrite E1, map_app, nth_error_app1 by (rewrite map_length; exact Hj). intros C. apply nth_error_In in C. apply in_map_iff in C as (w & Ew & Hw). apply (E3 w Hw). congruence. }
      apply In_nth_error in Hin as [a Ha]. destruct (mapM_nth _ _ _ _ _ El Ha) as (y' & Hy' & Hl). rewrite Hp in Hy'. injection Hy' as <-. exact (nth_error_In _ _ Hl).
  Qed.
  Lemma sublist_in {A} (l src : list A) x : sublist l src -> In x l -> In x src.
  Proof. induction 1 as [|a l src H IH|a l src H IH]; cbn; intros Hx; [exact Hx|right; exact (IH Hx)|destruct Hx as [->|Hx]; [left; reflexivity|right; exact (IH Hx)]]. Qed.
  Lemma sublist_sorted {A} (R : A -> A -> Prop) (l src : list A) : sublist l src -> StronglySorted R src -> StronglySorted R l.
  Proof.
    induction 1 as [|a l src H IH|a l src H IH]; intros HS; [exact HS|apply StronglySorted_inv in HS as [HS _]; exact (IH HS)|].
    apply StronglySorted_inv in HS as [HS HF]. constructor; [exact (IH HS)|]. rewrite Forall_forall in *. intros b Hb. apply HF. exact (sublist_in _ _ _ H Hb).
  Qed.

  Variable test_dir : string -> bool.
  Variables sort_names sort_reverse : list string -> list string.
  Hypothesis Hnames : forall l, Permutation (sort_names l) l.
  Hypothesis Hrev : sorts_reverse key sort_reverse.
  Variables snapshots snipshots : list string.
  Hypothesis named1 : named snapshots.
  Hypothesis named2 : named snipshots.

  Lemma create_ok : exists snaps snips all,
    firsts key (filter test_dir (sort_names snapshots)) snaps /\ firsts key (filter test_dir (sort_names snipshots)) snips /\
    create_list redshift test_dir sort_names sort_index sort_reverse unique snapshots snipshots "snap" = Some snaps /\
    create_list redshift test_dir sort_names sort_index sort_reverse unique snapshots snipshots "snip" = Some snips /\
    create_list redshift test_dir sort_names sort_index sort_reverse unique snapshots snipshots "all" = Some all /\
    StronglySorted (fun a b => (key b < key a)%Z) all /\
    forall x, In x all <-> In x snaps \/ (In x snips /\ forall y, In y snaps -> key y <> key x).
  Proof using Hsort Huni Hnames Hrev named1 named2.
    assert (N : forall l, named l -> named (filter test_dir (sort_names l))).
    { intros l Hl x Hx. apply filter_In in Hx as [Hx _]. apply Hl. exact (Permutation_in _ (Hnames l) Hx). }
    destruct (clear_dup_ok _ (N _ named1)) as (snaps & E1 & F1). destruct (clear_dup_ok _ (N _ named2)) as (snips & E2 & F2).
    destruct (Hrev (snaps ++ snips)) as (HP & HS & HK).
    assert (N3 : named (sort_reverse (snaps ++ snips))).
    { intros x Hx. apply (Permutation_in _ HP) in Hx. apply in_app_or in Hx as [Hx|Hx]; [apply (N _ named1), (sublist_in _ _ _ (proj1 F1) Hx)|apply (N _ named2), (sublist_in _ _ _ (proj1 F2) Hx)]. }
    destruct (clear_dup_ok _ N3) as (all & E3 & F3). exists snaps, snips, all. split; [exact F1|]. split; [exact F2|]. unfold create_list, clear_empty. rewrite E1, E2, E3. split; [reflexivity|]. split; [reflexivity|]. split; [reflexivity|].
    destruct F3 as (S3 & D3 & C3). split.
    - pose proof (sublist_sorted _ _ _ S3 HS) as H. clear -H D3. induction H as [|a l H IH HF]; [constructor|]. cbn in D3. apply NoDup_cons_iff in D3 as [D1 D2]. constructor; [exact (IH D2)|].
      rewrite Forall_forall in *. intros b Hb. specialize (HF b Hb). cbn beta in HF. assert (key a <> key b) by (intros C; apply D1; rewrite C; apply in_map; exact Hb). lia.
    - (* the element of [all] with a given redshift is the first one of snaps ++ snips *)
      assert (G : forall x, In x (snaps ++ snips) -> (In x all <-> exists r, filter (fun a => Z.eqb (key a) (key x)) (snaps ++ snips) = x :: r)).
      { intros x Hx. rewrite <- HK. destruct (C3 x (Permutation_in _ (Permutation_sym HP) Hx)) as (pre & y & post & E & Ky & Hy & Hpre).
        assert (EF : filter (fun a => Z.eqb (key a) (key x)) (sort_reverse (snaps ++ snips)) = y :: filter (fun a => Z.eqb (key a) (key x)) post).
        { rewrite E, filter_app. cbn [filter]. rewrite (proj2 (Z.eqb_eq _ _) Ky). replace (filter (fun a => Z.eqb (key a) (key x)) pre) with (@nil string); [reflexivity|]. symmetry. clear -Hpre. induction pre as [|w pre IH]; [reflexivity|]. cbn [filter]. rewrite (proj2 (Z.eqb_neq _ _) (Hpre w (or_introl eq_refl))). apply IH. intros v Hv. apply Hpre. right. exact Hv. }
        rewrite EF. split.
        - intros Hxa. exists (filter (fun a => Z.eqb (key a) (key x)) post). f_equal.
          apply In_nth_error in Hxa as [i Hi]. apply In_nth_error in Hy as [j Hj]. rewrite NoDup_nth_error in D3. assert (i = j); [|congruence]. apply D3; [rewrite map_length; apply nth_error_Some; congruence|]. rewrite (map_nth_error key _ _ Hi), (map_nth_error key _ _ Hj). congruence.
        - intros [r Er]. injection Er as -> _. exact Hy. }
      assert (U : forall l x, NoDup (map key l) -> In x l -> filter (fun a => Z.eqb (key a) (key x)) l = [x]).
      { clear. induction l as [|a l IH]; intros x HD Hx; [destruct Hx|]. cbn in HD. apply NoDup_cons_iff in HD as [H1 H2]. cbn [filter]. destruct Hx as [->|Hx].
        - rewrite Z.eqb_refl. f_equal. clear -H1. induction l as [|b l IH]; [reflexivity|]. cbn [filter]. destruct (Z.eqb_spec (key b) (key x)) as [E|E]; [exfalso; apply H1; left; exact E|]. apply IH. intros C. apply H1. right. exact C.
        - destruct (Z.eqb_spec (key a) (key x)) as [E|E]; [exfalso; apply H1; rewrite E; apply in_map; exact Hx|]. exact (IH x H2 Hx). }
      intros x. split.
      + intros Hx. assert (Hs : In x (snaps ++ snips)) by (apply (Permutation_in _ HP), (sublist_in _ _ _ S3 Hx)). apply in_app_or in Hs as Hs'. destruct Hs' as [H1|H1]; [left; exact H1|].
        destruct (proj1 (G x Hs) Hx) as [r Er]. rewrite filter_app in Er. destruct (filter (fun a => Z.eqb (key a) (key x)) snaps) as [|y ys] eqn:EY.
        * right. split; [exact H1|]. intros y Hy C. assert (In y (filter (fun a => Z.eqb (key a) (key x)) snaps)) by (apply filter_In; split; [exact Hy|apply Z.eqb_eq; exact C]). rewrite EY in H. destruct H.
        * injection Er as -> _. left. assert (In x (filter (fun a => Z.eqb (key a) (key x)) snaps)) by (rewrite EY; left; reflexivity). apply filter_In in H as [H _]. exact H.
      + intros [Hx|[Hx Hno]]; apply G; try (apply in_or_app; auto).
        * rewrite filter_app, (U snaps x (proj1 (proj2 F1)) Hx). eexists. reflexivity.
        * rewrite filter_app, (U snips x (proj1 (proj2 F2)) Hx). replace (filter (fun a => Z.eqb (key a) (key x)) snaps) with (@nil string); [eexists; reflexivity|]. symmetry. clear -Hno. induction snaps as [|y l IH]; [reflexivity|]. cbn [filter]. rewrite (proj2 (Z.eqb_neq _ _) (Hno y (or_introl eq_refl))). apply IH. intros v Hv. apply Hno. right. exact Hv.
  Qed.
End List.
