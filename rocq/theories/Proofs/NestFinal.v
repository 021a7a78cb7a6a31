(** Nesting and ranking over whole runs, in the vocabulary of the specification. *)
From Coq Require Import List ZArith QArith Bool Lia Sorting.Permutation Sorting.Sorted.
From Verif.Model Require Import ListMem Mpi Run Hash Subhalo Tracks Nest UpdateTracks.
From Verif.Spec Require Import Forest Nesting NestHistory Members.
From Verif.Proofs Require Import ListMemProofs MpiProofs ListExtra MemberProofs CentralProofs CentralProofs2 TrackProofs TreeProofs NestProofs NestProofs2 NestProofs3 NestProofs4 NestProofs5 LocalizeProofs ForestSteps HistorySteps HistorySteps2 ReachProofs HistoryProofs.
Import ListNotations.
Local Open Scope Z_scope.

Lemma count_index {A} (f : A -> bool) (l : list A) (g : list nat) : NoDup g ->
  (forall i, In i g <-> exists s, nth_error l i = Some s /\ f s = true) -> length g = length (filter f l).
Proof.
  intros Hn Hg. set (t := fun i => match nth_error l i with Some s => f s | None => false end).
  assert (HP : Permutation g (filter t (seq 0 (length l)))).
  { apply NoDup_Permutation; [exact Hn|apply NoDup_filter, seq_NoDup|]. intros i. rewrite Hg, filter_In, in_seq. unfold t. split.
    - intros (s & Hs & Hf). rewrite Hs. split; [|exact Hf]. apply nth_error_lt in Hs. lia.
    - intros [_ Hi]. destruct (nth_error l i) as [s|]; [eauto|discriminate]. }
  rewrite (Permutation_length HP). clear. subst t. induction l as [|a l IH] using rev_ind; [reflexivity|].
  rewrite app_length. cbn [length]. rewrite Nat.add_1_r, seq_S, !filter_app, !app_length, <- IH. f_equal.
  - f_equal. apply filter_ext_in. intros i Hi. apply in_seq in Hi. rewrite nth_error_app1 by lia. reflexivity.
  - cbn [filter plus]. rewrite nth_error_app2, Nat.sub_diag by lia. cbn. destruct (f a); reflexivity.
Qed.

Section S.
  Context {X R H : Type}.
  Local Notation subs_t := (list (sub X R)).
  Variables (before : list subs_t) (ps : list (@proc X R H)) (p : @proc X R H).
  Hypothesis Hhist : @nest_history X R H before.
  Hypothesis Hp : In p ps.

  Lemma nested_well : nest_begun before ps -> well_nested (p_nested p).
  Proof.
    intros Hb. apply In_nth_error in Hp as [k Hk]. destruct (begun_spec before ps (history_ok _ Hhist) Hb) as [H1 _]. destruct (H1 k p Hk) as (_ & (tn & HN) & _).
    destruct HN as (Hlf & _ & _ & _ & _ & _ & _ & He & _). eapply forest_well_nested; eauto.
  Qed.

  Lemma nested_heads h hs : nest_begun before ps -> nth_error (p_heads p) h = Some hs ->
    NoDup hs /\ (forall i, In i hs <-> hosted_by (p_moved p) i (Z.of_nat h) /\ head (p_nested p) (Z.of_nat i)) /\
    (forall c rest, nth_error (p_table p) (S h) = Some (c :: rest) -> exists others, hs = c :: others).
  Proof.
    intros Hb Hhs. apply In_nth_error in Hp as [k Hk]. destruct (begun_spec before ps (history_ok _ Hhist) Hb) as [H1 _]. destruct (H1 k p Hk) as (_ & (tn & HN) & Hm & _).
    destruct HN as (_ & HL & HTL & HTG & Hold & _ & _ & _ & _ & Hrk0). set (table := p_table p) in *.
    assert (Htl : exists g, nth_error (List.tl table) h = Some g /\ heads_of (p_nested p) g = Some hs).
    { assert (Hlt : (h < length (List.tl table))%nat). { rewrite <- (mapM_length _ _ _ Hm). eapply nth_error_lt; eauto. } destruct (nth_error_in_range _ _ Hlt) as [g Hg]. exists g. split; [exact Hg|].
      destruct (mapM_nth _ _ _ _ _ Hm Hg) as (hs' & E & Hn'). congruence. }
    destruct Htl as (g & Hg & Eh). assert (Hg' : nth_error table (S h) = Some g) by (destruct table; [destruct h; discriminate|exact Hg]).
    destruct (HTG (S h) g Hg') as [HG1 HG2]. assert (Hin : forall i, In i g -> (i < length (p_nested p))%nat). { intros i Hi. apply HG1 in Hi. apply hosted_lt in Hi. lia. }
    rewrite (heads_spec _ _ _ Hin Eh). split; [apply NoDup_filter; exact HG2|]. split.
    - intros i. rewrite filter_In, HG1. replace (Z.of_nat (S h) - 1) with (Z.of_nat h) by lia. unfold head. rewrite zget_of_nat. split.
      + intros [Hi E]. split; [exact Hi|]. destruct (nth_error (p_nested p) i) as [s|]; [|discriminate]. exists s. split; [reflexivity|]. apply Z.eqb_eq. exact E.
      + intros [Hi (s & Hs & E)]. split; [exact Hi|]. rewrite Hs. apply Z.eqb_eq. exact E.
    - intros c rest Hc. rewrite Hg' in Hc. injection Hc as ->. cbn [filter]. destruct (nth_error_in_range (p_nested p) c) as [s Hs]; [apply Hin; left; reflexivity|]. rewrite Hs.
      rewrite (proj2 (Z.eqb_eq _ _) (Hrk0 h c rest Hg' s Hs)). eauto.
  Qed.

  Lemma nested_links i j a b : nest_begun before ps -> zget (p_nested p) i = Some a -> zget (p_nested p) j = Some b ->
    (lists (p_nested p) i j <->
     (exists s, In s (concat before) /\ s_track s = s_track a /\ In (s_track b) (s_nest s)) /\ s_host a = s_host b /\ s_host b <> -1 /\
     (forall h rest, nth_error (p_table p) (S h) <> Some (Z.to_nat j :: rest))).
  Proof.
    intros Hb Ha Hbb. assert (Hk := Hp). apply In_nth_error in Hk as [k Hk]. pose proof (history_ok _ Hhist) as Hok. destruct (begun_spec before ps Hok Hb) as [H1 _]. destruct (H1 k p Hk) as (_ & (tn & HN) & _ & Hkept & Hsame).
    destruct Hb as (Hfd & _). destruct (fed_spec before ps Hok Hfd) as (Hfed & _). rewrite Forall_forall in Hfed. specialize (Hfed p Hp). destruct Hfed as (HTL & HTG & olds & news & Ef & HF & Hn & _).
    destruct Hok as (Htr & _). destruct Hfd as (HP & _).
    assert (Hnd : NoDup (map s_track (concat before))). { eapply Permutation_NoDup; [symmetry; exact Htr|]. apply NoDup_map_inj; [intros x y _ _; apply Nat2Z.inj|apply seq_NoDup]. }
    assert (Hlo : length olds = length (p_moved p)) by (symmetry; eapply F2_length; eauto).
    (* what a subhalo was before *)
    assert (Hwas : forall u x, zget (p_fed p) u = Some x -> (hosted_by (p_moved p) (Z.to_nat u) (s_host x) /\ exists s, In s (concat before) /\ nesting_of s = nesting_of x) \/ (s_track x = -1 /\ s_nest x = [] /\ 0 <= s_host x)).
    { intros u x Hu. pose proof (zget_some _ _ _ Hu). rewrite zget_nat in Hu by lia. rewrite Ef in Hu. destruct (lt_dec (Z.to_nat u) (length olds)) as [Hlt|Hge].
      - left. rewrite nth_error_app1 in Hu by exact Hlt. destruct (nth_error_in_range (p_moved p) (Z.to_nat u)) as [m Hm]; [lia|]. destruct (F2_nth _ _ _ HF _ m x Hm Hu) as [E1 E2]. split; [exists m; auto|].
        assert (Hin : In (nesting_of m) (map nesting_of (concat (map p_moved ps)))). { apply in_map. apply in_concat. exists (p_moved p). split; [apply in_map; exact Hp|eapply nth_error_In; eauto]. }
        apply (Permutation_in _ (Permutation_sym HP)) in Hin. apply in_map_iff in Hin as (s & E & Hs). exists s. split; [exact Hs|congruence].
      - right. rewrite nth_error_app2 in Hu by lia. rewrite Forall_forall in Hn. destruct (Hn x (nth_error_In _ _ Hu)) as (E1 & _ & E2 & g & E3 & _). split; [exact E1|]. split; [exact E2|]. lia. }
    assert (Hback : forall u x, zget (p_nested p) u = Some x -> exists y, zget (p_fed p) u = Some y /\ s_track y = s_track x /\ s_host y = s_host x).
    { intros u x Hu. pose proof (zget_some _ _ _ Hu). rewrite zget_nat in Hu by lia. destruct (nth_error_in_range (p_fed p) (Z.to_nat u)) as [y Hy]. { rewrite (F2_length _ _ _ Hsame). eapply nth_error_lt; eauto. }
      exists y. rewrite zget_nat by lia. split; [exact Hy|]. pose proof (F2_nth _ _ _ Hsame _ y x Hy Hu) as (n & r & ->). split; reflexivity. }
    destruct (Hback i a Ha) as (a0 & Ha0 & Eta & Eha). destruct (Hback j b Hbb) as (b0 & Hb0 & Etb & Ehb). pose proof (zget_some _ _ _ Hb0) as Hjr.
    assert (Hraised : In j (zs (raised (p_table p))) <-> s_host b = -1 \/ exists h rest, nth_error (p_table p) (S h) = Some (Z.to_nat j :: rest)).
    { assert (Ej : In j (zs (raised (p_table p))) <-> In (Z.to_nat j) (raised (p_table p))). { replace j with (Z.of_nat (Z.to_nat j)) at 1 by lia. apply in_zs. } rewrite Ej. unfold raised. rewrite in_app_iff.
      assert (E0 : In (Z.to_nat j) (concat (firstn 1 (p_table p))) <-> s_host b = -1).
      { destruct (p_table p) as [|g0 tb] eqn:Et; [discriminate|]. cbn [firstn concat]. rewrite app_nil_r, (proj1 (HTG 0%nat g0 eq_refl)). change (Z.of_nat 0 - 1) with (-1). split.
        - intros (m & Hm & Em). assert (Hlt : (Z.to_nat j < length olds)%nat) by (rewrite Hlo; eapply nth_error_lt; eauto). destruct (nth_error_in_range olds _ Hlt) as [x Hx]. destruct (F2_nth _ _ _ HF _ m x Hm Hx) as [_ E2].
          rewrite zget_nat, Ef, nth_error_app1 in Hb0 by lia. congruence.
        - intros E. destruct (Hwas j b0 Hb0) as [[Hx _]|(_ & _ & Hx)]; [|lia]. rewrite <- E, <- Ehb. exact Hx. }
      assert (E1 : In (Z.to_nat j) (concat (map first_of (List.tl (p_table p)))) <-> exists h rest, nth_error (p_table p) (S h) = Some (Z.to_nat j :: rest)).
      { split.
        - intros Hin. apply in_concat in Hin as (g & Hg & Hin). apply in_map_iff in Hg as (g' & <- & Hg'). apply In_nth_error in Hg' as [h Hh']. exists h. destruct g' as [|c rest]; [destruct Hin|]. destruct Hin as [->|[]]. exists rest. destruct (p_table p); [destruct h; discriminate|exact Hh'].
        - intros (h & rest & Hh'). apply in_concat. exists [Z.to_nat j]. split; [|left; reflexivity]. apply in_map_iff. exists (Z.to_nat j :: rest). split; [reflexivity|]. destruct (p_table p); [destruct h; discriminate|]. eapply nth_error_In; exact Hh'. }
      rewrite E0, E1. tauto. }
    rewrite (Hkept i j). split.
    - intros (a1 & b1 & Ha1 & Hb1 & Hin & Eh & Hr). rewrite Ha0 in Ha1. rewrite Hb0 in Hb1. injection Ha1 as <-. injection Hb1 as <-. split.
      + destruct (Hwas i a0 Ha0) as [[_ (s & Hs & E)]|(_ & E & _)]; [|rewrite E in Hin; destruct Hin]. apply nesting_fields in E as (E1 & _ & E2). exists s. split; [exact Hs|]. split; [congruence|]. rewrite E2, <- Etb. exact Hin.
      + split; [congruence|]. rewrite Hraised in Hr. split; [tauto|]. intros h rest E. apply Hr. right. eauto.
    - intros ((s & Hs & E1 & Hin) & Eh & Hne & Hnf). exists a0, b0. split; [exact Ha0|]. split; [exact Hb0|]. split; [|split; [congruence|]].
      + assert (Hpos : 0 <= s_track s). { apply (in_map s_track) in Hs. apply (Permutation_in _ Htr) in Hs. apply in_map_iff in Hs as (n & <- & _). lia. }
        destruct (Hwas i a0 Ha0) as [[_ (s' & Hs' & E)]|(E & _)]; [|lia]. apply nesting_fields in E as (E2 & _ & E3). assert (s' = s) by (eapply (NoDup_map_inv_eq s_track); eauto; congruence). subst s'. rewrite <- E3, Etb. exact Hin.
      + rewrite Hraised. intros [E|(h & rest & E)]; [contradiction|]. exact (Hnf h rest E).
  Qed.

  (** ** No crash *)
  Lemma nest_total_length : nest_fed before ps -> exists locals, localize (map (fun p => (p_hash p, p_fed p)) ps) = Some locals /\
    forall k q l order, nth_error ps k = Some q -> nth_error locals k = Some l -> Permutation order (seq 0 (length l)) ->
      exists subs heads, nest_local (length l) order (p_table q) l = Done (subs, heads) /\ length subs = (length (p_moved q) + count_empty (p_table q))%nat.
  Proof.
    intros Hfd. pose proof (history_ok _ Hhist) as Hok. destruct (fed_spec before ps Hok Hfd) as (Hfed & ts & HG). destruct Hfd as (HP & Hh & Hprep & Hhash).
    set (procs := map (fun p => (p_hash p, p_fed p)) ps) in *.
    assert (Eprocs : map snd procs = map p_fed ps) by (unfold procs; rewrite map_map; reflexivity).
    assert (Hhash' : Forall (fun p => mapped_fill (track_keys (snd p)) (fst p)) procs).
    { unfold procs. rewrite Forall_forall in Hhash |- *. intros q Hq. apply in_map_iff in Hq as (p' & <- & Hp'). cbn [fst snd]. exact (Hhash p' Hp'). }
    rewrite <- Eprocs in HG.
    assert (Hl : exists locals, localize procs = Some locals).
    { destruct (localize_spec procs) as (o & E & _); [exact Hhash'| |eauto]. apply HG. }
    destruct Hl as [locals Hl]. exists locals. split; [exact Hl|]. intros k q l order Hk Hlk Hord.
    destruct (localized procs locals ts Hhash' HG Hl k (p_hash q, p_fed q) l) as (tl & Htl & Hcopy & HLl & _); [unfold procs; erewrite map_nth_error; [reflexivity|exact Hk]|exact Hlk|]. cbn [snd] in *.
    assert (Hq := nth_error_In _ _ Hk). rewrite Forall_forall in Hfed, Hh.
    destruct (level_nested (p_moved q) (length (p_halos q)) (p_table q) (p_fed q) l tl (length l) order) as (subs & tn & El & HN & HLs & _).
    - apply (Hh q Hq).
    - apply Hfed; exact Hq.
    - exact Htl.
    - exact HLl.
    - intros i s Hs. destruct (Hcopy i s Hs) as (s' & Hs' & kept & r & -> & Hkept & _ & Hr2). exists (set_nest kept (set_rank r s)). cbn. split; [exact Hs'|]. split; [reflexivity|]. split; [reflexivity|]. intros Hneg Hne. rewrite Hne in Hkept. cbn in Hkept. inversion Hkept; subst. split; [reflexivity|]. apply Hr2. left; exact Hneg.
    - lia.
    - exact Hord.
    - unfold nest_local. rewrite El. cbn [rbind]. destruct HN as (_ & HLn & HTL & HTG & _). destruct (mapM_total (heads_of subs) (List.tl (p_table q))) as [hs ->]; [|eauto].
      intros g Hg. apply heads_total. intros i Hi. assert (Hg' : In g (p_table q)) by (destruct (p_table q); [destruct Hg|right; exact Hg]). apply In_nth_error in Hg' as [n Hn]. apply (HTG n g Hn) in Hi. apply hosted_lt in Hi. lia.
  Qed.
  Lemma nest_total : nest_fed before ps -> exists locals, localize (map (fun p => (p_hash p, p_fed p)) ps) = Some locals /\
    forall k q l order, nth_error ps k = Some q -> nth_error locals k = Some l -> Permutation order (seq 0 (length l)) ->
      exists subs heads, nest_local (length l) order (p_table q) l = Done (subs, heads).
  Proof.
    intros Hfd. destruct (nest_total_length Hfd) as (locals & E & HT). exists locals. split; [exact E|]. intros k q l order H1 H2 H3. destruct (HT k q l order H1 H2 H3) as (subs & heads & E1 & _). eauto.
  Qed.

  Lemma update_total sort order snap halo_ids : nest_begun before ps -> sorts_by_mass (p_reg p) sort -> length halo_ids = length (p_halos p) ->
    Permutation order (seq 0 (length halo_ids)) -> (forall s, In s (p_reg p) -> s_snapsink s = snap -> 0 <= s_sink s < Z.of_nat (length (p_reg p))) ->
    exists ranked out, update_tracks sort (length (p_reg p)) order snap halo_ids (p_heads p) (p_reg p) = Done (ranked, out).
  Proof.
    intros Hb Hs Hids Hord Hsink. assert (Hk := Hp). apply In_nth_error in Hk as [k Hk]. destruct (begun_spec before ps (history_ok _ Hhist) Hb) as [H1 H2].
    destruct (H1 k p Hk) as (_ & (tn & HN) & Hheads & _). destruct (H2 k p Hk) as (tr & HR). destruct Hb as (_ & _ & _ & Hwork & _). rewrite Forall_forall in Hwork. rewrite Hids in Hord.
    destruct (ranked_spec _ _ _ _ _ _ _ _ _ _ order (Hwork p Hp) HN HR Hheads Hs Hord) as (table2 & s1 & s2 & s3 & E0 & E1 & E2 & E3 & HT2 & HU & ts3 & Hts3).
    unfold update_tracks. rewrite Hids, E0. cbn [of_opt rbind]. rewrite E1. cbn [rbind]. rewrite E2. cbn [of_opt rbind]. rewrite E3. cbn [rbind].
    destruct HU as (HLu & HUs & _). destruct HR as (_ & _ & _ & _ & _ & _ & _ & Hhost).
    assert (Hb3 : forall i s, nth_error s3 i = Some s -> exists r, nth_error (p_reg p) i = Some r /\ same_but_nest r s).
    { intros i s Hi. destruct (nth_error_in_range (p_reg p) i) as [r Hr]; [apply nth_error_lt in Hi; lia|]. exists r. split; [exact Hr|]. destruct (HUs (Z.of_nat i) r) as (s' & Hs' & Hsb & _); [rewrite zget_of_nat; exact Hr|]. rewrite zget_of_nat in Hs'. congruence. }
    assert (Hfin : forall s, exists s1, update_track snap s = s1 /\ s_host s1 = s_host s /\ s_snapsink s1 = s_snapsink s /\ s_sink s1 = s_sink s /\ s_nest s1 = @s_nest X R s).
    { intros s. exists (update_track snap s). split; [reflexivity|]. unfold update_track. destruct (s_track s =? -1); [auto|]. destruct (s_rank s =? 0); cbn; destruct (Qle_bool _ _); cbn; auto. }
    destruct (mapM_total (finish_one snap halo_ids) s3) as [s4 E4].
    { intros s Hin. apply In_nth_error in Hin as [i Hi]. destruct (Hb3 i s Hi) as (r & Hr & Hsb). apply same_but_host in Hsb. specialize (Hhost i r Hr). unfold finish_one. destruct (Hfin s) as (u & -> & Eu & _). rewrite Eu, <- Hsb.
      destruct (s_host r <? 0) eqn:Elt; [eauto|]. apply Z.ltb_ge in Elt. destruct (zget_in_range halo_ids (s_host r)) as [h ->]; [lia|]. eauto. }
    rewrite E4. cbn [of_opt rbind]. assert (HL4 := mapM_length _ _ _ E4).
    destruct (mapM_total (globalize_one snap s4) s4) as [s5 E5].
    { intros s Hin. apply In_nth_error in Hin as [i Hi]. destruct (nth_error_in_range s3 i) as [u Hu]; [apply nth_error_lt in Hi; lia|]. destruct (mapM_nth _ _ _ _ _ E4 Hu) as (s' & Ef & Hs'). assert (s' = s) by congruence. subst s'.
      destruct (Hb3 i u Hu) as (r & Hr & Hsb). assert (Esk : s_snapsink s = s_snapsink r /\ s_sink s = s_sink r /\ s_nest s = s_nest u).
      { unfold same_but_nest in Hsb. assert (A1 := f_equal s_snapsink Hsb). assert (A2 := f_equal s_sink Hsb). cbn in A1, A2. unfold finish_one in Ef. destruct (Hfin u) as (w & Ew & _ & B1 & B2 & B3). rewrite Ew in Ef. destruct (s_host w <? 0); [|destruct (zget halo_ids (s_host w))]; try discriminate; injection Ef as <-; cbn; repeat split; congruence. }
      destruct Esk as (Es1 & Es2 & Es3). unfold globalize_one.
      assert (Hn : exists l, mapM (fun i => option_map s_track (zget s4 i)) (s_nest s) = Some l).
      { apply mapM_total. intros c Hc. rewrite Es3 in Hc. assert (Hl : lists s3 (Z.of_nat i) c) by (exists u; rewrite zget_of_nat; auto). apply (forest_lists s3 ts3 Hts3) in Hl. apply in_flat in Hl as (t & Ht & He). destruct (forest_get s3 ts3 Hts3 t c Ht (proj2 (edge_nodes _ _ _ He))) as [x Hx].
        destruct (zget_in_range s4 c) as [y Hy]; [rewrite HL4; eapply zget_some; eauto|]. rewrite Hy. cbn. eauto. }
      destruct Hn as [l Hl]. rewrite Hl. destruct (s_snapsink s =? snap) eqn:Esn; [|eauto]. apply Z.eqb_eq in Esn. destruct (zget_in_range s4 (s_sink s)) as [y Hy].
      { rewrite HL4, HLu, Es2. apply Hsink; [eapply nth_error_In; eauto|congruence]. } rewrite Hy. cbn. eauto. }
    unfold globalize. rewrite E5. cbn. eauto.
  Qed.

  (** ** After ranking *)
  Lemma ranked_facts : nest_run before ps -> well_nested (p_ranked p) /\ (forall h i, 0 <= h -> member (p_ranked p) h i -> exists c, covers (p_ranked p) h c) /\
    (forall i s, zget (p_ranked p) i = Some s -> s_host s = -1 -> s_rank s = 0 /\ s_nest s = []) /\
    length (p_ranked p) = length (p_reg p) /\ (forall i s u, nth_error (p_reg p) i = Some s -> nth_error (p_ranked p) i = Some u -> same_but_nest s u).
  Proof.
    intros Hrun. destruct (run_spec before ps (history_ok _ Hhist) Hrun) as [Hall _]. rewrite Forall_forall in Hall. specialize (Hall p Hp).
    destruct Hall as (_ & _ & _ & _ & _ & (sort & table & Hsort & HB & HT & (HL & HU & HG)) & (ts & Hts) & _). destruct HT as (HTL & HTG & HTH).
    set (subs := p_ranked p) in *. set (reg := p_reg p) in *.
    assert (Hback : forall i s, nth_error subs i = Some s -> exists r, nth_error reg i = Some r /\ same_but_nest r s /\ (s_host s = -1 -> s_rank s = 0 /\ s_nest s = [])).
    { intros i s Hi. destruct (nth_error_in_range reg i) as [r Hr]; [apply nth_error_lt in Hi; lia|]. exists r. split; [exact Hr|]. destruct (HU (Z.of_nat i) r) as (s' & Hs' & Hsb & Hf); [rewrite zget_of_nat; exact Hr|]. rewrite zget_of_nat in Hs'. assert (s' = s) by congruence. subst s'. split; [exact Hsb|].
      intros E. rewrite <- (same_but_host _ _ Hsb) in E. destruct (Hf E) as (A & B & _). auto. }
    assert (Hmem : forall h g i, nth_error table (S h) = Some g -> (In i (zs g) <-> member subs (Z.of_nat h) i)).
    { intros h g i Hg. destruct (HTG (S h) g Hg) as [_ Hiff]. unfold member. split.
      - intros Hi. apply in_map_iff in Hi as (n & <- & Hi). apply Hiff in Hi as (r & Hr & Er). destruct (nth_error_in_range subs n) as [s Hs]; [apply nth_error_lt in Hr; lia|]. exists s. rewrite zget_of_nat. split; [exact Hs|]. destruct (Hback n s Hs) as (r' & Hr' & Hsb & _). assert (r' = r) by congruence. subst. rewrite <- (same_but_host _ _ Hsb). lia.
      - intros (s & Hs & Es). pose proof (zget_some _ _ _ Hs). rewrite zget_nat in Hs by lia. replace i with (Z.of_nat (Z.to_nat i)) by lia. apply in_zs. apply Hiff. destruct (Hback _ s Hs) as (r & Hr & Hsb & _). exists r. split; [exact Hr|]. rewrite (same_but_host _ _ Hsb). lia. }
    assert (Hgrp : forall h i, 0 <= h -> member subs h i -> exists g, nth_error table (S (Z.to_nat h)) = Some g /\ In i (zs g)).
    { intros h i Hh0 Hm. assert (Hlt : (S (Z.to_nat h) < length table)%nat). { destruct Hm as (s & Hs & Es). pose proof (zget_some _ _ _ Hs). rewrite zget_nat in Hs by lia. destruct (Hback _ s Hs) as (r & Hr & Hsb & _). specialize (HTH _ r Hr). rewrite (same_but_host _ _ Hsb) in HTH. lia. }
      destruct (nth_error_in_range table _ Hlt) as [g Hg]. exists g. split; [exact Hg|]. apply (Hmem _ g i Hg). rewrite Z2Nat.id by lia. exact Hm. }
    split; [|split; [|split; [|split; [exact HL|]]]].
    - eapply forest_well_nested; [exact Hts|]. intros a b He. assert (Hl : lists subs a b) by (apply (forest_lists subs ts Hts); exact He). destruct Hl as (s & Hs & Hin). pose proof (zget_some _ _ _ Hs) as Har.
      assert (Hs' := Hs). rewrite zget_nat in Hs' by lia. destruct (Hback _ s Hs') as (r & Hr & Hsb & Hfield). destruct (Z.eq_dec (s_host s) (-1)) as [E|E]; [destruct (Hfield E) as [_ E2]; rewrite E2 in Hin; destruct Hin|].
      assert (Hh0 : 0 <= s_host s). { specialize (HTH _ r Hr). rewrite (same_but_host _ _ Hsb) in HTH. lia. }
      destruct (Hgrp (s_host s) a Hh0) as (g & Hg & Hga); [exists s; auto|]. specialize (HG _ g Hg). destruct g as [|c0 rest]; [destruct Hga|]. destruct HG as (t & HR & Hlab & HP & _).
      assert (Hat : In a (nodes t)) by (eapply Permutation_in; [symmetry; exact HP|exact Hga]). assert (Hedge : In (a, b) (edges t)) by (apply (lists_edge subs t a b HR Hat); exists s; auto).
      assert (Hbg : In b (zs (c0 :: rest))) by (eapply Permutation_in; [exact HP|]; exact (proj2 (edge_nodes _ _ _ Hedge))). apply (Hmem _ _ b Hg) in Hbg. rewrite Z2Nat.id in Hbg by lia. destruct Hbg as (u & Hu & Eu). unfold hostz. rewrite Hu, Hs. exact Eu.
    - intros h i Hh0 Hm. destruct (Hgrp h i Hh0 Hm) as (g & Hg & Hgi). destruct (HTG _ g Hg) as [Hnd Hiff]. assert (HGd := HG _ g Hg). destruct g as [|c0 rest] eqn:Eg; [destruct Hgi|]. rewrite <- Eg in *. assert (HGd' := HGd). rewrite Eg in HGd'. destruct HGd' as (t & HR & Hlab & HP & Hrk & Hdep).
      assert (Hnt : NoDup (nodes t)). { eapply Permutation_NoDup; [symmetry; exact HP|]. rewrite <- Eg. apply NoDup_map_inj; [intros x y _ _; apply Nat2Z.inj|exact Hnd]. }
      assert (Hmem' : forall i, In i (zs g) <-> member subs h i) by (intros u; rewrite (Hmem _ g u Hg), Z2Nat.id by lia; reflexivity).
      assert (Hpos : forall u s, zget subs u = Some s -> s_host s = h -> exists n, nth_error g n = Some (Z.to_nat u) /\ s_rank s = Z.of_nat n).
      { intros u s Hu Es. assert (Hug : In u (zs g)) by (apply Hmem'; exists s; auto). apply in_map_iff in Hug as (n & <- & Hn). apply In_nth_error in Hn as [q Hq]. exists q. rewrite Nat2Z.id. split; [exact Hq|]. rewrite Eg in Hq. eapply Hrk; [exact Hq|]. rewrite zget_of_nat in Hu. exact Hu. }
      exists (Z.of_nat c0). constructor.
      + assert (Hc : member subs h (Z.of_nat c0)) by (apply Hmem'; apply in_zs; rewrite Eg; left; reflexivity). destruct Hc as (s & Hs & Es). exists s. split; [exact Hs|]. split; [exact Es|]. change 0 with (Z.of_nat 0). eapply Hrk; [reflexivity|]. rewrite zget_of_nat in Hs. exact Hs.
      + intros u. rewrite <- Hmem', <- Hlab. split.
        * intros Hu. assert (Hun : In u (nodes t)) by (eapply Permutation_in; [symmetry; exact HP|rewrite <- Eg; exact Hu]). destruct (depths_in t 0 u Hun) as [x Hx]. pose proof (depths_ge _ _ _ _ Hx). exists (Z.to_nat x). apply (reach_root subs t _ _ HR Hnt). rewrite Z2Nat.id by lia. exact Hx.
        * intros (d & Hd). apply (reach_root subs t _ _ HR Hnt) in Hd. apply depths_node in Hd. rewrite Eg. eapply Permutation_in; [exact HP|exact Hd].
      + intros u d s Hd Hs. rewrite <- Hlab in Hd. apply (reach_root subs t _ _ HR Hnt) in Hd. eapply Hdep; eauto.
      + intros u s Hu Es. destruct (Hpos u s Hu Es) as (n & Hn & ->). apply nth_error_lt in Hn. unfold members_count. rewrite <- (count_index (fun s => s_host s =? h) subs g Hnd); [lia|].
        intros v. rewrite <- in_zs. rewrite Hmem'. unfold member. rewrite zget_of_nat. split; intros (x & Hx & Ex); exists x; (split; [exact Hx|]); [apply Z.eqb_eq|apply Z.eqb_eq in Ex]; exact Ex.
      + intros u v s w Hu Hv Es Ew Er. destruct (Hpos u s Hu Es) as (n & Hn & E1). destruct (Hpos v w Hv Ew) as (m & Hm' & E2). assert (n = m) by lia. subst m. rewrite Hn in Hm'. injection Hm' as E. pose proof (zget_some _ _ _ Hu). pose proof (zget_some _ _ _ Hv). lia.
      + intros u v s w Hu Hv Es Ew Er. destruct (Hpos u s Hu Es) as (n & Hn & E1). destruct (Hpos v w Hv Ew) as (m & Hm' & E2).
        destruct (table_props sort (length (p_halos p)) reg) with (incl := true) as (tb & HB' & _ & HGs); [rewrite Forall_forall; intros x Hx; apply In_nth_error in Hx as [y Hy]; eauto|exact Hsort|].
        rewrite HB in HB'. injection HB' as <-. destruct (HGs _ g Hg) as (_ & _ & Hss).
        assert (Hheavy : heavier reg (Z.to_nat u) (Z.to_nat v)).
        { assert (Hlt : (n < m)%nat) by lia. clear -Hss Hn Hm' Hlt. revert n m Hn Hm' Hlt. induction Hss as [|x l Hss IH Hx]; intros n m Hn Hm' Hlt; [destruct n; discriminate|]. destruct m; [lia|]. cbn in Hm'. destruct n; cbn in Hn.
          - injection Hn as ->. rewrite Forall_forall in Hx. apply Hx. eapply nth_error_In; eauto.
          - eapply IH; eauto. lia. }
        pose proof (zget_some _ _ _ Hu). pose proof (zget_some _ _ _ Hv). rewrite zget_nat in Hu, Hv by lia. destruct (Hback _ s Hu) as (r1 & Hr1 & Hb1 & _). destruct (Hback _ w Hv) as (r2 & Hr2 & Hb2 & _). specialize (Hheavy r1 r2 Hr1 Hr2).
        unfold same_but_nest in Hb1, Hb2. apply (f_equal s_mass) in Hb1. apply (f_equal s_mass) in Hb2. cbn in Hb1, Hb2. rewrite <- Hb1, <- Hb2. exact Hheavy.
    - intros i s Hs E. pose proof (zget_some _ _ _ Hs). rewrite zget_nat in Hs by lia. destruct (Hback _ s Hs) as (_ & _ & _ & Hf). auto.
    - intros i s u Hs Hu. destruct (Hback i u Hu) as (r & Hr & Hsb & _). congruence.
  Qed.
End S.
