(** The steps of one snapshot, as far as nesting is concerned. *)
From Coq Require Import List ZArith QArith Bool Lia Sorting.Permutation.
From Verif.Model Require Import ListMem Mpi Run Hash Subhalo Tracks Nest UpdateTracks.
From Verif.Spec Require Import Members Lookup Forest Nesting NestHistory.
From Verif.Proofs Require Import ListMemProofs MpiProofs ListExtra HashProofs MemberProofs CentralProofs CentralProofs2 TrackProofs TreeProofs NestProofs NestProofs2 NestProofs3 NestProofs4 NestProofs5 LocalizeProofs ForestSteps.
Import ListNotations.
Local Open Scope Z_scope.

Section S.
  Context {X R H : Type}.
  Local Notation subs_t := (list (sub X R)).

  (** ** Global forests depend on the nesting of registered subhalos only *)
  Lemma registered_map (f : sub X R -> sub X R) (l : subs_t) : (forall s, s_track (f s) = s_track s) -> map f (registered l) = registered (map f l).
  Proof. intros Hf. unfold registered. induction l as [|s l IH]; cbn; [reflexivity|]. rewrite Hf. destruct (0 <=? s_track s); cbn; rewrite IH; reflexivity. Qed.
  Lemma keys_in (a b : subs_t) s : Permutation (map nesting_of a) (map nesting_of b) -> In s a -> exists s', In s' b /\ nesting_of s' = nesting_of s.
  Proof. intros HP Hs. apply (in_map nesting_of) in Hs. apply (Permutation_in _ HP) in Hs. apply in_map_iff in Hs as (s' & E & Hs'). eauto. Qed.
  Lemma keys_tracks (a b : subs_t) : Permutation (map nesting_of a) (map nesting_of b) -> Permutation (map s_track a) (map s_track b).
  Proof. intros HP. apply (Permutation_map (fun k => fst (fst k))) in HP. rewrite !map_map in HP. exact HP. Qed.
  Lemma nesting_fields (a b : sub X R) : nesting_of a = nesting_of b -> s_track a = s_track b /\ s_rank a = s_rank b /\ s_nest a = s_nest b.
  Proof. unfold nesting_of. intros E. injection E as E1 E2 E3. auto. Qed.
  Lemma is_forest_ext (m m' : Z -> list Z -> Prop) dom dom' ts : (forall i l, m i l -> m' i l) -> Permutation dom dom' -> is_forest m dom ts -> is_forest m' dom' ts.
  Proof.
    intros Hm HP [HF HN]. split; [|eapply perm_trans; eauto]. rewrite Forall_forall in *. intros t Ht. specialize (HF t Ht). clear -HF Hm.
    induction t as [i us IH] using tree_rect'. apply represents_node_inv in HF as [H1 H2]. constructor; [auto|]. rewrite Forall_forall in *. auto.
  Qed.
  Lemma global_keys (a b : subs_t) ts : Permutation (map nesting_of (registered a)) (map nesting_of (registered b)) ->
    (forall s, In s b -> s_track s < 0 -> s_nest s = [] /\ s_rank s = 0) -> global_forest a ts -> global_forest b ts.
  Proof.
    intros HP Hb (Hnd & HF & Hrk & _). pose proof (keys_tracks _ _ HP) as HT. split; [eapply Permutation_NoDup; eauto|]. split; [|split; [|exact Hb]].
    - eapply is_forest_ext; [|exact HT|exact HF]. intros t l (s & Hs & Et & El). destruct (keys_in _ _ s HP Hs) as (s' & Hs' & E). apply nesting_fields in E as (E1 & _ & E3).
      exists s'. split; [exact Hs'|]. split; congruence.
    - intros s Hs. destruct (keys_in _ _ s (Permutation_sym HP) Hs) as (s' & Hs' & E). apply nesting_fields in E as (E1 & E2 & _). rewrite <- E1, <- E2. apply Hrk. exact Hs'.
  Qed.
  Lemma registered_keys (a b : subs_t) : Permutation (map nesting_of a) (map nesting_of b) -> Permutation (map nesting_of (registered a)) (map nesting_of (registered b)).
  Proof.
    intros HP. assert (E : forall l : subs_t, map nesting_of (registered l) = filter (fun k => 0 <=? fst (fst k)) (map nesting_of l)).
    { unfold registered. induction l as [|s l IH]; [reflexivity|]. cbn. destruct (0 <=? s_track s); cbn; rewrite IH; reflexivity. }
    rewrite !E. apply perm_filter. exact HP.
  Qed.
  Lemma registered_app (a b : subs_t) : registered (a ++ b) = registered a ++ registered b.
  Proof. apply filter_app. Qed.

  (** ** FeedCentrals *)
  Definition fresh_sub (table : list (list nat)) (s : sub X R) : Prop :=
    s_track s = -1 /\ s_rank s = 0 /\ s_nest s = [] /\ exists g, s_host s = Z.of_nat g /\ nth_error table (S g) = Some [].
  Definition fed_as (moved : subs_t) (nh : nat) (table : list (list nat)) (fed : subs_t) : Prop :=
    length table = S nh /\
    (forall g l, nth_error table g = Some l -> (forall i, In i l <-> hosted_by moved i (Z.of_nat g - 1)) /\ NoDup l) /\
    exists olds news, fed = olds ++ news /\
      Forall2 (fun a b => nesting_of a = nesting_of b /\ s_host a = s_host b) moved olds /\
      Forall (fresh_sub table) news /\ NoDup (map s_host news) /\ length news = count_empty table.
  Lemma prepared_spec (p : @proc X R H) : hosts_found p -> prepared p -> fed_as (p_moved p) (length (p_halos p)) (p_table p) (p_fed p).
  Proof.
    intros (Hh & Hm & Hp) (sort & ratio & dist & centre & snap & fresh & order & st & Hs & Hr & Ho & E & Ef).
    destruct (step_spec sort ratio dist (p_moved p) (p_halos p) Hh Hs Hm Hr centre snap fresh Hp order Ho) as (table & st' & E' & (HL & HG & _) & Hfinv & Hcnt).
    rewrite E in E'. injection E' as <- <-. split; [exact HL|]. split; [exact HG|].
    destruct Hfinv as (olds & H1 & H2 & H3 & H4 & H5 & H6 & H7). rewrite Hcnt, Nat.sub_diag in H1. cbn [repeat] in H1. rewrite app_nil_r in H1.
    exists olds, (map (newborn centre snap fresh (p_halos p)) (filter (is_empty_group (p_table p)) order)). split; [rewrite Ef; exact H1|].
    assert (Hhost : forall g, In g (filter (is_empty_group (p_table p)) order) -> s_host (newborn centre snap fresh (p_halos p) g) = Z.of_nat g /\ fresh_sub (p_table p) (newborn centre snap fresh (p_halos p) g)).
    { intros g Hg. apply filter_In in Hg as [Hg Hgr]. apply (Permutation_in _ Ho) in Hg. apply in_seq in Hg. unfold newborn. destruct (nth_error_in_range (p_halos p) g) as [[hp h] Eh]; [lia|]. rewrite Eh.
      split; [reflexivity|]. repeat split. exists g. split; [reflexivity|]. unfold is_empty_group in Hgr. destruct (nth_error (p_table p) (S g)) as [[|? ?]|]; try discriminate. reflexivity. }
    split; [|split; [|split]].
    - apply Forall2_of_nth; [congruence|]. intros i a b Ha Hb.
      destruct (In_dec Nat.eq_dec i (concat (map (firstn 1) (tl (p_table p))))) as [Hin|Hin].
      + apply in_concat in Hin as (l & Hl & Hil). apply in_map_iff in Hl as (g & <- & Hg). apply In_nth_error in Hg as [k Hk]. destruct g as [|m0 rest]; [destruct Hil|]. destruct Hil as [<-|[]].
        assert (Hk' : nth_error (p_table p) (S k) = Some (m0 :: rest)) by (destruct (p_table p); [destruct k; discriminate|exact Hk]).
        assert (Hko : In k order). { apply (Permutation_in _ (Permutation_sym Ho)). apply in_seq. pose proof (nth_error_lt _ _ _ Hk'). lia. }
        destruct (H7 k m0 rest Hko Hk') as (s' & Hs' & c & p0 & pr & parts' & Hc & _ & Es & _). assert (b = s') by congruence. assert (a = c) by congruence. subst. split; reflexivity.
      + rewrite H6 in Hb; [assert (a = b) by congruence; subst; auto|]. intros g m0 rest Hg Hgt <-. apply Hin. apply in_concat. exists [m0]. split; [|left; reflexivity].
        apply in_map_iff. exists (m0 :: rest). split; [reflexivity|]. destruct (p_table p); [discriminate|]. eapply nth_error_In; exact Hgt.
    - rewrite Forall_forall. intros s Hs'. apply in_map_iff in Hs' as (g & <- & Hg). apply Hhost. exact Hg.
    - rewrite map_map. rewrite (map_ext_in _ Z.of_nat) by (intros g Hg; apply Hhost; exact Hg). apply NoDup_map_inj; [intros x y _ _; apply Nat2Z.inj|].
      apply NoDup_filter. eapply Permutation_NoDup; [symmetry; exact Ho|apply seq_NoDup].
    - rewrite map_length. exact Hcnt.
  Qed.

  Lemma Forall2_keys (a b : subs_t) : Forall2 (fun x y => nesting_of x = nesting_of y /\ s_host x = s_host y) a b -> map nesting_of a = map nesting_of b.
  Proof. intros HF. induction HF as [|x y a b [E _] _ IH]; cbn; [reflexivity|]. rewrite E, IH. reflexivity. Qed.
  Lemma fed_registered moved nh table fed : fed_as moved nh table fed -> map nesting_of (registered fed) = map nesting_of (registered moved).
  Proof.
    intros (_ & _ & olds & news & -> & HF & Hn & _). rewrite registered_app, map_app.
    replace (registered news) with (@nil (sub X R)); [|clear -Hn; induction Hn as [|s l (Ht & _) _ IH]; [reflexivity|]; cbn; rewrite Ht; exact IH]. cbn [map]. rewrite app_nil_r.
    apply Forall2_keys in HF. assert (E : forall l : subs_t, map nesting_of (registered l) = filter (fun k => 0 <=? fst (fst k)) (map nesting_of l)).
    { unfold registered. induction l as [|s l IH]; [reflexivity|]. cbn. destruct (0 <=? s_track s); cbn; rewrite IH; reflexivity. }
    rewrite !E, HF. reflexivity.
  Qed.

  (** ** NestSubhalos *)
  (** what is known of one process after nesting: old subhalos first *)
  Definition nested_as (moved : subs_t) (nh : nat) (table : list (list nat)) (subs : subs_t) (ts : list tree) : Prop :=
    local_forest subs ts /\ length subs = (length moved + count_empty table)%nat /\ length table = S nh /\
    (forall g l, nth_error table g = Some l -> (forall i, In i l <-> hosted_by moved i (Z.of_nat g - 1)) /\ NoDup l) /\
    (forall i a, nth_error moved i = Some a -> exists b, nth_error subs i = Some b /\ s_track b = s_track a /\ s_host b = s_host a) /\
    Forall (fresh_sub table) (skipn (length moved) subs) /\ NoDup (map s_host (skipn (length moved) subs)) /\
    (forall p c, In (p, c) (flat_map edges ts) -> hostz subs c = hostz subs p) /\
    (forall i s, zget subs i = Some s -> s_host s = -1 -> s_nest s = []) /\
    (forall h c rest, nth_error table (S h) = Some (c :: rest) -> forall s, nth_error subs c = Some s -> s_rank s = 0).

  (** only nest and rank differ *)
  Definition renested (a b : sub X R) : Prop := exists n r, b = set_nest n (set_rank r a).
  Lemma hosted_lt (moved : subs_t) i h : hosted_by moved i h -> (i < length moved)%nat.
  Proof. intros (s & Hs & _). eapply nth_error_lt; eauto. Qed.

  Lemma level_nested moved nh table fed loc ts fuel order :
    Forall (fun s => -1 <= s_host s < Z.of_nat nh) moved ->
    fed_as moved nh table fed -> local_forest loc ts -> length loc = length fed ->
    (forall i s, nth_error fed i = Some s -> exists s', nth_error loc i = Some s' /\ s_track s' = s_track s /\ s_host s' = s_host s /\ (s_track s < 0 -> s_nest s = [] -> s_nest s' = [] /\ s_rank s' = s_rank s)) ->
    (length loc <= fuel)%nat -> Permutation order (seq 0 (length loc)) ->
    exists subs ts', level_up_all fuel order table loc = Done subs /\ nested_as moved nh table subs ts' /\ length subs = length loc /\
      (forall p c, In (p, c) (flat_map edges ts') <-> In (p, c) (flat_map edges ts) /\ hostz loc c = hostz loc p /\ rkz loc table c <> 0) /\ Forall2 renested loc subs.
  Proof.
    intros Hmh (HTL & HTG & olds & news & Ef & HF & Hn & Hnd & Hcnt) [Hfor Hroot] HL Hloc Hfuel Hord.
    assert (Hlen : length olds = length moved) by (symmetry; eapply F2_length; eauto).
    assert (Hlt : forall g i, In g table -> In i g -> (i < length loc)%nat).
    { intros g i Hg Hi. apply In_nth_error in Hg as [k Hk]. apply (proj1 (HTG k g Hk)) in Hi. apply hosted_lt in Hi. rewrite HL, Ef, app_length, Hlen. lia. }
    destruct (level_up_all_spec loc table ts Hfor Hroot Hlt fuel order Hfuel Hord) as (subs & Es & HLs & Hfin).
    destruct (after_forest loc table ts Hfor Hroot subs HLs Hfin) as (Hfor' & Hroot' & Hedge).
    exists subs, (after_ts loc table ts). split; [exact Es|]. split; [|split; [exact HLs|split; [exact Hedge|]]].
    2:{ apply Forall2_of_nth; [congruence|]. intros i a b Ha Hb. specialize (Hfin (Z.of_nat i)). rewrite !zget_of_nat, Ha, Hb in Hfin. cbn in Hfin. injection Hfin as ->. eexists. eexists. reflexivity. }
    assert (Hget : forall i s, nth_error loc i = Some s -> exists s', nth_error subs i = Some s' /\ s_track s' = s_track s /\ s_host s' = s_host s /\ (s_nest s = [] -> s_nest s' = []) /\ (s_rank s = 0 -> s_rank s' = 0)).
    { intros i s Hs. specialize (Hfin (Z.of_nat i)). rewrite !zget_of_nat, Hs in Hfin. cbn in Hfin. exists (final_of loc table ts (Z.of_nat i) s). split; [exact Hfin|]. unfold final_of. cbn. split; [reflexivity|]. split; [reflexivity|]. split.
      - intros ->. reflexivity.
      - intros Hr. unfold rkz. rewrite zget_of_nat, Hs, Hr. destruct (memb _ _); [reflexivity|]. destruct (memb _ _); reflexivity. }
    assert (Hhz : forall i, hostz subs i = hostz loc i).
    { intros i. unfold hostz. rewrite Hfin. destruct (zget loc i); reflexivity. }
    split; [split; assumption|]. split; [rewrite HLs, HL, Ef, app_length, Hlen, Hcnt; reflexivity|]. split; [exact HTL|]. split; [exact HTG|].
    assert (Hold : forall i a, nth_error moved i = Some a -> exists b, nth_error subs i = Some b /\ s_track b = s_track a /\ s_host b = s_host a).
    { intros i a Ha. destruct (Forall2_nth _ _ _ i a HF Ha) as (b & Hb & E & Eh). apply nesting_fields in E as (E1 & _). destruct (Hloc i b) as (s' & Hs' & Et & Eh' & _).
      { rewrite Ef, nth_error_app1; [exact Hb|]. eapply nth_error_lt; eauto. }
      destruct (Hget i s' Hs') as (s'' & Hs'' & Et' & Eh'' & _). exists s''. split; [exact Hs''|]. split; congruence. }
    split; [exact Hold|].
    assert (Hnew : forall j s, nth_error news j = Some s -> exists s', nth_error subs (length moved + j) = Some s' /\ s_track s' = s_track s /\ s_host s' = s_host s /\ s_rank s' = 0 /\ s_nest s' = []).
    { intros j s Hs. assert (Hfs : fresh_sub table s) by (rewrite Forall_forall in Hn; apply Hn; eapply nth_error_In; eauto). destruct Hfs as (Ht & Hr & Hne & _).
      destruct (Hloc (length moved + j)%nat s) as (s' & Hs' & Et & Eh & Hx). { rewrite Ef, nth_error_app2, Hlen by lia. replace (length moved + j - length moved)%nat with j by lia. exact Hs. }
      destruct Hx as [Hx1 Hx2]; [lia|exact Hne|]. destruct (Hget _ s' Hs') as (s'' & Hs'' & Et' & Eh' & Hn'' & Hr''). exists s''. split; [exact Hs''|]. split; [congruence|]. split; [congruence|]. split; [apply Hr''; congruence|apply Hn''; exact Hx1]. }
    assert (Hsk : Forall2 (fun a b => s_track b = s_track a /\ s_host b = s_host a /\ s_rank b = 0 /\ s_nest b = []) news (skipn (length moved) subs)).
    { apply Forall2_of_nth; [rewrite skipn_length, HLs, HL, Ef, app_length, Hlen; lia|]. intros j a b Ha Hb. rewrite nth_skipn in Hb. destruct (Hnew j a Ha) as (s' & Hs' & Hx). assert (s' = b) by congruence. subst. exact Hx. }
    split; [|split; [|split; [|split]]].
    - rewrite Forall_forall. intros b Hb. apply In_nth_error in Hb as [j Hj]. assert (Hjl : (j < length news)%nat) by (rewrite (F2_length _ _ _ Hsk); eapply nth_error_lt; eauto).
      destruct (nth_error_in_range news j Hjl) as [a Ha]. destruct (F2_nth _ _ _ Hsk j a b Ha Hj) as (E1 & E2 & E3 & E4).
      assert (Hfs : fresh_sub table a) by (rewrite Forall_forall in Hn; apply Hn; eapply nth_error_In; eauto). destruct Hfs as (Ht & _ & _ & g & Eg & Hg). split; [congruence|]. split; [exact E3|]. split; [exact E4|]. exists g. split; congruence.
    - replace (map s_host (skipn (length moved) subs)) with (map s_host news); [exact Hnd|]. clear -Hsk. induction Hsk as [|a b l l' (_ & E & _) _ IH]; [reflexivity|]. cbn. rewrite E, IH. reflexivity.
    - intros p c Hpc. rewrite !Hhz. apply Hedge in Hpc as (_ & E & _). exact E.
    - intros i s Hs Hsh. destruct (s_nest s) as [|c l] eqn:En; [reflexivity|]. exfalso.
      assert (Hpc : In (i, c) (flat_map edges (after_ts loc table ts))).
      { destruct Hfor' as [HF' HP']. assert (Hi : In i (flat_map nodes (after_ts loc table ts))). { eapply Permutation_in; [symmetry; exact HP'|]. apply in_zs_range. eapply zget_some; eauto. }
        apply in_flat in Hi as (u & Hu & Hi). apply in_flat. exists u. split; [exact Hu|]. rewrite Forall_forall in HF'.
        eapply (represents_members _ u (HF' u Hu) i (s_nest s) Hi); [|exists s; auto|rewrite En; left; reflexivity]. intros l1 l2 (a & Ha & <-) (b & Hb & <-). congruence. }
      apply Hedge in Hpc as (He & Eh & Hrk). rewrite <- !Hhz in Eh. unfold hostz in Eh. rewrite Hs, Hsh in Eh.
      assert (Hc : exists sc, zget subs c = Some sc).
      { apply in_flat in He as (u & Hu & He). apply edge_nodes in He as [_ Hc]. destruct Hfor as [_ HP]. assert (Hcr : In c (zs (seq 0 (length loc)))) by (eapply Permutation_in; [exact HP|]; apply in_flat; eauto).
        apply in_zs_range in Hcr. apply zget_in_range. rewrite HLs. exact Hcr. }
      destruct Hc as [sc Hsc]. rewrite Hsc in Eh. pose proof (zget_some _ _ _ Hsc) as Hcr. rewrite zget_nat in Hsc by lia. apply Hrk. unfold rkz.
      assert (Hcm : In (Z.to_nat c) (raised table)).
      { unfold raised. apply in_or_app. right. destruct table as [|g0 tb]; [discriminate|]. cbn [firstn concat]. rewrite app_nil_r. apply (HTG 0%nat g0 eq_refl).
        assert (Hcl : (Z.to_nat c < length moved)%nat).
        { destruct (lt_dec (Z.to_nat c) (length moved)) as [|Hge]; [assumption|]. exfalso. assert (Hj : exists j, Z.to_nat c = (length moved + j)%nat) by (exists (Z.to_nat c - length moved)%nat; lia). destruct Hj as [j Ej].
          rewrite Ej in Hsc. assert (Hjl : (j < length news)%nat). { pose proof (nth_error_lt _ _ _ Hsc). rewrite HLs, HL, Ef, app_length, Hlen in H0. lia. }
          destruct (nth_error_in_range news j Hjl) as [a Ha]. destruct (Hnew j a Ha) as (s' & Hs' & _ & Ehh & _). assert (s' = sc) by congruence. subst s'.
          assert (Hfs : fresh_sub (g0 :: tb) a) by (rewrite Forall_forall in Hn; apply Hn; eapply nth_error_In; eauto). destruct Hfs as (_ & _ & _ & g & Eg & _). lia. }
        destruct (nth_error_in_range moved (Z.to_nat c) Hcl) as [a Ha]. exists a. split; [exact Ha|]. destruct (Hold _ a Ha) as (b & Hb & _ & Ehb). assert (b = sc) by congruence. subst b. cbn. lia. }
      assert (Em : memb c (zs (raised table)) = true). { destruct (memb_spec c (zs (raised table))) as [|Hni]; [reflexivity|]. exfalso. apply Hni. replace c with (Z.of_nat (Z.to_nat c)) by lia. apply in_zs. exact Hcm. }
      rewrite Em. reflexivity.
    - intros h c rest Hc s Hs. assert (Hcr : In c (raised table)).
      { unfold raised. apply in_or_app. left. apply in_concat. exists [c]. split; [|left; reflexivity]. apply in_map_iff. exists (c :: rest). split; [reflexivity|]. destruct table; [discriminate|]. eapply nth_error_In; exact Hc. }
      specialize (Hfin (Z.of_nat c)). rewrite !zget_of_nat, Hs in Hfin. destruct (nth_error loc c) as [s0|] eqn:E0; [|discriminate]. cbn in Hfin. injection Hfin as ->. unfold final_of. cbn.
      destruct (memb _ _); [reflexivity|]. unfold rkz. assert (Em : memb (Z.of_nat c) (zs (raised table)) = true). { destruct (memb_spec (Z.of_nat c) (zs (raised table))) as [|Hni]; [reflexivity|]. exfalso. apply Hni. apply in_zs. exact Hcr. }
      rewrite Em. reflexivity.
  Qed.

  (** the lists of heads *)
  Lemma heads_spec (subs : subs_t) g hs : (forall i, In i g -> (i < length subs)%nat) -> heads_of subs g = Some hs ->
    hs = filter (fun i => match nth_error subs i with Some s => s_rank s =? 0 | None => false end) g.
  Proof.
    intros Hg. unfold heads_of. destruct (mapM (nth_error subs) g) as [ss|] eqn:E; [|discriminate]. intros Eh. injection Eh as <-. clear Hg. revert ss E.
    induction g as [|i g IH]; intros ss E; cbn in E; [injection E as <-; reflexivity|]. destruct (nth_error subs i) as [s|] eqn:Ei; [|discriminate]. destruct (mapM (nth_error subs) g) as [ss'|] eqn:E2; [|discriminate].
    injection E as <-. cbn [combine filter fst snd]. rewrite Ei. destruct (s_rank s =? 0); cbn [map fst]; rewrite (IH ss' eq_refl); reflexivity.
  Qed.
  Lemma heads_total (subs : subs_t) g : (forall i, In i g -> (i < length subs)%nat) -> exists hs, heads_of subs g = Some hs.
  Proof.
    intros Hg. unfold heads_of. destruct (mapM_total (nth_error subs) g) as [ss ->]; [|eauto]. intros i Hi. apply nth_error_in_range. auto.
  Qed.
End S.
