(** Globalisation and whole histories. *)
From Coq Require Import List ZArith QArith Bool Lia Sorting.Permutation.
From Verif.Model Require Import ListMem Mpi Run Hash Subhalo Tracks Nest UpdateTracks.
From Verif.Spec Require Import Members Lookup Forest Nesting NestHistory.
From Verif.Proofs Require Import ListMemProofs MpiProofs ListExtra HashProofs MemberProofs CentralProofs CentralProofs2 TrackProofs TreeProofs NestProofs NestProofs2 NestProofs3 NestProofs4 NestProofs5 LocalizeProofs ForestSteps HistorySteps HistorySteps2 ReachProofs.
Import ListNotations.
Local Open Scope Z_scope.

Section S.
  Context {X R H : Type}.
  Local Notation subs_t := (list (sub X R)).

  Lemma registered_concat (l : list subs_t) : registered (concat l) = concat (map registered l).
  Proof. apply filter_concat. Qed.

  (** ** GlobalizeTrackReferences *)
  Definition track_of (subs : subs_t) (i : Z) : Z := match zget subs i with Some s => s_track s | None => -1 end.
  Definition global_copy (snap : Z) (subs : subs_t) (s o : sub X R) : Prop :=
    (forall c, In c (s_nest s) -> exists u, zget subs c = Some u) /\
    o = set_nest (map (track_of subs) (s_nest s)) (if s_snapsink s =? snap then set_sink (track_of subs (s_sink s)) (s_snapsink s) s else s) /\
    (s_snapsink s = snap -> exists u, zget subs (s_sink s) = Some u).
  Lemma mapM_track (subs : subs_t) l ts : mapM (fun i => option_map s_track (zget subs i)) l = Some ts ->
    ts = map (track_of subs) l /\ forall c, In c l -> exists u, zget subs c = Some u.
  Proof.
    revert ts; induction l as [|c l IH]; intros ts E; cbn in E; [injection E as <-; split; [reflexivity|intros ? []]|]. destruct (zget subs c) as [u|] eqn:Ec; [|discriminate]. cbn in E.
    destruct (mapM _ l) as [ts'|] eqn:E2; [|discriminate]. injection E as <-. destruct (IH ts' eq_refl) as [-> Hu]. split; [cbn; unfold track_of at 2; rewrite Ec; reflexivity|]. intros x [<-|Hx]; eauto.
  Qed.
  Lemma globalize_spec snap (subs out : subs_t) : globalize snap subs = Some out -> Forall2 (global_copy snap subs) subs out.
  Proof.
    unfold globalize. intros E. apply Forall2_of_nth; [symmetry; eapply mapM_length; eauto|]. intros i s o Hs Ho. destruct (mapM_nth _ _ _ _ _ E Hs) as (o' & Eo & Ho'). assert (o' = o) by congruence. subst o'. clear Ho'.
    unfold globalize_one in Eo. unfold global_copy. destruct (Z.eqb_spec (s_snapsink s) snap) as [Es|Es].
    - destruct (zget subs (s_sink s)) as [u|] eqn:Eu; [|discriminate]. cbn in Eo. destruct (mapM _ (s_nest s)) as [ts|] eqn:Et; [|discriminate]. injection Eo as <-. apply mapM_track in Et as [-> Hu].
      split; [exact Hu|]. split; [|eauto]. unfold track_of at 3. rewrite Eu. reflexivity.
    - destruct (mapM _ (s_nest s)) as [ts|] eqn:Et; [|discriminate]. injection Eo as <-. apply mapM_track in Et as [-> Hu]. split; [exact Hu|]. split; [reflexivity|]. intros; contradiction.
  Qed.
  Lemma global_copy_fields snap (subs : subs_t) s o : global_copy snap subs s o -> s_track o = s_track s /\ s_rank o = s_rank s /\ s_nest o = map (track_of subs) (s_nest s) /\ s_host o = s_host s /\ s_depth o = s_depth s.
  Proof. intros (_ & -> & _). destruct (s_snapsink s =? snap); cbn; auto. Qed.

  (** local forests on all processes give a global forest *)
  Lemma globalized_forest (ls : list subs_t) (outs : list subs_t) :
    NoDup (map s_track (concat ls)) -> (forall s, In s (concat ls) -> 0 <= s_track s) ->
    Forall2 (fun l o => exists snap, globalize snap l = Some o) ls outs -> Forall (fun l => exists ts, local_forest l ts) ls ->
    exists ts, global_forest (concat outs) ts.
  Proof.
    intros Hnd Hpos Hout Hloc.
    assert (Hgen : forall (ls outs : list subs_t), Forall2 (fun l o => exists snap, globalize snap l = Some o) ls outs -> Forall (fun l => exists ts, local_forest l ts) ls ->
      NoDup (map s_track (concat ls)) -> (forall s, In s (concat ls) -> 0 <= s_track s) ->
      map s_track (concat outs) = map s_track (concat ls) /\
      exists ts, is_forest (fun t l => exists s, In s (concat outs) /\ s_track s = t /\ s_nest s = l) (map s_track (concat outs)) ts /\
        (forall s, In s (concat outs) -> (s_rank s = 0 <-> In (s_track s) (map label ts)))).
    { clear. intros ls outs HO. induction HO as [|l o ls outs (snap & Eg) HO IH]; intros HL Hnd Hpos.
      - split; [reflexivity|]. exists []. split; [split; constructor|]. intros s [].
      - inversion HL as [|? ? (tl & [HFl HPl] & Hrl) HL']; subst. cbn in Hnd. rewrite map_app in Hnd. destruct IH as (Et & ts & [HF HP] & Hrk); [exact HL'|eapply NoDup_app_remove_l; eauto|intros s Hs; apply Hpos; cbn; apply in_or_app; right; exact Hs|].
        apply globalize_spec in Eg. assert (Etl : map s_track o = map s_track l).
        { clear -Eg. set (base := l) in Eg at 1. clearbody base. induction Eg as [|s q l' o' Hc _ IHg]; [reflexivity|]. cbn. rewrite IHg. apply global_copy_fields in Hc as (-> & _). reflexivity. }
        assert (Hget : forall i s, zget l i = Some s -> exists q, zget o i = Some q /\ global_copy snap l s q) by (intros i s Hs; eapply F2_zget'; eauto).
        assert (Hget' : forall i q, zget o i = Some q -> exists s, zget l i = Some s /\ global_copy snap l s q) by (intros i q Hq; eapply F2_zget; eauto).
        assert (Hinj : forall i j a b, zget l i = Some a -> zget l j = Some b -> s_track a = s_track b -> i = j).
        { intros i j a b Ha Hb E. pose proof (zget_some _ _ _ Ha). pose proof (zget_some _ _ _ Hb). rewrite zget_nat in Ha, Hb by lia. apply NoDup_app_remove_r in Hnd. rewrite NoDup_nth_error in Hnd.
          assert (Z.to_nat i = Z.to_nat j); [|lia]. apply Hnd; [rewrite map_length; eapply nth_error_lt; eauto|]. rewrite (map_nth_error s_track _ _ Ha), (map_nth_error s_track _ _ Hb). congruence. }
        assert (Hinr : forall i t, In t tl -> In i (nodes t) -> exists s, zget l i = Some s).
        { intros i t Ht Hi. apply zget_in_range. apply in_zs_range. eapply Permutation_in; [exact HPl|]. apply in_flat. eauto. }
        split; [cbn; rewrite !map_app, Etl, Et; reflexivity|].
        exists (map (relabel (track_of l)) tl ++ ts). split; [split|].
        + apply Forall_app. split.
          * rewrite Forall_forall in *. intros u Hu. apply in_map_iff in Hu as (t & <- & Ht). eapply relabel_represents; [apply HFl; exact Ht|]. intros i l0 Hi _ (s & Hs & El). destruct (Hget i s Hs) as (q & Hq & Hc). apply global_copy_fields in Hc as (E1 & _ & E3 & _).
            exists q. split; [cbn; apply in_or_app; left; pose proof (zget_some _ _ _ Hq); rewrite zget_nat in Hq by lia; eapply nth_error_In; eauto|]. split; [unfold track_of; rewrite Hs; exact E1|]. rewrite E3, El. reflexivity.
          * rewrite Forall_forall in *. intros t Ht. specialize (HF t Ht). clear -HF. induction t as [i us IH] using tree_rect'. apply represents_node_inv in HF as [(s & Hs & E1 & E2) H2]. rewrite Forall_forall in IH, H2.
            constructor; [exists s; split; [cbn; apply in_or_app; right; exact Hs|auto]|]. rewrite Forall_forall. auto.
        + rewrite flat_map_app. cbn [concat]. rewrite map_app. apply Permutation_app; [|exact HP].
          rewrite flat_map_concat_map, map_map. rewrite (map_ext _ (fun t => map (track_of l) (nodes t))) by (intros; apply relabel_nodes). rewrite <- map_map, <- concat_map, <- flat_map_concat_map.
          rewrite HPl, Etl. rewrite map_map. clear -l. assert (E : map (fun x => track_of l (Z.of_nat x)) (seq 0 (length l)) = map s_track l); [|rewrite E; reflexivity].
          apply nth_error_ext. intros i. rewrite !nth_error_map, nth_seq. destruct (Nat.ltb_spec i (length l)) as [Hi|Hi].
          -- destruct (nth_error_in_range l i Hi) as [s Hs]. rewrite Hs. cbn. unfold track_of. rewrite zget_of_nat, Hs. reflexivity.
          -- rewrite (proj2 (nth_error_None _ _) Hi). reflexivity.
        + intros s Hs. rewrite map_app, in_app_iff. cbn in Hs. apply in_app_or in Hs.
          assert (Hdis : forall a b, In a l -> In b (concat ls) -> s_track a = s_track b -> False).
          { intros a b Ha Hb E. eapply NoDup_app_disjoint; [exact Hnd|apply in_map; exact Ha|rewrite E; apply in_map; exact Hb]. }
          assert (Hlab : forall t, In t (map label ts) -> exists b, In b (concat ls) /\ s_track b = t).
          { intros t Ht. apply in_map_iff in Ht as (u & <- & Hu). assert (Hin : In (label u) (map s_track (concat outs))) by (eapply Permutation_in; [exact HP|]; apply in_flat; exists u; split; [exact Hu|apply label_in]).
            rewrite Et in Hin. apply in_map_iff in Hin as (b & E & Hb). eauto. }
          rewrite map_map. rewrite (map_ext _ (fun t => track_of l (label t))) by (intros; apply relabel_label).
          destruct Hs as [Hs|Hs].
          * apply In_nth_error in Hs as [i Hi]. assert (Hq : zget o (Z.of_nat i) = Some s) by (rewrite zget_of_nat; exact Hi). destruct (Hget' _ _ Hq) as (s0 & Hs0 & Hc). apply global_copy_fields in Hc as (E1 & E2 & _). rewrite E1, E2, (Hrl _ s0 Hs0). split.
            -- intros Hin. left. apply in_map_iff in Hin as (t & E & Ht). apply in_map_iff. exists t. split; [|exact Ht]. unfold track_of. rewrite E, Hs0. reflexivity.
            -- intros [Hin|Hin].
               ++ apply in_map_iff in Hin as (t & E & Ht). destruct (Hinr (label t) t Ht (label_in t)) as [s1 Hs1]. unfold track_of in E. rewrite Hs1 in E. apply in_map_iff. exists t. split; [|exact Ht]. eapply Hinj; eauto.
               ++ exfalso. apply Hlab in Hin as (b & Hb & E). rewrite zget_of_nat in Hs0. eapply (Hdis s0 b); [eapply nth_error_In; eauto|exact Hb|congruence].
          * rewrite (Hrk s Hs). split; [auto|]. intros [Hin|Hin]; [|exact Hin]. exfalso. apply in_map_iff in Hin as (t & E & Ht). destruct (Hinr (label t) t Ht (label_in t)) as [s1 Hs1]. unfold track_of in E. rewrite Hs1 in E.
            assert (Hin : In (s_track s) (map s_track (concat ls))) by (rewrite <- Et; apply in_map; exact Hs). apply in_map_iff in Hin as (b & Eb & Hb). pose proof (zget_some _ _ _ Hs1). rewrite zget_nat in Hs1 by lia.
            eapply (Hdis s1 b); [eapply nth_error_In; eauto|exact Hb|congruence]. }
    destruct (Hgen ls outs Hout Hloc Hnd Hpos) as (Et & ts & HF & Hrk). exists ts.
    assert (Hall : registered (concat outs) = concat outs).
    { unfold registered. assert (Hp : forall s, In s (concat outs) -> 0 <= s_track s). { intros s Hs. apply (in_map s_track) in Hs. rewrite Et in Hs. apply in_map_iff in Hs as (b & <- & Hb). auto. }
      clear -Hp. induction (concat outs) as [|s l IH]; [reflexivity|]. cbn. rewrite (proj2 (Z.leb_le 0 (s_track s)) (Hp s (or_introl eq_refl))). f_equal. apply IH. intros; apply Hp; right; assumption. }
    unfold global_forest. rewrite Hall. split; [rewrite Et; exact Hnd|]. split; [exact HF|]. split; [exact Hrk|]. intros s Hs Hneg. exfalso. apply (in_map s_track) in Hs. rewrite Et in Hs. apply in_map_iff in Hs as (b & E & Hb). specialize (Hpos b Hb). lia.
  Qed.

  (** ** One snapshot *)
  Definition run_ok (before : list subs_t) : Prop :=
    Permutation (map s_track (concat before)) (map Z.of_nat (seq 0 (length (concat before)))) /\ exists ts, global_forest (concat before) ts.

  (** what is known of one process after a snapshot *)
  Definition kept_links (p : @proc X R H) : Prop :=
    forall i j, lists (p_nested p) i j <-> exists a b, zget (p_fed p) i = Some a /\ zget (p_fed p) j = Some b /\ In (s_track b) (s_nest a) /\ s_host a = s_host b /\ ~ In j (zs (raised (p_table p))).
  Definition proc_ok (p : @proc X R H) : Prop :=
    kept_links p /\ fed_as (p_moved p) (length (p_halos p)) (p_table p) (p_fed p) /\
    (exists ts, nested_as (p_moved p) (length (p_halos p)) (p_table p) (p_nested p) ts) /\
    (exists ts, local_forest (p_local p) ts) /\
    mapM (heads_of (p_nested p)) (tl (p_table p)) = Some (p_heads p) /\
    (exists sort table2, sorts_by_mass (p_reg p) sort /\ build_table sort true (length (p_halos p)) (p_reg p) = Some table2 /\ table_for (p_reg p) (length (p_halos p)) table2 /\ updated (p_reg p) table2 (p_ranked p)) /\
    (exists ts, local_forest (p_ranked p) ts) /\
    (exists snap s4, globalize snap s4 = Some (p_out p) /\ Forall2 (fun a b => s_track a = s_track b /\ s_rank a = s_rank b /\ s_nest a = s_nest b /\ s_depth a = s_depth b) (p_ranked p) s4) /\
    map s_track (p_ranked p) = map s_track (p_reg p).

  Lemma finish_one_keeps snap ids (s s' : sub X R) : finish_one snap ids s = Some s' -> s_track s = s_track s' /\ s_rank s = s_rank s' /\ s_nest s = s_nest s' /\ s_depth s = s_depth s'.
  Proof.
    unfold finish_one. assert (E : s_track (update_track snap s) = s_track s /\ s_rank (update_track snap s) = s_rank s /\ s_nest (update_track snap s) = s_nest s /\ s_depth (update_track snap s) = s_depth s).
    { unfold update_track. destruct (s_track s =? -1); [auto|]. destruct (s_rank s =? 0); cbn; destruct (Qle_bool _ _); cbn; auto. }
    destruct E as (E1 & E2 & E3 & E4). destruct (_ <? 0); [|destruct (zget ids _)]; intros E; try discriminate; injection E as <-; cbn; repeat split; congruence.
  Qed.

  Lemma fed_spec (before : list subs_t) (ps : list (@proc X R H)) : run_ok before -> nest_fed before ps ->
    Forall (fun p => fed_as (p_moved p) (length (p_halos p)) (p_table p) (p_fed p)) ps /\ exists ts, global_forest (concat (map p_fed ps)) ts.
  Proof.
    intros (Htr & ts & HG) (HP & Hh & Hprep & Hhash).
    (* tracks before *)
    assert (Hreg0 : registered (concat before) = concat before).
    { unfold registered. assert (Hp : forall s, In s (concat before) -> 0 <= s_track s). { intros s Hs. apply (in_map s_track) in Hs. apply (Permutation_in _ Htr) in Hs. apply in_map_iff in Hs as (k & <- & _). lia. }
      clear -Hp. induction (concat before) as [|s l IH]; [reflexivity|]. cbn. rewrite (proj2 (Z.leb_le 0 (s_track s)) (Hp s (or_introl eq_refl))). f_equal. apply IH. intros; apply Hp; right; assumption. }
    assert (Hfed : Forall (fun p => fed_as (p_moved p) (length (p_halos p)) (p_table p) (p_fed p)) ps).
    { rewrite Forall_forall in *. intros p Hp. apply prepared_spec; auto. }
    (* global forest after FeedCentrals *)
    assert (HG2 : global_forest (concat (map p_fed ps)) ts).
    { eapply global_keys; [| |exact HG].
      - eapply perm_trans; [apply registered_keys; exact HP|]. match goal with |- Permutation ?a ?b => assert (E : a = b); [|rewrite E; reflexivity] end. rewrite !registered_concat, !concat_map, !map_map. f_equal. apply map_ext_in. intros p Hp. rewrite Forall_forall in Hfed. symmetry.
        apply (fed_registered _ _ _ _ (Hfed p Hp)).
      - intros s Hs Hneg. apply in_concat in Hs as (l & Hl & Hs). apply in_map_iff in Hl as (p & <- & Hp). rewrite Forall_forall in Hfed. destruct (Hfed p Hp) as (_ & _ & olds & news & Ef & HF & Hn & _). rewrite Ef in Hs. apply in_app_or in Hs as [Hs|Hs].
        + exfalso. apply Forall2_keys in HF. apply (in_map nesting_of) in Hs. rewrite <- HF in Hs. apply in_map_iff in Hs as (m & E & Hm). assert (Hin : In (nesting_of m) (map nesting_of (concat (map p_moved ps)))).
          { apply in_map. apply in_concat. exists (p_moved p). split; [apply in_map; exact Hp|exact Hm]. }
          apply (Permutation_in _ (Permutation_sym HP)) in Hin. apply in_map_iff in Hin as (b & E2 & Hb). apply nesting_fields in E as (E1 & _). apply nesting_fields in E2 as (E2 & _).
          apply (in_map s_track) in Hb. apply (Permutation_in _ Htr) in Hb. apply in_map_iff in Hb as (k & Ek & _). lia.
        + rewrite Forall_forall in Hn. destruct (Hn s Hs) as (_ & E1 & E2 & _). auto. }
    split; [exact Hfed|]. exists ts. exact HG2.
  Qed.

  Lemma begun_spec (before : list subs_t) (ps : list (@proc X R H)) : run_ok before -> nest_begun before ps ->
    (forall k p, nth_error ps k = Some p -> (exists tl, local_forest (p_local p) tl) /\ (exists tn, nested_as (p_moved p) (length (p_halos p)) (p_table p) (p_nested p) tn) /\ mapM (heads_of (p_nested p)) (tl (p_table p)) = Some (p_heads p) /\ kept_links p /\ Forall2 renested (p_fed p) (p_nested p)) /\
    (forall k p, nth_error ps k = Some p -> exists tr, registered_as (p_moved p) (length (p_halos p)) (p_table p) (p_work p) (p_reg p) tr).
  Proof.
    intros Hok (Hfd & Hloc & Hnest & Hwork & Hreg). destruct (fed_spec before ps Hok Hfd) as (Hfed & ts & HG2). destruct Hfd as (HP & Hh & Hprep & Hhash).
    set (procs := map (fun p => (p_hash p, p_fed p)) ps) in *.
    assert (Eprocs : map snd procs = map p_fed ps) by (unfold procs; rewrite map_map; reflexivity).
    assert (Hhash' : Forall (fun p => mapped_fill (track_keys (snd p)) (fst p)) procs).
    { unfold procs. rewrite Forall_forall in Hhash |- *. intros q Hq. apply in_map_iff in Hq as (p & <- & Hp). cbn [fst snd]. exact (Hhash p Hp). }
    rewrite <- Eprocs in HG2.
    (* every process after NestSubhalos *)
    assert (Hproc1 : forall k p, nth_error ps k = Some p -> (exists tl, local_forest (p_local p) tl) /\ (exists tn, nested_as (p_moved p) (length (p_halos p)) (p_table p) (p_nested p) tn) /\ mapM (heads_of (p_nested p)) (tl (p_table p)) = Some (p_heads p) /\ kept_links p /\ Forall2 renested (p_fed p) (p_nested p)).
    { intros k p Hk. assert (Hpin : In p ps) by (eapply nth_error_In; eauto).
      destruct (localized procs (map p_local ps) ts Hhash' HG2 Hloc k (p_hash p, p_fed p) (p_local p)) as (tl & Htl & Hcopy & HLl & Hedl).
      { unfold procs. erewrite map_nth_error; [reflexivity|exact Hk]. } { erewrite map_nth_error; [reflexivity|exact Hk]. }
      cbn [snd] in *. split; [eauto|]. rewrite Forall_forall in Hfed, Hnest, Hh. destruct (Hnest p Hpin) as (order & Hord & En).
      assert (HX := level_nested (p_moved p) (length (p_halos p)) (p_table p) (p_fed p) (p_local p) tl (length (p_local p)) order).
      destruct HX as (subs & tn & El & HN & HLs & Hedn & Hsame).
      - apply (Hh p Hpin).
      - apply Hfed; exact Hpin.
      - exact Htl.
      - exact HLl.
      - intros i s Hs. destruct (Hcopy i s Hs) as (s' & Hs' & kept & r & -> & Hkept & _ & Hr2). exists (set_nest kept (set_rank r s)). cbn. split; [exact Hs'|]. split; [reflexivity|]. split; [reflexivity|]. intros Hneg Hne. rewrite Hne in Hkept. cbn in Hkept. inversion Hkept; subst. split; [reflexivity|]. apply Hr2. left; exact Hneg.
      - lia.
      - exact Hord.
      - unfold nest_local in En. rewrite El in En. cbn [rbind] in En. destruct (mapM (heads_of subs) (List.tl (p_table p))) as [hs|] eqn:Ehs; [|discriminate]. injection En as En1 En2. subst subs hs. split; [eauto|]. split; [exact Ehs|]. assert (Hlf : local_forest (p_nested p) tn) by apply HN.
        assert (Hhz : forall i s, zget (p_fed p) i = Some s -> hostz (p_local p) i = s_host s).
        { intros i s Hs. pose proof (zget_some _ _ _ Hs). rewrite zget_nat in Hs by lia. destruct (Hcopy _ s Hs) as (s' & Hs' & kept & r & -> & _). unfold hostz. rewrite zget_nat, Hs' by lia. reflexivity. }
        split; [|apply Forall2_of_nth; [lia|]; intros i a b Ha Hb; destruct (Hcopy i a Ha) as (s' & Hs' & kept & r & Es' & _); pose proof (F2_nth _ _ _ Hsame i s' b Hs' Hb) as Hsb; destruct Hsb as (n2 & r2 & ->); rewrite Es'; exists n2, r2; reflexivity].
        intros i j. rewrite (forest_lists (p_nested p) tn Hlf), Hedn, Hedl. split.
        + intros ((a & b & Ha & Hb & Hin) & Eh & Hrk). exists a, b. split; [exact Ha|]. split; [exact Hb|]. split; [exact Hin|]. rewrite (Hhz j b Hb), (Hhz i a Ha) in Eh. split; [congruence|]. intros Hr. apply Hrk. unfold rkz. destruct (memb_spec j (zs (raised (p_table p)))); [reflexivity|contradiction].
        + intros (a & b & Ha & Hb & Hin & Eh & Hr). split; [eauto|]. rewrite (Hhz j b Hb), (Hhz i a Ha). split; [congruence|]. unfold rkz. destruct (memb_spec j (zs (raised (p_table p)))); [contradiction|].
          assert (He : In (i, j) (flat_map edges tl)) by (apply Hedl; eauto). pose proof (zget_some _ _ _ Hb) as Hjr. destruct (zget_in_range (p_local p) j) as [u Hu]; [rewrite HLl; exact Hjr|]. rewrite Hu. intros Hz.
          destruct Htl as [HFt Hrt] eqn:Edum. clear Edum. apply (Hrt j u Hu) in Hz. apply in_map_iff in Hz as (t & Et & Ht). apply in_flat in He as (v & Hv & He).
          assert (t = v). { eapply (forest_tree_eq (p_local p) tl (conj HFt Hrt) t v j); auto; [rewrite <- Et; apply label_in|exact (proj2 (edge_nodes _ _ _ He))]. } subst v. rewrite <- Et in He. eapply root_no_member; [|exact He]. eapply (forest_tree_nodup (p_local p) tl (conj HFt Hrt)). exact Ht. }
    (* registration *)
    set (rp := map (fun p => (p_work p, count_empty (p_table p))) ps) in *.
    assert (Hlen : forall p, In p ps -> length (p_work p) = (length (p_moved p) + count_empty (p_table p))%nat).
    { intros p Hp. apply In_nth_error in Hp as [k Hk]. assert (Hp := nth_error_In _ _ Hk). destruct (Hproc1 k p Hk) as (_ & (tn & _ & HL & _) & _). rewrite Forall_forall in Hwork. rewrite <- (F2_length _ _ _ (Hwork p Hp)). exact HL. }
    destruct (register_spec rp) as (out & Er & HLo & Hout & HPt).
    { rewrite Forall_forall. intros q Hq. apply in_map_iff in Hq as (p & <- & Hp). cbn. rewrite (Hlen p Hp). lia. }
    rewrite Hreg in Er. injection Er as <-.
    assert (Hproc2 : forall k p, nth_error ps k = Some p -> exists tr, registered_as (p_moved p) (length (p_halos p)) (p_table p) (p_work p) (p_reg p) tr).
    { intros k p Hk. assert (Hp := nth_error_In _ _ Hk). destruct (Hproc1 k p Hk) as (_ & (tn & HN) & _). rewrite Forall_forall in Hwork, Hh. assert (HN' := nested_as_ext _ _ _ _ _ _ (Hwork p Hp) HN).
      destruct (register_forest (p_moved p) (length (p_halos p)) (p_table p) (p_work p) tn (Z.of_nat (base_of rp k)) (proj1 (Hh p Hp)) HN') as [tr Htr2]. exists tr.
      assert (E : nth_error (map p_reg ps) k = Some (old_of (p_work p, count_empty (p_table p)) ++ number_from (Z.of_nat (base_of rp k)) (new_of (p_work p, count_empty (p_table p))))).
      { apply Hout. unfold rp. erewrite map_nth_error; [reflexivity|exact Hk]. }
      rewrite (map_nth_error p_reg _ _ Hk) in E. injection E as E. rewrite E. exact Htr2. }
    split; [exact Hproc1|exact Hproc2].
  Qed.

  Lemma run_spec (before : list subs_t) (ps : list (@proc X R H)) : run_ok before -> nest_run before ps -> Forall proc_ok ps /\ run_ok (map p_out ps).
  Proof.
    intros Hok (Hb & Hfin). destruct (begun_spec before ps Hok Hb) as (Hproc1 & Hproc2). destruct Hb as (Hfd & Hloc & Hnest & Hwork & Hreg). destruct (fed_spec before ps Hok Hfd) as (Hfed & _). destruct Hfd as (HP & Hh & Hprep & Hhash). destruct Hok as (Htr & _).
    set (rp := map (fun p => (p_work p, count_empty (p_table p))) ps) in *.
    assert (Hlen : forall p, In p ps -> length (p_work p) = (length (p_moved p) + count_empty (p_table p))%nat).
    { intros p Hp. apply In_nth_error in Hp as [k Hk]. assert (Hp := nth_error_In _ _ Hk). destruct (Hproc1 k p Hk) as (_ & (tn & _ & HL & _) & _). rewrite Forall_forall in Hwork. rewrite <- (F2_length _ _ _ (Hwork p Hp)). exact HL. }
    destruct (register_spec rp) as (out & Er & HLo & Hout & HPt).
    { rewrite Forall_forall. intros q Hq. apply in_map_iff in Hq as (p & <- & Hp). cbn. rewrite (Hlen p Hp). lia. }
    rewrite Hreg in Er. injection Er as <-.
    (* the end *)
    assert (Hproc3 : forall k p, nth_error ps k = Some p -> proc_ok p).
    { intros k p Hk. assert (Hp := nth_error_In _ _ Hk). destruct (Hproc1 k p Hk) as (Hl & (tn & HN) & Hheads & Hkept & _). destruct (Hproc2 k p Hk) as (tr & HR). rewrite Forall_forall in Hwork, Hfin. destruct (Hfin p Hp) as (sort & order & snap & ids & Hs & Hids & Hord & E).
      rewrite Hids in Hord.
      destruct (ranked_spec _ _ _ _ _ _ _ _ _ _ order (Hwork p Hp) HN HR Hheads Hs Hord) as (table2 & s1 & s2 & s3 & E0 & E1 & E2 & E3 & HT2 & HU & Hts3).
      unfold update_tracks in E. rewrite Hids, E0 in E. cbn [of_opt rbind] in E. rewrite E1 in E. cbn [rbind] in E. rewrite E2 in E. cbn [of_opt rbind] in E. rewrite E3 in E. cbn [rbind] in E.
      destruct (mapM (finish_one snap ids) s3) as [s4|] eqn:E4; [|discriminate]. cbn [of_opt rbind] in E. destruct (globalize snap s4) as [s5|] eqn:E5; [|discriminate]. cbn [of_opt rbind] in E. injection E as E6 E7. unfold proc_ok. rewrite <- E6, <- E7.
      split; [exact Hkept|]. split; [rewrite Forall_forall in Hfed; apply Hfed; exact Hp|]. split; [eauto|]. split; [exact Hl|]. split; [exact Hheads|]. split; [exists sort, table2; auto|]. split; [exact Hts3|]. split.
      - exists snap, s4. split; [exact E5|]. apply Forall2_of_nth; [symmetry; eapply mapM_length; eauto|]. intros i a b Ha Hb. destruct (mapM_nth _ _ _ _ _ E4 Ha) as (b' & Eb & Hb'). assert (b' = b) by congruence. subst. apply finish_one_keeps in Eb. exact Eb.
      - destruct HU as (HLu & HUs & _). apply nth_error_ext. intros i. rewrite !nth_error_map. destruct (nth_error (p_reg p) i) as [s|] eqn:Ei.
        + destruct (HUs (Z.of_nat i) s) as (s' & Hs' & Hsb & _); [rewrite zget_of_nat; exact Ei|]. rewrite zget_of_nat in Hs'. rewrite Hs'. cbn. unfold same_but_nest in Hsb. apply (f_equal s_track) in Hsb. cbn in Hsb. congruence.
        + apply nth_error_None in Ei. rewrite (proj2 (nth_error_None s3 i)); [reflexivity|]. lia. }
    split; [rewrite Forall_forall; intros p Hp; apply In_nth_error in Hp as [k Hk]; eapply Hproc3; eauto|].
    (* tracks afterwards *)
    assert (Hold : map s_track (concat (map old_of rp)) = map s_track (concat (map p_moved ps))).
    { unfold rp. rewrite map_map, !concat_map, !map_map. f_equal. apply map_ext_in. intros p Hp. unfold old_of. cbn [fst snd]. rewrite (Hlen p Hp). replace (length (p_moved p) + count_empty (p_table p) - count_empty (p_table p))%nat with (length (p_moved p)) by lia.
      apply In_nth_error in Hp as [k Hk]. assert (Hp := nth_error_In _ _ Hk). destruct (Hproc1 k p Hk) as (_ & (tn & HN) & _). rewrite Forall_forall in Hwork. assert (HN' := nested_as_ext _ _ _ _ _ _ (Hwork p Hp) HN).
      destruct HN' as (_ & HL & _ & _ & Hod & _). apply nth_error_ext. intros i. rewrite !nth_error_map, nth_firstn. destruct (Nat.ltb_spec i (length (p_moved p))) as [Hi|Hi].
      - destruct (nth_error_in_range (p_moved p) i Hi) as [a Ha]. destruct (Hod i a Ha) as (b & Hb & Eb & _). rewrite Ha, Hb. cbn. congruence.
      - rewrite (proj2 (nth_error_None (p_moved p) i) Hi). reflexivity. }
    assert (Hmoved : Permutation (map s_track (concat (map p_moved ps))) (map Z.of_nat (seq 0 (length (concat before))))).
    { eapply perm_trans; [apply keys_tracks; symmetry; exact HP|exact Htr]. }
    assert (Hn : nsum (map (fun p => length (old_of p)) rp) = length (concat before)).
    { transitivity (length (map s_track (concat (map old_of rp)))).
      - rewrite map_length, <- map_map. generalize (map old_of rp). clear. intros l. induction l; cbn; [reflexivity|]. rewrite app_length. congruence.
      - rewrite Hold. erewrite Permutation_length by exact Hmoved. rewrite map_length, seq_length. reflexivity. }
    assert (Htracks : Permutation (map s_track (concat (map p_reg ps))) (map Z.of_nat (seq 0 (length (concat (map p_reg ps)))))).
    { rewrite Hold, Hn in HPt. rewrite Hmoved in HPt. set (m := nsum (map (fun p => length (new_of p)) rp)) in *. rewrite <- (map_map (fun k => (length (concat before) + k)%nat) Z.of_nat), <- map_app in HPt.
      assert (Es : seq 0 (length (concat before)) ++ map (fun k => (length (concat before) + k)%nat) (seq 0 m) = seq 0 (length (concat before) + m)).
      { rewrite seq_app. f_equal. cbn. generalize (length (concat before)) as a. intros a. clear. revert a. induction m as [|m IH]; intros a; [reflexivity|]. rewrite !seq_S, map_app, IH. cbn. reflexivity. }
      rewrite Es in HPt. assert (El : length (concat (map p_reg ps)) = (length (concat before) + m)%nat). { apply Permutation_length in HPt. rewrite !map_length, seq_length in HPt. exact HPt. }
      rewrite El. exact HPt. }
    assert (Hrt : map s_track (concat (map p_ranked ps)) = map s_track (concat (map p_reg ps))).
    { rewrite !concat_map, !map_map. f_equal. apply map_ext_in. intros p Hp. apply In_nth_error in Hp as [k Hk]. apply (Hproc3 k p Hk). }
    (* outputs *)
    assert (HX : exists s4s, Forall2 (fun l o => exists snap, globalize snap l = Some o) s4s (map p_out ps) /\ Forall (fun l => exists ts, local_forest l ts) s4s /\ map s_track (concat s4s) = map s_track (concat (map p_ranked ps))).
    { assert (Hall : forall p, In p ps -> proc_ok p) by (intros p Hp; apply In_nth_error in Hp as [k Hk]; eauto). clear -Hall. induction ps as [|p l IH]; [exists []; cbn; auto|]. destruct IH as (s4s & A & B & C); [intros; apply Hall; right; assumption|].
      destruct (Hall p (or_introl eq_refl)) as (_ & _ & _ & _ & _ & _ & (tr & Htr) & (snap & s4 & Eg & Hk) & _). exists (s4 :: s4s). split; [constructor; eauto|]. split.
      - constructor; [|exact B]. exists tr. eapply local_forest_ext; [|exact Htr]. eapply Forall2_impl; [|exact Hk]. intros x y (_ & E1 & E2 & _). auto.
      - cbn. rewrite !map_app, C. f_equal. clear -Hk. induction Hk as [|x y a b (E & _) _ IHk]; [reflexivity|]. cbn. rewrite E, IHk. reflexivity. }
    destruct HX as (s4s & HO & HLf & Ht4).
    assert (Hnd4 : NoDup (map s_track (concat s4s))). { rewrite Ht4, Hrt. eapply Permutation_NoDup; [symmetry; exact Htracks|]. apply NoDup_map_inj; [intros x y _ _; apply Nat2Z.inj|apply seq_NoDup]. }
    assert (Hpos4 : forall s, In s (concat s4s) -> 0 <= s_track s). { intros s Hs. apply (in_map s_track) in Hs. rewrite Ht4, Hrt in Hs. apply (Permutation_in _ Htracks) in Hs. apply in_map_iff in Hs as (k & <- & _). lia. }
    split; [|eapply globalized_forest; eauto].
    assert (Eout : map s_track (concat (map p_out ps)) = map s_track (concat s4s)).
    { clear -HO. induction HO as [|l o ls os (snap & Eg) _ IH]; [reflexivity|]. cbn. rewrite !map_app, IH. f_equal. apply globalize_spec in Eg. set (base := l) in Eg at 1. clearbody base. induction Eg as [|s q l' o' Hc _ IHg]; [reflexivity|]. cbn. rewrite IHg. apply global_copy_fields in Hc as (-> & _). reflexivity. }
    assert (El : length (concat (map p_out ps)) = length (concat (map p_reg ps))).
    { rewrite <- (map_length s_track (concat (map p_out ps))), Eout, Ht4, Hrt, map_length. reflexivity. }
    rewrite Eout, Ht4, Hrt, El. exact Htracks.
  Qed.

  Lemma history_ok before : @nest_history X R H before -> run_ok before.
  Proof.
    induction 1 as [W|before ps HH IH HR]; [|eapply run_spec; eauto].
    assert (E : concat (repeat (@nil (sub X R)) W) = []) by (induction W; [reflexivity|assumption]). unfold run_ok. rewrite E. split; [reflexivity|]. exists []. split; [constructor|]. split; [split; constructor|]. split; intros s [].
  Qed.
End S.
