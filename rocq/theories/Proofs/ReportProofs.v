(** What the catalogue reports. *)
From Coq Require Import List ZArith QArith Bool Lia Sorting.Permutation.
From Verif.Model Require Import ListMem Mpi Run Hash Subhalo Tracks Nest UpdateTracks.
From Verif.Spec Require Import Forest Nesting NestHistory Members Reporting.
From Verif.Proofs Require Import ListMemProofs MpiProofs ListExtra MemberProofs TrackProofs TreeProofs NestProofs NestProofs2 NestProofs3 NestProofs4 NestProofs5 LocalizeProofs ForestSteps HistorySteps HistorySteps2 ReachProofs HistoryProofs NestFinal.
Import ListNotations.
Local Open Scope Z_scope.

Section S.
  Context {X R H : Type}.
  Local Notation subs_t := (list (sub X R)).
  Variables (before : list subs_t) (ps : list (@proc X R H)) (p : @proc X R H).
  Hypothesis Hhist : @nest_history X R H before.
  Hypothesis Hb : nest_begun before ps.
  Hypothesis Hp : In p ps.

  (** All registered subhalos have tracks. *)
  Lemma reg_tracks s : In s (p_reg p) -> 0 <= s_track s.
  Proof using Hhist Hb Hp.
    assert (Hk := Hp). apply In_nth_error in Hk as [k Hk]. pose proof (history_ok _ Hhist) as Hok. destruct (begun_spec before ps Hok Hb) as [Hproc1 _]. destruct Hb as (Hfd & Hloc & Hnest & Hwork & Hreg). destruct (fed_spec before ps Hok Hfd) as (Hfed & _). destruct Hfd as (HP & _). destruct Hok as (Htr & _).
    set (rp := map (fun p => (p_work p, count_empty (p_table p))) ps) in *. rewrite Forall_forall in Hwork, Hfed.
    assert (Hlen : forall p, In p ps -> length (p_work p) = (length (p_moved p) + count_empty (p_table p))%nat).
    { intros q Hq. apply In_nth_error in Hq as [j Hj]. assert (Hq := nth_error_In _ _ Hj). destruct (Hproc1 j q Hj) as (_ & (tn & _ & HL & _) & _). rewrite <- (F2_length _ _ _ (Hwork q Hq)). exact HL. }
    destruct (register_spec rp) as (out & Er & HLo & Hout & HPt).
    { rewrite Forall_forall. intros q Hq. apply in_map_iff in Hq as (q' & <- & Hq'). cbn. rewrite (Hlen q' Hq'). lia. }
    rewrite Hreg in Er. injection Er as <-.
    assert (E : nth_error (map p_reg ps) k = Some (old_of (p_work p, count_empty (p_table p)) ++ number_from (Z.of_nat (base_of rp k)) (new_of (p_work p, count_empty (p_table p))))).
    { apply Hout. unfold rp. erewrite map_nth_error; [reflexivity|exact Hk]. }
    rewrite (map_nth_error p_reg _ _ Hk) in E. injection E as E. rewrite E. intros Hs. apply in_app_or in Hs as [Hs|Hs].
    - destruct (Hfed p Hp) as (_ & _ & olds & news & Ef & HF & Hn & _). destruct (Hproc1 k p Hk) as (_ & _ & _ & _ & HR).
      assert (Hlo : length olds = length (p_moved p)) by (symmetry; eapply F2_length; eauto).
      unfold old_of in Hs. cbn [fst snd] in Hs. rewrite (Hlen p Hp), Nat.add_sub in Hs. apply In_nth_error in Hs as [i Hi].
      assert (Hlt : (i < length (p_moved p))%nat). { apply nth_error_lt in Hi. rewrite firstn_length in Hi. lia. }
      rewrite nth_firstn, (proj2 (Nat.ltb_lt _ _) Hlt) in Hi.
      destruct (nth_error_in_range (p_nested p) i) as [b Hbn]; [rewrite (F2_length _ _ _ (Hwork p Hp)); eapply nth_error_lt; eauto|]. destruct (F2_nth _ _ _ (Hwork p Hp) i b s Hbn Hi) as [E1 _]. apply nesting_fields in E1 as (E1 & _).
      destruct (nth_error_in_range (p_fed p) i) as [f Hf]; [rewrite (F2_length _ _ _ HR); eapply nth_error_lt; eauto|]. destruct (F2_nth _ _ _ HR i f b Hf Hbn) as (n & r & ->). cbn in E1.
      rewrite Ef, nth_error_app1 in Hf by lia. destruct (nth_error_in_range (p_moved p) i Hlt) as [m Hm]. destruct (F2_nth _ _ _ HF i m f Hm Hf) as [E2 _]. apply nesting_fields in E2 as (E2 & _).
      assert (Hin : In (nesting_of m) (map nesting_of (concat (map p_moved ps)))). { apply in_map. apply in_concat. exists (p_moved p). split; [apply in_map; exact Hp|eapply nth_error_In; eauto]. }
      apply (Permutation_in _ (Permutation_sym HP)) in Hin. apply in_map_iff in Hin as (b0 & E3 & Hb0). apply nesting_fields in E3 as (E3 & _).
      apply (in_map s_track) in Hb0. apply (Permutation_in _ Htr) in Hb0. apply in_map_iff in Hb0 as (n0 & En & _). lia.
    - clear -Hs. revert Hs. generalize (base_of rp k). generalize (new_of (p_work p, count_empty (p_table p))). intros l. induction l as [|x l IH]; intros n Hs; cbn in Hs; [destruct Hs|]. destruct Hs as [<-|Hs]; [cbn; lia|]. apply (IH (S n)). replace (Z.of_nat (S n)) with (Z.of_nat n + 1) by lia. exact Hs.
  Qed.

  Lemma reported sort order snap halo_ids ranked out : sorts_by_mass (p_reg p) sort -> length halo_ids = length (p_halos p) ->
    Permutation order (seq 0 (length halo_ids)) -> update_tracks sort (length (p_reg p)) order snap halo_ids (p_heads p) (p_reg p) = Done (ranked, out) ->
    Forall2 (reports snap halo_ids (p_reg p)) (p_reg p) out /\ Forall2 same_but_nest (p_reg p) ranked /\
    Forall2 (fun u o => s_rank o = s_rank u /\ s_depth o = s_depth u /\ Forall2 (names (p_reg p)) (s_nest u) (s_nest o)) ranked out.
  Proof using Hhist Hb Hp.
    intros Hs Hids Hord EU. assert (Hk := Hp). apply In_nth_error in Hk as [k Hk]. destruct (begun_spec before ps (history_ok _ Hhist) Hb) as [H1 H2].
    destruct (H1 k p Hk) as (_ & (tn & HN) & Hheads & _). destruct (H2 k p Hk) as (tr & HR). pose proof reg_tracks as Htracks. destruct Hb as (_ & _ & _ & Hwork & _). rewrite Forall_forall in Hwork. rewrite Hids in Hord.
    destruct (ranked_spec _ _ _ _ _ _ _ _ _ _ order (Hwork p Hp) HN HR Hheads Hs Hord) as (table2 & s1 & s2 & s3 & E0 & E1 & E2 & E3 & HT2 & HU & ts3 & Hts3).
    unfold update_tracks in EU. rewrite Hids, E0 in EU. cbn [of_opt rbind] in EU. rewrite E1 in EU. cbn [rbind] in EU. rewrite E2 in EU. cbn [of_opt rbind] in EU. rewrite E3 in EU. cbn [rbind] in EU.
    destruct (mapM (finish_one snap halo_ids) s3) as [s4|] eqn:E4; [|discriminate]. cbn [of_opt rbind] in EU. destruct (globalize snap s4) as [s5|] eqn:E5; [|discriminate]. cbn [of_opt rbind] in EU. injection EU as -> ->.
    destruct HU as (HLu & HUs & _). destruct HR as (_ & _ & _ & _ & _ & _ & _ & Hhost).
    assert (Hb3 : Forall2 same_but_nest (p_reg p) ranked).
    { apply Forall2_of_nth; [symmetry; exact HLu|]. intros i a b Ha Hbb. destruct (HUs (Z.of_nat i) a) as (s' & Hs' & Hsb & _); [rewrite zget_of_nat; exact Ha|]. rewrite zget_of_nat in Hs'. congruence. }
    assert (HL4 := mapM_length _ _ _ E4). apply globalize_spec in E5. assert (HL5 := F2_length _ _ _ E5).
    assert (Htr4 : forall i u, zget s4 i = Some u -> names (p_reg p) i (s_track u)).
    { intros i u Hu. pose proof (zget_some _ _ _ Hu). rewrite zget_nat in Hu by lia. destruct (nth_error_in_range ranked (Z.to_nat i)) as [v Hv]; [rewrite <- HL4; eapply nth_error_lt; eauto|]. destruct (mapM_nth _ _ _ _ _ E4 Hv) as (u' & Ef & Hu'). assert (u' = u) by congruence. subst u'. apply finish_one_keeps in Ef as (Et & _).
      destruct (nth_error_in_range (p_reg p) (Z.to_nat i)) as [w Hw]; [rewrite <- HLu; eapply nth_error_lt; eauto|]. exists w. rewrite zget_nat by lia. split; [exact Hw|]. pose proof (F2_nth _ _ _ Hb3 _ w v Hw Hv) as Hsb. unfold same_but_nest in Hsb. apply (f_equal s_track) in Hsb. cbn in Hsb. congruence. }
    assert (Hall : forall i r o, nth_error (p_reg p) i = Some r -> nth_error out i = Some o -> exists u, nth_error ranked i = Some u /\ reports snap halo_ids (p_reg p) r o /\ s_rank o = s_rank u /\ s_depth o = s_depth u /\ Forall2 (names (p_reg p)) (s_nest u) (s_nest o)).
    { intros i r o Hr Ho. destruct (nth_error_in_range ranked i) as [u Hu]; [rewrite HLu; eapply nth_error_lt; eauto|]. exists u. split; [exact Hu|]. pose proof (F2_nth _ _ _ Hb3 i r u Hr Hu) as Hsb. destruct (mapM_nth _ _ _ _ _ E4 Hu) as (f & Ef & Hf).
      pose proof (F2_nth _ _ _ E5 i f o Hf Ho) as Hgc. specialize (Htracks r (nth_error_In _ _ Hr)). specialize (Hhost i r Hr).
      assert (Hsnk : s_snapsink f = s_snapsink r /\ s_sink f = s_sink r /\ s_nest f = s_nest u /\ s_parts f = s_parts r /\ s_nbound f = s_nbound r /\ s_mass f = s_mass r /\ s_rest f = s_rest r /\ s_birth f = s_birth r /\ s_death f = s_death r /\ s_track f = s_track r /\ s_rank f = s_rank u /\ s_depth f = s_depth u /\
        s_snapiso f = (if s_rank u =? 0 then snap else s_snapiso r) /\ (((s_lastmax r <= s_mass r)%Q -> s_lastmax f = s_mass r /\ s_snapmax f = snap) /\ ((s_mass r < s_lastmax r)%Q -> s_lastmax f = s_lastmax r /\ s_snapmax f = s_snapmax r)) /\
        (if s_host r =? -1 then s_host f = -1 else zget halo_ids (s_host r) = Some (s_host f))).
      { unfold same_but_nest in Hsb. unfold finish_one, update_track in Ef. destruct r, u. cbn in *. injection Hsb; intros; subst.
        match type of Ef with context [(?t =? -1)] => replace (t =? -1) with false in Ef by (symmetry; apply Z.eqb_neq; lia) end.
        match type of Ef with context [(?t =? 0)] => destruct (t =? 0) eqn:Erk end; cbn in Ef; match type of Ef with context [Qle_bool ?a ?b] => destruct (Qle_bool a b) eqn:EQ end; cbn in Ef;
          (match type of Hhost with -1 <= ?t < _ => destruct (Z.eqb_spec t (-1)) as [Et|Et]; [rewrite Et in Ef; cbn in Ef; injection Ef as <-; cbn
             |replace (t <? 0) with false in Ef by (symmetry; apply Z.ltb_ge; lia); cbn in Ef; destruct (zget halo_ids t) as [hid|] eqn:Ehid; [|discriminate]; injection Ef as <-; cbn] end); rewrite ?Erk; repeat (split; [reflexivity|]).
        all: try (split; [split; intros HQ; [split; reflexivity|exfalso; apply Qle_bool_iff in EQ; revert EQ HQ; apply Qle_not_lt]|reflexivity]).
        all: split; [split; intros HQ; [exfalso; apply Qle_bool_iff in HQ; congruence|split; reflexivity]|reflexivity]. }
      destruct Hsnk as (A1 & A2 & A3 & A4 & A5 & A6 & A7 & A8 & A9 & A10 & A11 & A12 & A13 & A14 & A15).
      destruct Hgc as (B1 & B2 & B3).
      assert (Hnames : Forall2 (names (p_reg p)) (s_nest u) (map (track_of s4) (s_nest u))).
      { rewrite <- A3. clear -B1 Htr4. induction (s_nest f) as [|c l IH]; cbn; constructor; [|apply IH; intros; apply B1; right; assumption]. destruct (B1 c (or_introl eq_refl)) as [w Hw]. unfold track_of. rewrite Hw. apply Htr4. exact Hw. }
      assert (Hsink : s_snapsink f =? snap = true -> names (p_reg p) (s_sink f) (track_of s4 (s_sink f))).
      { intros Esn. apply Z.eqb_eq in Esn. destruct (B3 Esn) as [w Hw]. unfold track_of. rewrite Hw. apply Htr4. exact Hw. }
      subst o. rewrite A3. cbn [s_rank s_depth s_nest set_nest]. destruct (s_snapsink f =? snap) eqn:Esn; cbn [s_rank s_depth s_nest set_sink].
      - split; [|split; [exact A11|split; [exact A12|exact Hnames]]]. constructor; cbn; rewrite ?A11; auto. rewrite <- A1, Esn, <- A2. apply Hsink. reflexivity.
      - split; [|split; [exact A11|split; [exact A12|exact Hnames]]]. constructor; cbn; rewrite ?A11; auto. rewrite <- A1, Esn. exact A2. }
    assert (HLo : length (p_reg p) = length out) by lia. split; [|split; [exact Hb3|]].
    - apply Forall2_of_nth; [exact HLo|]. intros i r o Hr Ho. destruct (Hall i r o Hr Ho) as (u & _ & A & _). exact A.
    - apply Forall2_of_nth; [lia|]. intros i u o Hu Ho. destruct (nth_error_in_range (p_reg p) i) as [r Hr]; [rewrite HLo; eapply nth_error_lt; eauto|]. destruct (Hall i r o Hr Ho) as (u' & Hu' & _ & A). assert (u' = u) by congruence. subst u'. exact A.
  Qed.
End S.
