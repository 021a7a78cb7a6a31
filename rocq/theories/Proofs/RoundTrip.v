(** LocalizeNestedIds and GlobalizeTrackReferences are inverse. *)
From Coq Require Import List ZArith Bool Lia Sorting.Permutation.
From Verif.Model Require Import ListMem Mpi Run Hash Subhalo Nest.
From Verif.Spec Require Import Lookup Forest Nesting.
From Verif.Proofs Require Import ListMemProofs MpiProofs ListExtra HashProofs MemberProofs CentralProofs CentralProofs2 NestProofs NestProofs2 NestProofs3 NestProofs4 LocalizeProofs HistorySteps2 HistoryProofs.
Import ListNotations.
Local Open Scope Z_scope.

Section S.
  Context {X R : Type}.
  Local Notation subs_t := (list (sub X R)).

  Lemma held_found (subs : subs_t) t : held subs t = found subs t.
  Proof.
    unfold held, found, is_local. f_equal. induction subs as [|s l IH]; [reflexivity|]. cbn [existsb map]. rewrite IH. unfold memb. cbn [existsb]. f_equal. apply Z.eqb_sym.
  Qed.

  Lemma round_trip (procs : list (list (Z * Z) * subs_t)) : Forall (fun p => mapped_fill (track_keys (snd p)) (fst p)) procs ->
    NoDup (map s_track (registered (concat (map snd procs)))) ->
    exists locals, localize procs = Some locals /\ length locals = length procs /\
      forall k hash subs loc snap, nth_error procs k = Some (hash, subs) -> nth_error locals k = Some loc -> Forall (fun s => s_snapsink s <> snap) subs ->
        Forall2 (fun s l => exists nest r, l = set_nest nest (set_rank r s) /\ Forall (fun i => exists u, zget loc i = Some u) nest) subs loc /\
        exists back, globalize snap loc = Some back /\
          Forall2 (fun s b => exists r, b = set_nest (filter (held subs) (s_nest s)) (set_rank r s) /\
            (0 <= s_track s -> in_foreign_nest (map snd procs) k (s_track s) -> r = 0) /\
            (s_track s < 0 \/ ~ in_foreign_nest (map snd procs) k (s_track s) -> r = s_rank s)) subs back.
  Proof.
    intros Ht Hnd. destruct (localize_spec procs Ht Hnd) as (locals & E & HL & Hspec). exists locals. split; [exact E|]. split; [exact HL|].
    intros k hash subs loc snap Hk Hl Hsink. destruct (Hspec k (hash, subs) loc Hk Hl) as [HLl Hcopy]. cbn [snd] in *.
    assert (Hel : forall t, listed_elsewhere procs k t <-> in_foreign_nest (map snd procs) k t).
    { intros t. unfold listed_elsewhere, in_foreign_nest. split.
      - intros (q & p & u & A & B & C & D). exists q, (snd p), u. split; [exact A|]. split; [apply map_nth_error; exact B|]. auto.
      - intros (q & l & u & A & B & C & D). rewrite nth_error_map in B. destruct (nth_error procs q) as [p|] eqn:Ep; [|discriminate]. injection B as <-. exists q, p, u. auto. }
    assert (Hat : forall t i, at_index subs t i -> exists u, zget loc i = Some u /\ s_track u = t).
    { intros t i (s & Hs & <-). pose proof (zget_some _ _ _ Hs). rewrite zget_nat in Hs by lia. destruct (Hcopy _ s Hs) as (u & Hu & kept & r & -> & _). exists (set_nest kept (set_rank r s)). rewrite zget_nat by lia. split; [exact Hu|reflexivity]. }
    assert (HF : Forall2 (local_copy procs k subs) subs loc).
    { apply Forall2_of_nth; [symmetry; exact HLl|]. intros i s l Hs Hll. destruct (Hcopy i s Hs) as (s' & Hs' & Hc). congruence. }
    split.
    - eapply Forall2_impl; [|exact HF]. intros s l (kept & r & -> & HK & _). exists kept, r. split; [reflexivity|]. rewrite Forall_forall. intros i Hi. apply In_nth_error in Hi as [n Hn]. destruct (nth_error_in_range (filter (found subs) (s_nest s)) n) as [t Htt]; [rewrite (F2_length _ _ _ HK); eapply nth_error_lt; eauto|].
      destruct (Hat t i) as (u & Hu & _); [exact (F2_nth _ _ _ HK n t i Htt Hn)|eauto].
    - destruct (mapM_total (globalize_one snap loc) loc) as [back Eb].
      { intros l Hll. apply In_nth_error in Hll as [n Hn]. destruct (nth_error_in_range subs n) as [s Hs]; [rewrite <- HLl; eapply nth_error_lt; eauto|]. destruct (F2_nth _ _ _ HF n s l Hs Hn) as (kept & r & -> & HK & _).
        unfold globalize_one. cbn [s_nest set_nest set_rank s_snapsink]. assert (Hss : s_snapsink s <> snap) by (rewrite Forall_forall in Hsink; apply Hsink; eapply nth_error_In; eauto). destruct (Z.eqb_spec (s_snapsink s) snap); [contradiction|].
        destruct (mapM_total (fun i => option_map s_track (zget loc i)) kept) as [ts Ets]; [|rewrite Ets; eauto]. intros i Hi. apply In_nth_error in Hi as [m Hm]. destruct (nth_error_in_range (filter (found subs) (s_nest s)) m) as [t Htt]; [rewrite (F2_length _ _ _ HK); eapply nth_error_lt; eauto|].
        destruct (Hat t i) as (u & Hu & _); [exact (F2_nth _ _ _ HK m t i Htt Hm)|]. rewrite Hu. cbn. eauto. }
      exists back. split; [exact Eb|]. assert (HG := globalize_spec snap loc back Eb). apply Forall2_of_nth; [rewrite <- HLl; eapply F2_length; eauto|]. intros n s b Hs Hb.
      destruct (nth_error_in_range loc n) as [l Hll]; [rewrite HLl; eapply nth_error_lt; eauto|]. destruct (F2_nth _ _ _ HF n s l Hs Hll) as (kept & r & -> & HK & Hr1 & Hr2). destruct (F2_nth _ _ _ HG n _ b Hll Hb) as (_ & -> & _).
      cbn [s_nest set_nest set_rank s_snapsink s_sink]. assert (Hss : s_snapsink s <> snap) by (rewrite Forall_forall in Hsink; apply Hsink; eapply nth_error_In; eauto). destruct (Z.eqb_spec (s_snapsink s) snap); [contradiction|].
      exists r. split; [|split; [intros A B; apply Hr1; [exact A|apply Hel; exact B]|intros A; apply Hr2; rewrite Hel; exact A]].
      assert (Ek : map (track_of loc) kept = filter (held subs) (s_nest s)).
      { rewrite (filter_ext _ _ (held_found subs)). clear -HK Hat. induction HK as [|t i l l' Hti _ IH]; [reflexivity|]. cbn. rewrite IH. f_equal. destruct (Hat t i Hti) as (u & Hu & Eu). unfold track_of. rewrite Hu. exact Eu. }
      rewrite Ek. reflexivity.
  Qed.

  Lemma in_global snap (l o : subs_t) : Forall2 (global_copy snap l) l o -> forall u, In u o -> exists s, In s l /\ global_copy snap l s u.
  Proof.
    intros HG u Hu. apply In_nth_error in Hu as [n Hn]. destruct (nth_error_in_range l n) as [s Hs]; [rewrite (F2_length _ _ _ HG); eapply nth_error_lt; eauto|]. exists s. split; [eapply nth_error_In; eauto|]. exact (F2_nth _ _ _ HG n s u Hs Hn).
  Qed.

  Lemma round_trip_back (snap : Z) (ls outs : list subs_t) (hashes : list (list (Z * Z))) :
    NoDup (map s_track (concat ls)) -> (forall s, In s (concat ls) -> 0 <= s_track s) ->
    Forall2 (fun l o => globalize snap l = Some o) ls outs -> Forall2 (fun h o => mapped_fill (track_keys o) h) hashes outs ->
    exists locals, localize (combine hashes outs) = Some locals /\
      Forall2 (fun l l' => Forall2 (fun s s' => s_track s' = s_track s /\ s_nest s' = s_nest s /\ s_rank s' = s_rank s /\ s_host s' = s_host s /\ s_depth s' = s_depth s /\ s_parts s' = s_parts s) l l') ls locals.
  Proof.
    intros Hnd Hpos HG HH. set (procs := combine hashes outs).
    pose proof (F2_length _ _ _ HG) as L1. pose proof (F2_length _ _ _ HH) as L2.
    assert (Hp : forall k h o, nth_error hashes k = Some h -> nth_error outs k = Some o -> nth_error procs k = Some (h, o)) by (intros; apply combine_nth_error; assumption).
    assert (Hsnd : map snd procs = outs). { unfold procs. clear -HH. induction HH; [reflexivity|]. cbn. congruence. }
    assert (Htr : forall l o : subs_t, globalize snap l = Some o -> map s_track o = map s_track l).
    { intros l o E. apply globalize_spec in E. set (base := l) in E at 1. clearbody base. induction E as [|s q l' o' Hc _ IHg]; [reflexivity|]. cbn. rewrite IHg. apply global_copy_fields in Hc as (-> & _). reflexivity. }
    assert (Hout : map s_track (concat outs) = map s_track (concat ls)). { clear -HG Htr. induction HG as [|l o ls outs E _ IH]; [reflexivity|]. cbn. rewrite !map_app, IH, (Htr _ _ E). reflexivity. }
    assert (Ht : Forall (fun p => mapped_fill (track_keys (snd p)) (fst p)) procs).
    { unfold procs. clear -HH. induction HH; cbn; constructor; auto. }
    assert (Hnd2 : NoDup (map s_track (registered (concat (map snd procs))))).
    { rewrite Hsnd. assert (E : registered (concat outs) = concat outs).
      { unfold registered. assert (Hq : forall s, In s (concat outs) -> 0 <= s_track s). { intros s Hs. apply (in_map s_track) in Hs. rewrite Hout in Hs. apply in_map_iff in Hs as (x & <- & Hx). auto. }
        clear -Hq. induction (concat outs) as [|s l IH]; [reflexivity|]. cbn. rewrite (proj2 (Z.leb_le 0 (s_track s)) (Hq s (or_introl eq_refl))). f_equal. apply IH. intros; apply Hq; right; assumption. }
      rewrite E, Hout. exact Hnd. }
    destruct (localize_spec procs Ht Hnd2) as (locals & E & HL & Hspec). exists locals. split; [exact E|].
    assert (Hlp : length procs = length ls) by (unfold procs; rewrite combine_length; lia).
    apply Forall2_of_nth; [lia|]. intros k l l' Hl Hl'.
    destruct (nth_error_in_range outs k) as [o Ho]; [rewrite <- L1; eapply nth_error_lt; eauto|]. destruct (nth_error_in_range hashes k) as [h Hh]; [rewrite L2; eapply nth_error_lt; eauto|].
    destruct (Hspec k (h, o) l' (Hp k h o Hh Ho) Hl') as [HLl Hcopy]. cbn [snd] in *. pose proof (F2_nth _ _ _ HG k l o Hl Ho) as Eg. assert (HC := globalize_spec _ _ _ Eg). pose proof (F2_length _ _ _ HC) as L3.
    (* one process holds a track once *)
    assert (Hinj : forall i j a b, zget l i = Some a -> zget l j = Some b -> s_track a = s_track b -> i = j).
    { intros i j a b Ha Hb Eab. pose proof (zget_some _ _ _ Ha). pose proof (zget_some _ _ _ Hb). rewrite zget_nat in Ha, Hb by lia. assert (Hn : NoDup (map s_track l)).
      { clear -Hnd Hl. apply nth_error_split in Hl as (x & y & -> & _). rewrite concat_app, map_app in Hnd. cbn in Hnd. apply NoDup_app_remove_l in Hnd. rewrite map_app in Hnd. eapply NoDup_app_remove_r; exact Hnd. }
      rewrite NoDup_nth_error in Hn. assert (Z.to_nat i = Z.to_nat j); [|lia]. apply Hn; [rewrite map_length; eapply nth_error_lt; eauto|]. rewrite (map_nth_error s_track _ _ Ha), (map_nth_error s_track _ _ Hb). congruence. }
    apply Forall2_of_nth; [lia|]. intros n s s' Hs Hs'. destruct (nth_error_in_range o n) as [g Hg]; [rewrite <- L3; eapply nth_error_lt; eauto|].
    destruct (Hcopy n g Hg) as (u & Hu & kept & r & Eu0 & HK & Hr1 & Hr2). assert (Eu : s' = set_nest kept (set_rank r g)) by congruence. clear Eu0 Hu. pose proof (F2_nth _ _ _ HC n s g Hs Hg) as Hgc. assert (Hgc' := Hgc). destruct Hgc' as (Hin & _ & _). pose proof (global_copy_fields _ _ _ _ Hgc) as (E1 & E2 & E3 & E4 & E5).
    assert (Ep : s_parts g = s_parts s). { destruct Hgc as (_ & -> & _). destruct (s_snapsink s =? snap); reflexivity. }
    rewrite Eu. cbn [s_track s_nest s_rank s_host s_depth s_parts set_nest set_rank]. split; [exact E1|]. split; [|split; [|auto]].
    - (* nests *) rewrite E3 in HK. assert (Hai : forall i, (exists w, zget l i = Some w) -> at_index o (track_of l i) i).
      { intros i (w & Hw). destruct (F2_zget' _ l o i w HC Hw) as (q & Hq & Hc). exists q. split; [exact Hq|]. apply global_copy_fields in Hc as (-> & _). unfold track_of. rewrite Hw. reflexivity. }
      assert (Hall : filter (found o) (map (track_of l) (s_nest s)) = map (track_of l) (s_nest s)).
      { clear -Hin Hai Hpos Hl. assert (Hp2 : forall w, In w l -> 0 <= s_track w). { intros w Hw. apply Hpos. apply in_concat. exists l. split; [eapply nth_error_In; eauto|exact Hw]. }
        induction (s_nest s) as [|c m IH]; [reflexivity|]. cbn. rewrite IH by (intros; apply Hin; right; assumption). destruct (Hin c (or_introl eq_refl)) as [w Hw]. assert (Hf : found o (track_of l c) = true).
        { unfold found. apply andb_true_iff. split; [|apply is_local_spec; exists c; apply Hai; eauto]. apply Z.leb_le. unfold track_of. rewrite Hw. apply Hp2. pose proof (zget_some _ _ _ Hw). rewrite zget_nat in Hw by lia. eapply nth_error_In; eauto. }
        rewrite Hf. reflexivity. }
      rewrite Hall in HK. clear -HK Hin Hai Hinj HC. revert kept HK. induction (s_nest s) as [|c m IH]; intros kept HK; cbn in HK; inversion HK as [|? i ? kept' Hi HK']; subst; [reflexivity|]. rewrite (IH (fun x Hx => Hin x (or_intror Hx)) kept' HK'). f_equal.
      destruct Hi as (q & Hq & Eq). destruct (F2_zget _ l o i q HC Hq) as (w & Hw & Hc). apply global_copy_fields in Hc as (Ew & _). destruct (Hin c (or_introl eq_refl)) as [x Hx]. apply (Hinj i c w x Hw Hx). unfold track_of in Eq. rewrite Hx in Eq. congruence.
    - (* ranks *) rewrite <- E2. apply Hr2. right. rewrite E1. intros (q & p & w & Hq & Hpq & Hw & Hwin). apply Hq.
      assert (Hk2 : exists hq oq lq, p = (hq, oq) /\ nth_error outs q = Some oq /\ nth_error ls q = Some lq).
      { unfold procs in Hpq. destruct p as [hq oq]. apply combine_nth_error_inv in Hpq as [A B]. destruct (nth_error_in_range ls q) as [lq Hlq]; [rewrite L1; eapply nth_error_lt; eauto|]. exists hq, oq, lq. auto. }
      destruct Hk2 as (hq & oq & lq & -> & Hoq & Hlq). cbn [snd] in Hw. pose proof (F2_nth _ _ _ HG q lq oq Hlq Hoq) as Egq. apply globalize_spec in Egq. destruct (in_global _ _ _ Egq w Hw) as (w0 & Hw0 & Hc). assert (Hc' := Hc). destruct Hc' as (Hin' & _). apply global_copy_fields in Hc as (_ & _ & E3' & _).
      rewrite E3' in Hwin. apply in_map_iff in Hwin as (i & Ei & Hi). destruct (Hin' i Hi) as [x Hx]. unfold track_of in Ei. rewrite Hx in Ei.
      (* tracks are on one process *)
      assert (Hxin : In x lq) by (pose proof (zget_some _ _ _ Hx); rewrite zget_nat in Hx by lia; eapply nth_error_In; eauto). assert (Hsin : In s l) by (eapply nth_error_In; eauto).
      clear -Hnd Hlq Hl Hxin Hsin Ei. revert k q Hl Hlq. induction ls as [|a m IH]; intros [|k] [|q] Hl Hlq; cbn in *; try discriminate; [reflexivity| | |].
      + exfalso. injection Hl as ->. rewrite map_app in Hnd. eapply NoDup_app_disjoint; [exact Hnd|apply in_map; exact Hsin|]. rewrite <- Ei. apply in_map. apply in_concat. exists lq. split; [eapply nth_error_In; eauto|exact Hxin].
      + exfalso. injection Hlq as ->. rewrite map_app in Hnd. eapply NoDup_app_disjoint; [exact Hnd|apply in_map; exact Hxin|]. rewrite Ei. apply in_map. apply in_concat. exists l. split; [eapply nth_error_In; eauto|exact Hsin].
      + f_equal. eapply IH; eauto. rewrite map_app in Hnd. eapply NoDup_app_remove_l; eauto.
  Qed.
End S.
