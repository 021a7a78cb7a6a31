(** Runs do not depend on the order in which the threads treat the elements of parallel loops. *)
From Coq Require Import List ZArith QArith Bool Lia Sorting.Permutation.
From Verif.Model Require Import Run ListMem Mpi Mymath Hash Exchange ParticleExchange HaloExchange Hosts Subhalo Nest Unbind Merge Work Variants Tracks UpdateTracks UpdateInclusive Catalogue Program.
From Verif.Spec Require Import Exchange Query Members Hosts Forest Nesting NestHistory Masking Unbinding Catalogue Program Schedule.
From Verif.Proofs Require Import ListMemProofs MpiProofs ListExtra HashProofs ExchangeProofs ExchangeProofs2 ExchangeProofs3 HistorySteps HistorySteps2 HistoryProofs NestFinal KeepProofs CatalogueProofs RestartProofs ProgramLoad ProgramHosts ProgramSteps ProgramLoop ScheduleProofs ScheduleStages ScheduleInclusive.
Import ListNotations.
Local Open Scope nat_scope.

Lemma each_ext {A B} (f f' : nat -> A -> run B) l : (forall k x, nth_error l k = Some x -> f k x = f' k x) -> each f l = each f' l.
Proof.
  unfold each. intros H. assert (G : forall n, (forall k x, nth_error l k = Some x -> f (n + k) x = f' (n + k) x) -> each_from n f l = each_from n f' l).
  { clear H. induction l as [|x l IH]; intros n H; [reflexivity|]. cbn [each_from]. assert (E := H 0 x eq_refl). rewrite Nat.add_0_r in E. rewrite E, (IH (Datatypes.S n)); [reflexivity|].
    intros k y Hy. replace (Datatypes.S n + k) with (n + Datatypes.S k) by lia. apply H. exact Hy. }
  apply G. exact H.
Qed.

(** Entries with different keys are filled in any order. *)
Lemma zupd_comm {A} (l : list A) i j x y : i <> j ->
  match zupd l i x with Some m => zupd m j y | None => None end = match zupd l j y with Some m => zupd m i x | None => None end.
Proof.
  intros Hne. assert (HN : forall (m : list A) k z, zupd m k z = None -> ~ (0 <= k < Z.of_nat (length m))%Z) by (intros m k z En Hr; destruct (zupd_some m k z Hr) as [w Ew]; congruence).
  destruct (zupd l i x) as [a|] eqn:Ea, (zupd l j y) as [b|] eqn:Eb.
  - pose proof (zupd_range _ _ _ _ Ea). pose proof (zupd_range _ _ _ _ Eb). assert (La := zupd_length _ _ _ _ Ea). assert (Lb := zupd_length _ _ _ _ Eb).
    destruct (zupd a j y) as [c|] eqn:Ec; [|exfalso; apply HN in Ec; lia]. destruct (zupd b i x) as [e|] eqn:Ed; [|exfalso; apply HN in Ed; lia].
    f_equal. apply zget_same. intros k. rewrite (zget_zupd _ _ _ k _ Ec), (zget_zupd _ _ _ k _ Ed), (zget_zupd _ _ _ k _ Ea), (zget_zupd _ _ _ k _ Eb). destruct (Z.eqb_spec k j), (Z.eqb_spec k i); congruence.
  - destruct (zupd a j y) as [c|] eqn:Ec; [|reflexivity]. exfalso. apply zupd_range in Ec. rewrite (zupd_length _ _ _ _ Ea) in Ec. apply HN in Eb. lia.
  - destruct (zupd b i x) as [c|] eqn:Ec; [|reflexivity]. exfalso. apply zupd_range in Ec. rewrite (zupd_length _ _ _ _ Eb) in Ec. apply HN in Ea. lia.
  - reflexivity.
Qed.
Lemma flat_same null kv o1 o2 : NoDup (map fst kv) -> Permutation o1 kv -> Permutation o2 kv -> flat_fill null kv o1 = flat_fill null kv o2.
Proof.
  intros HN P1 P2. unfold flat_fill. destruct kv as [|[k0 v0] rest]; [reflexivity|]. set (kmin := keys_min k0 rest). set (start := repeat null _).
  assert (HP : Permutation o1 o2) by (etransitivity; [exact P1|symmetry; exact P2]). assert (HN1 : NoDup (map fst o1)) by (eapply Permutation_NoDup; [symmetry; apply Permutation_map; exact P1|exact HN]).
  assert (G : forall l, for_each o1 (fun kv block => zupd block (fst kv - kmin)%Z (snd kv)) l = for_each o2 (fun kv block => zupd block (fst kv - kmin)%Z (snd kv)) l); [|rewrite G; reflexivity].
  clear P1 P2 HN start. induction HP as [|x a b _ IH|x y a|a b c P1 IH1 _ IH2]; intros l.
  - reflexivity.
  - cbn [for_each]. inversion HN1; subst. destruct (zupd l _ _); [apply IH; assumption|reflexivity].
  - cbn [for_each]. cbn in HN1. inversion HN1 as [|? ? Hx _]; subst. pose proof (zupd_comm l (fst x - kmin) (fst y - kmin) (snd x) (snd y)) as C. destruct (zupd l (fst y - kmin) (snd y)) as [m1|], (zupd l (fst x - kmin) (snd x)) as [m2|]; try reflexivity.
    + rewrite C; [reflexivity|]. intros Ec. apply Hx. left. lia.
    + rewrite <- C; [reflexivity|]. intros Ec. apply Hx. left. lia.
    + rewrite C; [reflexivity|]. intros Ec. apply Hx. left. lia.
  - rewrite IH1 by exact HN1. apply IH2. eapply Permutation_NoDup; [apply Permutation_map; exact P1|exact HN1].
Qed.

Section Run.
  Context {X R S E : Type}.
  Variable g : setup X R S E.
  Hypothesis Hg : sane g.
  Variable sch : Z -> nat -> nat -> list nat -> list nat.
  Variable keys : Z -> nat -> list (Z * Z) -> list (Z * Z).
  Hypothesis HO : only_order g sch keys.
  Local Notation g' := (reschedule g sch keys).
  Local Notation subs_t := (list (sub X R)).
  Local Notation halo := (list (Z * X) * S)%type.
  Lemma sane_again : sane g'.
  Proof using Hg HO. destruct Hg, HO. constructor; assumption. Qed.

  Section Steps.
  Variables (W : nat) (snap : Z).
  Hypothesis Hsnap : (0 <= snap)%Z.
  Variable halos : list (list halo).
  Variable here : Z * X -> Prop.
  Hypothesis HLh : length halos = W.
  Hypothesis Hhalos : forall h p, In h (concat halos) -> In p (fst h) -> here p.
  Variable before : list subs_t.
  Hypothesis Hhist : nest_history (H := S) before.
  Variable moved : list subs_t.
  Hypothesis HLm : length moved = W.
  Hypothesis Hnest : Permutation (map nesting_of (concat before)) (map nesting_of (concat moved)).
  Hypothesis Hhosted : forall r l hs s, nth_error moved r = Some l -> nth_error halos r = Some hs -> In s l -> hosted halos hs s.
  Hypothesis Hmass : forall s, In s (concat moved) -> (0 <= s_mass s)%Q.
  Hypothesis Hparts : forall s p, In s (concat moved) -> In p (s_parts s) -> here p.
  Hypothesis Hsink : forall s, In s (concat moved) -> (s_snapsink s < snap)%Z.
  Local Notation neg_g := (neg_of (g_neg g) (g_strip g)).
  Local Notation pos_g := (pos_of (g_pos g) (g_strip g)).
  Local Notation sorter_g := (sorter_of (g_neg g) (g_pos g) (g_sorter g) (g_strip g)).

  Lemma steps_same : after_hosts g' snap halos moved = after_hosts g snap halos moved.
  Proof using All.
    destruct (steps_trace g Hg W snap Hsnap halos here HLh Hhalos before Hhist moved HLm Hnest Hhosted Hmass Hparts Hsink) as (fed & locals & nested & works & regs & regs0 & final & HT & _).
    rewrite (trace_steps _ _ _ _ _ _ _ _ _ _ _ _ _ HT). destruct HT as (Ef & El & En & Ew & Er & Efin & Lf & Ll & Ln & Lw & Lr & HB0 & HB). unfold after_hosts.
    rewrite (each_ext (fed_by g' snap) (fed_by g snap)) by (intros k [m hs] _; unfold fed_by; cbn [g_sched g_sort_mass g_ratio g_dist g_centre g_fresh reschedule]; rewrite (oo_births _ _ _ HO); reflexivity). rewrite Ef. cbn [rbind].
    change (g_sort_keys g') with (g_sort_keys g). rewrite El. cbn [of_opt rbind].
    assert (Hat : forall k, k < W -> nth_error (procs g W halos moved fed locals nested works regs [] []) k = Some (proc_at g halos moved fed locals nested works regs [] [] k)) by (intros k Hk; apply procs_nth; exact Hk).
    assert (Hat0 : forall k, k < W -> nth_error (procs g W halos moved fed locals nested (map fst nested) regs0 [] []) k = Some (proc_at g halos moved fed locals nested (map fst nested) regs0 [] [] k)) by (intros k Hk; apply procs_nth; exact Hk).
    rewrite (each_ext (nested_by g' snap) (nested_by g snap)).
    2:{ intros k [t l] Hk. apply combine_nth_error_inv in Hk as [Ht Hl]. rewrite nth_error_map in Ht. destruct (nth_error fed k) as [[t' f]|] eqn:Efk; [|discriminate]. cbn in Ht. injection Ht as ->.
        assert (Hk : k < W) by (apply nth_error_lt in Hl; lia). unfold nested_by. cbn [fst snd].
        pose proof (nest_same before _ _ Hhist HB (nth_error_In _ _ (Hat k Hk))) as HS. cbn [proc_at p_local p_table p_nested p_heads] in HS. rewrite (nth_error_nth _ _ ([], []) Efk), (nth_error_nth _ _ [] Hl) in HS. cbn [fst] in HS.
        rewrite (HS (g_sched g' snap k 1 (seq 0 (length l)))) by apply (sn_sched _ sane_again). rewrite HS by apply (sn_sched _ Hg). reflexivity. }
    rewrite En. cbn [rbind]. rewrite (each_ext (worked_by g' snap) (worked_by g snap)).
    2:{ intros k [t [subs heads]] Hk. apply combine_nth_error_inv in Hk as [Ht Hl]. rewrite nth_error_map in Ht. destruct (nth_error fed k) as [[t' f]|] eqn:Efk; [|discriminate]. cbn in Ht. injection Ht as ->.
        assert (Hk : k < W) by (apply nth_error_lt in Hl; lia). destruct (sn_sorter _ Hg) as [lt Hlt]. assert (Hlt' := sorter_of_ok (g_neg g) (g_pos g) lt (g_sorter g) (sn_sign _ Hg) Hlt (g_strip g)). assert (sign_g := sign_of (g_neg g) (g_pos g) (sn_sign _ Hg) (g_strip g)).
        assert (EX := unbind_of_same (g_neg g) (g_pos g) lt (g_sorter g) (sn_sign _ Hg) Hlt (g_strip g) (g_shuffle g snap) (g_energy g snap) (g_inner g snap) (g_no_energy g) (g_rest_of g snap) (g_pmass g) (g_min_part g) (g_converged g) (g_max_sample g) (g_refine g) snap).
        assert (Lhd : length heads = length (nth k halos [])).
        { destruct (begun_spec before _ (history_ok _ Hhist) HB) as [Hsp _]. destruct (Hsp k _ (Hat k Hk)) as (_ & (tn & HNa) & Hheads & _). cbn [proc_at p_moved p_halos p_table p_nested p_heads] in HNa, Hheads. rewrite (nth_error_nth _ _ ([], []) Hl) in Hheads. cbn [snd] in Hheads. destruct HNa as (_ & _ & HLt & _). rewrite (mapM_length _ _ _ Hheads). destruct (fst (nth k fed ([], []))); cbn in *; lia. }
        unfold worked_by. cbn [g_inclusive g_neg g_pos g_sorter g_shuffle g_energy g_inner g_no_energy g_rest_of g_pmass g_min_part g_converged g_max_sample g_refine g_strip g_allowed g_near g_merge reschedule]. destruct (g_inclusive g).
        - rewrite !(work_inclusive_ext _ _ (truncate (g_allowed g)) EX).
          pose proof (work_inclusive_same neg_g pos_g lt sorter_g (g_shuffle g snap) (g_energy g snap) (g_inner g snap) (g_no_energy g) (g_rest_of g snap) (g_pmass g) (g_min_part g) (g_converged g) (g_max_sample g) (g_refine g) (g_allowed g) snap (g_near g snap)
            sign_g Hlt' (sn_shuffle _ Hg snap) (sn_min_part _ Hg) (sn_converged _ Hg) (sn_allowed _ Hg) Hsnap S before (procs g W halos moved fed locals nested works regs [] []) (proc_at g halos moved fed locals nested works regs [] [] k) (g_merge g)) as HS.
          specialize (HS (g_sched g' snap k 4 (seq 0 (length subs))) (g_sched g' snap k 5 (seq 0 (length subs))) (g_sched g' snap k 6 (seq 0 (length subs))) (g_sched g' snap k 7 (seq 0 (length heads))) (g_sched g' snap k 8 (seq 0 (length subs)))
            (g_sched g snap k 4 (seq 0 (length subs))) (g_sched g snap k 5 (seq 0 (length subs))) (g_sched g snap k 6 (seq 0 (length subs))) (g_sched g snap k 7 (seq 0 (length heads))) (g_sched g snap k 8 (seq 0 (length subs))) Hhist HB (nth_error_In _ _ (Hat k Hk))).
          cbn [proc_at p_moved p_halos p_table p_fed p_nested p_heads] in HS. rewrite (nth_error_nth _ _ ([], []) Efk), (nth_error_nth _ _ ([], []) Hl) in HS. cbn [fst snd] in HS. rewrite <- Lhd in HS. apply HS; first [apply (sn_sched _ Hg)|apply (sn_sched _ sane_again)].
        - rewrite !(work_ext _ _ (truncate (g_allowed g)) EX).
          pose proof (work_same neg_g pos_g lt sorter_g (g_shuffle g snap) (g_energy g snap) (g_inner g snap) (g_no_energy g) (g_rest_of g snap) (g_pmass g) (g_min_part g) (g_converged g) (g_max_sample g) (g_refine g) (g_allowed g) snap (g_near g snap)
            sign_g Hlt' (sn_shuffle _ Hg snap) (sn_min_part _ Hg) (sn_converged _ Hg) (sn_allowed _ Hg) Hsnap S before (procs g W halos moved fed locals nested works regs [] []) (proc_at g halos moved fed locals nested works regs [] [] k) (g_merge g)) as HS.
          specialize (HS (g_sched g' snap k 2 (seq 0 (length heads))) (g_sched g' snap k 3 (seq 0 (length heads))) (g_sched g' snap k 4 (unnested t subs)) (g_sched g' snap k 5 (seq 0 (length subs))) (g_sched g' snap k 6 (seq 0 (length subs))) (g_sched g' snap k 7 (seq 0 (length heads))) (g_sched g' snap k 8 (seq 0 (length subs)))
            (g_sched g snap k 2 (seq 0 (length heads))) (g_sched g snap k 3 (seq 0 (length heads))) (g_sched g snap k 4 (unnested t subs)) (g_sched g snap k 5 (seq 0 (length subs))) (g_sched g snap k 6 (seq 0 (length subs))) (g_sched g snap k 7 (seq 0 (length heads))) (g_sched g snap k 8 (seq 0 (length subs))) Hhist HB (nth_error_In _ _ (Hat k Hk))).
          cbn [proc_at p_moved p_halos p_table p_fed p_nested p_heads] in HS. rewrite (nth_error_nth _ _ ([], []) Efk), (nth_error_nth _ _ ([], []) Hl) in HS. cbn [fst snd] in HS. rewrite <- Lhd in HS. apply HS; first [apply (sn_sched _ Hg)|apply (sn_sched _ sane_again)]. }
    rewrite Ew. cbn [rbind]. rewrite Er. cbn [of_opt rbind]. rewrite <- Efin. apply each_ext.
    intros k [hs [rg hd]] Hk. apply combine_nth_error_inv in Hk as [Hh Hk]. apply combine_nth_error_inv in Hk as [Hrg Hhd]. rewrite nth_error_map in Hhd. destruct (nth_error nested k) as [[ns hd']|] eqn:Ens; [|discriminate]. cbn in Hhd. injection Hhd as ->.
    assert (Hk : k < W) by (apply nth_error_lt in Hh; lia). unfold finished_by. cbn [g_inclusive g_halo_id g_promoted g_sort_mass g_report g_sched reschedule]. set (ids := map (fun h : halo => g_halo_id g (snd h)) hs). assert (Lids : length ids = length hs) by apply map_length.
    destruct (g_inclusive g).
    - pose proof (update_inclusive_same (g_promoted g) before _ _ Hhist HB (nth_error_In _ _ (Hat k Hk)) (g_sort_mass g rg) (g_sched g' snap k 9 (seq 0 (length hs))) (g_sched g snap k 9 (seq 0 (length hs))) (g_sched g' snap k 10 (seq 0 (1 + length hs))) (g_sched g snap k 10 (seq 0 (1 + length hs))) snap ids) as HS.
      cbn [proc_at p_reg p_halos p_heads] in HS. rewrite (nth_error_nth _ _ [] Hh), (nth_error_nth _ _ [] Hrg), (nth_error_nth _ _ ([], []) Ens), Lids in HS. cbn [snd] in HS.
      cbn [g_sched reschedule] in HS. rewrite HS; [reflexivity|apply (sn_mass _ Hg)|reflexivity|apply (oo_loops _ _ _ HO)|apply (sn_sched _ Hg)|apply (oo_loops _ _ _ HO)|apply (sn_sched _ Hg)].
    - pose proof (update_same before _ _ Hhist HB (nth_error_In _ _ (Hat k Hk)) (g_sort_mass g rg) (g_sched g' snap k 9 (seq 0 (length hs))) (g_sched g snap k 9 (seq 0 (length hs))) snap ids) as HS.
      cbn [proc_at p_reg p_halos p_heads] in HS. rewrite (nth_error_nth _ _ [] Hh), (nth_error_nth _ _ [] Hrg), (nth_error_nth _ _ ([], []) Ens), Lids in HS. cbn [snd] in HS.
      cbn [g_sched reschedule] in HS. rewrite HS; [reflexivity|apply (sn_mass _ Hg)|reflexivity|apply (oo_loops _ _ _ HO)|apply (sn_sched _ Hg)].
  Qed.
  End Steps.

  Variable W : nat.
  Hypothesis HW : 1 <= W.

  Lemma load_same snap : valid_snapshot g W snap -> load_particles g' snap = load_particles g snap.
  Proof using Hg HO HW.
    intros HV. unfold load_particles. set (l := g_loaded g snap). change (g_loaded g' snap) with l. change (g_sort_parts g') with (g_sort_parts g).
    assert (HL : length l = W) by apply (vs_loaded _ _ _ HV).
    destruct (exchange_correct fst (g_sort_parts g) (fun l => proj1 (sn_parts _ Hg l)) (fun l => proj2 (sn_parts _ Hg l)) l (vs_unique _ _ _ HV)) with (fuel := 1 + (length (concat l) + length l))
      as (new & ranges & Ex & HLn & HP & _); [lia|rewrite HL; apply (vs_enough _ _ _ HV)|lia|]. rewrite Ex. cbn [rbind fst snd].
    assert (HNn : NoDup (map fst (concat new))). { eapply Permutation_NoDup; [apply Permutation_sym, Permutation_map; exact HP|]. apply (vs_unique _ _ _ HV). }
    rewrite (each_ext (fill_hash g' snap) (fill_hash g snap)); [reflexivity|]. intros k x Hx. unfold fill_hash. cbn [g_need_hash g_sort_keys g_sched_keys reschedule]. destruct (g_need_hash g); [reflexivity|].
    rewrite (flat_same nothing (indexed x) (keys snap k (indexed x)) (g_sched_keys g snap k (indexed x))); [reflexivity| |apply (oo_keys _ _ _ HO)|apply (sn_sched_keys _ Hg)].
    rewrite indexed_ids. rewrite concat_map in HNn. eapply NoDup_concat_in; [exact HNn|]. apply in_map. eapply nth_error_In; eauto.
  Qed.

  (** One snapshot from a state of the run. *)
  Lemma one_same snap cat d : (0 <= snap)%Z -> valid_snapshot g W snap -> state (S := S) W (snap - 1) cat ->
    (forall s p, In s (concat cat) -> In p (s_parts s) -> within g snap (fst p)) -> one g' snap (tt, d, cat) = one g snap (tt, d, cat).
  Proof using Hg HO HW.
    intros Hsnap HV [S1 (before & S2 & S2') S3 S4 S5] Hwithin. destruct (load_ok g Hg W snap HW HV) as (sps & ranges & El & HR).
    assert (El' : load_particles g' snap = Done (sps, ranges)) by (rewrite (load_same snap HV); exact El).
    assert (Esp : snap_procs g snap = sps) by (unfold snap_procs; rewrite El; reflexivity). assert (Erg : snap_ranges g snap = ranges) by (unfold snap_ranges; rewrite El; reflexivity).
    assert (Esp' : snap_procs g' snap = sps) by (unfold snap_procs; rewrite El'; reflexivity). assert (Erg' : snap_ranges g' snap = ranges) by (unfold snap_ranges; rewrite El'; reflexivity).
    assert (Hspan : exists lo hi, nth_error ranges 0 = Some lo /\ nth_error ranges (length cat) = Some hi /\ forall c s id, In c cat -> In s c -> In id (ids_of s) -> (lo <= id < hi)%Z).
    { destruct (rs_span _ _ _ _ _ HR) as (lo & hi & Hlo & Hhi & Hspan). exists lo, hi. split; [exact Hlo|]. split; [rewrite S1; exact Hhi|]. intros c s id Hc Hs Hid. apply Hspan. unfold ids_of in Hid. apply in_map_iff in Hid as (p & <- & Hp). apply (Hwithin s); [apply in_concat; eauto|exact Hp]. }
    assert (Hread : readable nothing (snap_ranges g) (snap_procs g) snap cat).
    { unfold readable. rewrite Esp, Erg. split; [rewrite S1; apply (rs_length _ _ _ _ _ HR)|]. split; [apply (rs_located _ _ _ _ _ HR)|]. split; [apply (rs_unique _ _ _ _ _ HR)|]. split; [apply (rs_tables _ _ _ _ _ HR)|]. split; [apply (rs_null _ _ _ _ _ HR)|exact Hspan]. }
    assert (Hread' : readable nothing (snap_ranges g') (snap_procs g') snap cat).
    { unfold readable. rewrite Esp', Erg'. split; [rewrite S1; apply (rs_length _ _ _ _ _ HR)|]. split; [apply (rs_located _ _ _ _ _ HR)|]. split; [apply (rs_unique _ _ _ _ _ HR)|]. split; [apply (rs_tables _ _ _ _ _ HR)|]. split; [apply (rs_null _ _ _ _ _ HR)|exact Hspan]. }
    pose proof (update_eq nothing (g_mbid g) (g_snapid g) (g_junk g) (g_chunk g) (g_sort_local g) (g_sort_roam g) (snap_ranges g) (snap_procs g) (derived g) (later_steps g) eq_refl (sn_chunk _ Hg)
      (fun l => proj1 (sn_local _ Hg l)) (fun l => proj2 (sn_local _ Hg l)) (fun l => proj1 (sn_roam _ Hg l)) (fun l => proj2 (sn_roam _ Hg l)) snap cat Hread S3) as Eu.
    assert (Hg' := sane_again).
    pose proof (update_eq nothing (g_mbid g') (g_snapid g') (g_junk g') (g_chunk g') (g_sort_local g') (g_sort_roam g') (snap_ranges g') (snap_procs g') (derived g') (later_steps g') eq_refl (sn_chunk _ Hg')
      (fun l => proj1 (sn_local _ Hg' l)) (fun l => proj2 (sn_local _ Hg' l)) (fun l => proj1 (sn_roam _ Hg' l)) (fun l => proj2 (sn_roam _ Hg' l)) snap cat Hread' S3) as Eu'.
    rewrite Esp in Eu. rewrite Esp' in Eu'. change (renewed (derived g') (map sp_parts sps)) with (renewed (derived g) (map sp_parts sps)) in Eu'. set (renew := renewed (derived g) (map sp_parts sps)) in *. set (c1 := map (map renew) cat) in *.
    destruct (halos_ok g Hg W snap sps ranges HW HV HR) as (halos & Eh & Lh & Hh1 & Hh2 & Hh3 & Hh4).
    assert (Hhp : forall h p, In h (concat halos) -> In p (fst h) -> In p (particles g snap)). { intros h p Hh Hp. destruct (Hh1 h Hh) as (h0 & _ & U & _). apply U. exact Hp. }
    destruct (hosts_ok g Hg W snap sps ranges HW HV HR halos Lh Hhp c1) as (moved & Em & Lm & Pm & Hm).
    { unfold c1. rewrite map_length. exact S1. } { intros s p Hs Hp. apply in_map2 in Hs as (s0 & Hs0 & ->). eapply renewed_in; eauto. }
    assert (Hfrom : forall m, In m (concat moved) -> exists s, In s (concat cat) /\ data m = data (renew s)).
    { intros m Hin. apply (in_map data) in Hin. apply (Permutation_in _ Pm) in Hin. apply in_map_iff in Hin as (s1 & E1 & H1). apply in_map2 in H1 as (s & Hs & ->). eauto. }
    assert (Hfields : forall m s, data m = data (renew s) -> s_parts m = remaining g snap (s_parts s) /\ s_snapsink m = s_snapsink s /\ s_mass m = s_mass (renew s)).
    { intros m s Ed. rewrite <- (renewed_parts g W snap sps ranges HR s). fold renew. split; [apply (f_equal s_parts) in Ed; exact Ed|]. split; [apply (f_equal s_snapsink) in Ed; exact Ed|apply (f_equal s_mass) in Ed; exact Ed]. }
    assert (Hparts : forall s p, In s (concat moved) -> In p (s_parts s) -> In p (particles g snap)).
    { intros m p Hin Hp. destruct (Hfrom m Hin) as (s & Hs & Ed). destruct (Hfields m s Ed) as (F1 & _). rewrite F1 in Hp. apply (remaining_in g W snap HV) in Hp. apply Hp. }
    assert (Esame : after_hosts g' snap halos moved = after_hosts g snap halos moved).
    { apply (steps_same W snap Hsnap halos (fun p => In p (particles g snap)) Lh Hhp before S2 moved Lm).
      - rewrite S2'. assert (E2 : map nesting_of (concat moved) = map nesting_of (map data (concat moved))) by (rewrite map_map; reflexivity). rewrite E2, (Permutation_map nesting_of Pm), map_map. unfold c1. rewrite <- concat_map, map_map. reflexivity.
      - exact Hm.
      - intros m Hin. destruct (Hfrom m Hin) as (s & Hs & Ed). destruct (Hfields m s Ed) as (_ & _ & ->). eapply renewed_mass; eauto.
      - exact Hparts.
      - intros m Hin. destruct (Hfrom m Hin) as (s & Hs & Ed). destruct (Hfields m s Ed) as (_ & -> & _). specialize (S4 s Hs). lia. }
    unfold one. rewrite !one_proceed. unfold proceed. rewrite Eu, Eu'. cbn [rbind]. unfold later_steps. rewrite El, El'. cbn [rbind fst snd].
    replace (steps g' snap sps ranges c1) with (steps g snap sps ranges c1); [reflexivity|].
    unfold steps. change (update_halos (g_chunk g') (g_average g') (halo_cell (g_root g') (g_box g') (g_position g')) (g_sort_rank g') nothing (g_sort_local g') (g_sort_roam g') (g_full g') ranges sps (g_groups g' snap))
      with (update_halos (g_chunk g) (g_average g) (halo_cell (g_root g) (g_box g) (g_position g)) (g_sort_rank g) nothing (g_sort_local g) (g_sort_roam g) (g_full g) ranges sps (g_groups g snap)). rewrite Eh. cbn [rbind].
    change (host_proc g') with (host_proc g). change (g_host_chunk g') with (g_host_chunk g). rewrite Em. cbn [of_opt rbind]. symmetry. exact Esame.
  Qed.

  Lemma loop_run n : forall start cat d, (0 <= start)%Z -> state (S := S) W (start - 1) cat -> (forall snap, (start <= snap < start + Z.of_nat n)%Z -> valid_snapshot g W snap) ->
    (0 < n -> forall s p, In s (concat cat) -> In p (s_parts s) -> within g start (fst p)) ->
    (forall snap p, (start <= snap < start + Z.of_nat n - 1)%Z -> In p (particles g snap) -> within g (snap + 1) (fst p)) ->
    loop g' n start (tt, d, cat) = loop g n start (tt, d, cat).
  Proof using Hg HO HW.
    induction n as [|n IH]; intros start cat d H0 Hst Hv Hw Hnx; [reflexivity|].
    assert (E1 := one_same start cat d H0 (Hv start ltac:(lia)) Hst (Hw ltac:(lia))).
    destruct (one_ok g Hg W HW start cat H0 (Hv start ltac:(lia)) Hst (Hw ltac:(lia))) as (c & C1 & C2 & C3 & C4 & C5 & _). destruct (C1 d cat (alike_refl cat)) as (d1 & E2 & _).
    unfold loop in *. cbn [main_loop]. unfold one in E1, E2. rewrite E1, E2. cbn [rbind]. apply IH.
    - lia.
    - replace (start + 1 - 1)%Z with start by lia. exact C4.
    - intros snap Hs. apply Hv. lia.
    - intros Hn s p Hs Hp. apply Hnx; [lia|]. eapply (sd_particles _ _ _ _ C5); eauto.
    - intros snap p Hs. apply Hnx. lia.
  Qed.
  Lemma hbt_same n d : valid_input g W n (g_min_snapshot g) -> hbt g' W n (g_min_snapshot g) d = hbt g W n (g_min_snapshot g) d.
  Proof using Hg HO HW.
    intros [_ V0 V1 V2]. unfold hbt, program. cbn [g_min_snapshot reschedule]. unfold load. rewrite (proj2 (Z.ltb_lt _ _)) by lia.
    apply (loop_run n (g_min_snapshot g) (repeat [] W) d V0 (state_empty _ _) V1); [|exact V2].
    intros _ s p Hs. exfalso. clear -Hs. induction W as [|w IH]; [destruct Hs|exact (IH Hs)].
  Qed.
End Run.
