(** The steps of a process in a build with inclusive masses do not depend on the order of its threads. *)
From Coq Require Import List ZArith QArith Bool Lia Sorting.Permutation.
From Verif.Model Require Import ListMem Mpi Run Hash Subhalo Tracks Nest UpdateTracks UpdateInclusive Mask Unbind Merge Work Variants.
From Verif.Model Require Purge.
From Verif.Spec Require Import Members Forest Nesting NestHistory Masking Unbinding Sinking.
From Verif.Spec Require Purge.
From Verif.Proofs Require Import ListMemProofs MpiProofs ListExtra MemberProofs TreeProofs NestProofs NestProofs2 NestProofs3 NestProofs4 NestProofs5 LocalizeProofs HistorySteps HistorySteps2 HistoryProofs NestFinal ReportProofs GlueTree HaloWork UnbindProofs StripProofs RefineProofs DetectProofs MergeProofs MergeFinal WorkProofs WalkProofs HelperLoops UpdateLoops PurgeProofs InclusiveProofs InclusiveRun ScheduleProofs ScheduleStages.
From Verif.Props Require Import PropsUnbind PropsMerge PropsInclusive.
Import ListNotations.
Local Open Scope nat_scope.

Section Promotion.
  Context {P V : Type}.
  Variables (p_id : P -> Z) (p_pos p_vel : P -> V).
  Lemma outcome_fun mask (s a b : Purge.sub P V) : outcome p_id p_pos p_vel mask s a -> outcome p_id p_pos p_vel mask s b -> a = b.
  Proof.
    unfold outcome. destruct (1 <? Purge.u_nbound s)%Z; [|congruence].
    intros [[A1 A2]|(i & p & (I1 & I2 & I3 & I4) & A1 & (X1 & X2 & X3 & X4) & A2 & A3)] [[B1 B2]|(j & q & (J1 & J2 & J3 & J4) & B1 & (Y1 & Y2 & Y3 & Y4) & B2 & B3)]; [congruence| | |].
    - exfalso. apply J3. eapply A1; eauto.
    - exfalso. apply I3. eapply B1; eauto.
    - assert (j = i). { destruct (Nat.lt_trichotomy i j) as [Hl|[Hl|Hl]]; [exfalso; apply I3; eapply J4; [|exact I2]; lia|auto|exfalso; apply J3; eapply I4; [|exact J2]; lia]. }
      subst j. assert (q = p) by congruence. subst q. assert (EP : Purge.u_parts a = Purge.u_parts b).
      { apply nth_error_ext. intros k. destruct (Nat.eq_dec k 0) as [->|H0]; [congruence|]. destruct (Nat.eq_dec k i) as [->|Hi]; [congruence|]. rewrite X4, Y4 by assumption. reflexivity. }
      destruct a, b. cbn in *. congruence.
  Qed.
  Lemma purge_same groups groups' (subs : list (Purge.sub P V)) : Spec.Purge.members_ok groups subs -> Permutation groups groups' -> Purge.purge p_id p_pos p_vel groups subs = Purge.purge p_id p_pos p_vel groups' subs.
  Proof.
    intros HM HP. assert (HC := concat_permuted _ _ HP). assert (HM' : Spec.Purge.members_ok groups' subs).
    { destruct HM as [A B]. split; [eapply Permutation_NoDup; eauto|]. intros m Hm. apply B. eapply Permutation_in; [symmetry; exact HC|exact Hm]. }
    destruct (purge_ok p_id p_pos p_vel groups subs HM) as (a & -> & La & Oa & Ia). destruct (purge_ok p_id p_pos p_vel groups' subs HM') as (b & -> & Lb & Ob & Ib). f_equal.
    apply nth_error_ext. intros m. destruct (in_dec Nat.eq_dec m (concat groups)) as [Hm|Hm].
    - assert (Hlt := proj2 HM m Hm). destruct (nth_error_in_range subs m Hlt) as [s Hs]. apply in_concat in Hm as (g & Hg & Hm). apply In_nth_error in Hm as [j Hj].
      destruct (Ia g j m s Hg Hj Hs) as (x & -> & Hx). destruct (Ib g j m s (Permutation_in _ HP Hg) Hj Hs) as (y & -> & Hy). f_equal. eapply outcome_fun; eassumption.
    - rewrite Oa by exact Hm. rewrite Ob; [reflexivity|]. intros Hc. apply Hm. eapply Permutation_in; [symmetry; exact HC|exact Hc].
  Qed.
End Promotion.

Section Update.
  Context {X R H : Type}.
  Variable promoted : Z * X -> R -> R.
  Variables (before : list (list (sub X R))) (ps : list (@proc X R H)) (p : @proc X R H).
  Hypothesis HH : nest_history (H := H) before.
  Hypothesis HB : nest_begun before ps.
  Hypothesis Hp : In p ps.
  Lemma update_inclusive_same sort o1 o2 r1 r2 snap halo_ids : sorts_by_mass (p_reg p) sort -> length halo_ids = length (p_halos p) -> Permutation o1 (seq 0 (length halo_ids)) -> Permutation o2 (seq 0 (length halo_ids)) ->
    Permutation r1 (seq 0 (S (length halo_ids))) -> Permutation r2 (seq 0 (S (length halo_ids))) ->
    update_tracks_inclusive promoted sort (length (p_reg p)) o1 r1 snap halo_ids (p_heads p) (p_reg p) = update_tracks_inclusive promoted sort (length (p_reg p)) o2 r2 snap halo_ids (p_heads p) (p_reg p).
  Proof using HH HB Hp.
    intros Hs Hids Ho1 Ho2 Hr1 Hr2. assert (Hk := Hp). apply In_nth_error in Hk as [k Hk]. destruct (begun_spec before ps (history_ok _ HH) HB) as [H1 H2].
    destruct (H1 k p Hk) as (_ & (tn & HN) & Hheads & _). destruct (H2 k p Hk) as (tr & HR). destruct HB as (_ & _ & _ & Hwork & _). rewrite Forall_forall in Hwork. rewrite Hids in Ho1, Ho2, Hr1, Hr2.
    destruct (ranked_spec _ _ _ _ _ _ _ _ _ _ o1 (Hwork p Hp) HN HR Hheads Hs Ho1) as (table & s1 & s2 & s3 & E0 & E1 & E2 & E3 & HT & HU & _).
    assert (E1' : extend_nests (length (p_reg p)) o2 table (p_heads p) (p_reg p) = Done s1).
    { destruct (HistorySteps2.ranked_facts _ _ _ _ _ _ _ _ _ _ (Hwork p Hp) HN HR Hheads Hs) as (table' & ET & HT' & Huni & Hhl & Hhd). rewrite E0 in ET. injection ET as <-. destruct HR as ([Hfor Hroot] & _).
      destruct (extend_nests_spec _ _ _ _ _ _ Hfor Hroot Huni HT' Hhl Hhd (le_n _) o2 Ho2) as (s1' & E1' & _).
      rewrite E1'. f_equal. eapply loop_same; [exact (extend_loop _ _ _ _ _ _ Hfor Hroot Huni HT' Hhl Hhd (le_n _) o2 s1' Ho2 E1')|exact (extend_loop _ _ _ _ _ _ Hfor Hroot Huni HT' Hhl Hhd (le_n _) o1 s1 Ho1 E1)]. }
    unfold update_tracks_inclusive. rewrite Hids, E0. cbn [of_opt rbind]. rewrite E1, E1'. cbn [rbind]. rewrite E2. cbn [of_opt rbind]. rewrite E3. cbn [rbind].
    assert (HTP := table_for_perm _ _ _ HT). destruct HT as (HTL & _). destruct HU as (HLu & _).
    destruct (picked table r1) as (g1 & Eg1 & P1); [rewrite HTL; exact Hr1|]. destruct (picked table r2) as (g2 & Eg2 & P2); [rewrite HTL; exact Hr2|]. rewrite Eg1, Eg2. cbn [of_opt rbind].
    replace (purge_subs promoted g2 s3) with (purge_subs promoted g1 s3); [reflexivity|]. unfold purge_subs. rewrite (purge_same fst Some Some g1 g2); [reflexivity| |transitivity table; [symmetry; exact P1|exact P2]].
    apply concat_permuted in P1. split.
    - eapply Permutation_NoDup; [exact P1|]. eapply Permutation_NoDup; [symmetry; exact HTP|]. apply seq_NoDup.
    - intros m Hm. apply (Permutation_in _ (Permutation_sym P1)) in Hm. apply (Permutation_in _ HTP) in Hm. apply in_seq in Hm. rewrite map_length. lia.
  Qed.
End Update.

Section Config.
  Context {X R E : Type}.
  Local Notation entry := (nat * E)%type.
  Variables neg pos : E -> bool.
  Variable lt : E -> E -> bool.
  Variable sorter : sort_site -> list entry -> list entry.
  Variable shuffle : list (Z * X) -> list (Z * X).
  Variable energy : list (Z * X) * R -> nat -> list entry -> nat -> E.
  Variable inner : list (Z * X) * R -> list entry -> nat -> E.
  Variable no_energy : E.
  Variable rest_of : list (Z * X) -> nat -> R -> R.
  Variable pmass : Z * X -> Q.
  Variables (min_part : nat) (converged : nat -> nat -> bool) (max_sample : nat) (refine : bool) (allowed : nat -> nat) (snap : Z).
  Variable near : nat * list (Z * X) * R -> nat * list (Z * X) * R -> bool.
  Hypothesis one_sign : forall e, neg e = true -> pos e = false.
  Hypothesis sorter_ok : forall site l, Permutation (sorter site l) l /\ ascending lt snd (sorter site l).
  Hypothesis shuffle_ok : forall l, Permutation (shuffle l) l.
  Hypothesis min_ok : 2 <= min_part.
  Hypothesis converged_ok : forall n, converged n n = true.
  Hypothesis allowed_ok : forall n, n <= allowed n.
  Hypothesis snap_ok : (0 <= snap)%Z.
  Local Notation unbind := (unbind neg pos sorter shuffle energy inner no_energy rest_of pmass min_part converged max_sample refine snap).
  Local Notation unbind_total := (unbind_total neg pos lt sorter shuffle energy inner no_energy rest_of pmass min_part converged max_sample refine snap one_sign sorter_ok shuffle_ok min_ok converged_ok).
  Local Notation merge_inclusive mt := (merge_inclusive unbind (truncate allowed) near pmass snap mt).

  (** A turn of the merging changes its own entry, by what is in it. *)
  Definition merge_own (s : sub X R) : run (sub X R) :=
    if trapped s && alive s then match merge_to_inclusive pmass s with Some s' => Done (set_death snap s') | None => Crash end else Done s.
  Lemma merge_turns (L : list Z) : forall a b : list (sub X R), run_each L (merge_at_inclusive pmass snap) a = Done b -> (forall i, In i L -> (0 <= i)%Z) /\ run_each (map Z.to_nat L) (own_turn (fun _ => merge_own)) a = Done b.
  Proof.
    induction L as [|i L IH]; intros a b E0; cbn [run_each map] in *; [split; [intros i []|exact E0]|]. apply rbind_ends in E0 as (m & E1 & E2). destruct (IH m b E2) as [H1 H2].
    unfold merge_at_inclusive in E1. destruct (zget a i) as [s|] eqn:Ez; [|discriminate]. pose proof (zget_some _ _ _ Ez) as Hr. split; [intros k [<-|Hk]; [lia|auto]|].
    assert (Ez' := Ez). rewrite zget_nat in Ez' by lia. assert (Et : own_turn (fun _ => merge_own) (Z.to_nat i) a = Done m); [|rewrite Et; exact H2]. unfold own_turn. rewrite Ez'. unfold merge_own. destruct (trapped s && alive s).
    - destruct (zget a (s_sink s)); [|discriminate]. destruct (merge_to_inclusive pmass s) as [s'|]; [|discriminate]. cbn [rbind]. rewrite <- E1. unfold zupd. destruct (Z.ltb_spec i 0); [lia|reflexivity].
    - cbn [rbind]. rewrite (upd_self _ _ _ Ez'). exact E1.
  Qed.

  Section Merge.
  Variables (moved : list (sub X R)) (nh : nat) (table : list (list nat)) (subs : list (sub X R)) (tn : list tree) (heads : list (list nat)).
  Hypothesis HN : nested_as moved nh table subs tn.
  Hypothesis Hh : mapM (heads_of subs) (tl table) = Some heads.
  Hypothesis Hr : Forall (fun s => (-1 <= s_host s < Z.of_nat nh)%Z) moved.
  Hypothesis HT : Forall settled subs.
  Lemma merge_inclusive_same mt fuel o1 o2 o3 o4 q1 q2 q3 q4 : length subs <= fuel ->
    Permutation o1 (seq 0 (length subs)) -> Permutation o2 (seq 0 (length subs)) -> Permutation o3 (seq 0 nh) -> Permutation o4 (seq 0 (length subs)) ->
    Permutation q1 (seq 0 (length subs)) -> Permutation q2 (seq 0 (length subs)) -> Permutation q3 (seq 0 nh) -> Permutation q4 (seq 0 (length subs)) ->
    merge_inclusive mt fuel o1 o2 o3 o4 table heads subs = merge_inclusive mt fuel q1 q2 q3 q4 table heads subs.
  Proof using All.
    intros Hf P1 P2 P3 P4 Q1 Q2 Q3 Q4.
    assert (Hold : forall i s, zget subs i = Some s -> s_sink s <> (-1)%Z -> s_death s <> (-1)%Z). { intros i s Hi Hs Hd. apply Hs. rewrite Forall_forall in HT. pose proof (zget_some _ _ _ Hi). rewrite zget_nat in Hi by lia. destruct (HT s (nth_error_In _ _ Hi)) as (A & _). auto. }
    assert (Hlive : forall i s, zget subs i = Some s -> 1 < s_nbound s -> s_death s = (-1)%Z /\ s_parts s <> []). { intros i s Hi Hb. rewrite Forall_forall in HT. pose proof (zget_some _ _ _ Hi). rewrite zget_nat in Hi by lia. destruct (HT s (nth_error_In _ _ Hi)) as (_ & A & B). split; [auto|]. destruct (s_parts s); [cbn in B; lia|discriminate]. }
    assert (Htot : forall o1 o2 o3 o4, Permutation o1 (seq 0 (length subs)) -> Permutation o2 (seq 0 (length subs)) -> Permutation o3 (seq 0 nh) -> Permutation o4 (seq 0 (length subs)) -> exists x, merge_inclusive mt fuel o1 o2 o3 o4 table heads subs = Done x).
    { intros p1 p2 p3 p4 A1 A2 A3 A4.
      destruct (merge_alone unbind _ (truncate allowed) (fun s => unbind_total s) near pmass snap) with (moved := moved) (nh := nh) (table := table) (subs := subs) (ts := tn) (heads := heads) (merge_trapped := mt) (fuel := fuel) (o1 := p1) (o2 := p2) (o3 := p3) (o4 := p4) as (marked & out & EQ & _); try assumption; try reflexivity; [|intros l s u; apply unbinding_nest|eauto].
      intros s u. apply nest_kept. }
    destruct (Htot o1 o2 o3 o4 P1 P2 P3 P4) as (x & Ex). destruct (Htot q1 q2 q3 q4 Q1 Q2 Q3 Q4) as (y & Ey). clear Htot.
    rewrite Ex, Ey. f_equal. unfold Variants.merge_inclusive in Ex, Ey. destruct (glue (tl table) heads subs) as [[g sizes]|] eqn:Eg; [|discriminate].
    destruct (g_all _ _ _ _ _ _ HN Hh g sizes Eg) as (HL & _ & _ & _ & Hget & _).
    assert (Par := g_par _ _ _ _ _ _ HN Hh Hr g sizes Eg). assert (Ex0 := g_ex _ _ _ _ _ _ HN Hh Hr g sizes Eg). assert (Dep := g_dep _ _ _ _ _ _ HN Hh Hr g sizes Eg).
    rewrite (detect_same near snap g Par Ex0 Dep fuel q1 q2 o1 o2) in Ey by (rewrite HL; assumption).
    destruct (detect_ok near snap g Par Ex0 Dep fuel o1 o2) as (a & mg & Ed & HLa & HLm & Ha & Hm); [rewrite HL; assumption..|].
    rewrite Ed in Ex, Ey. cbn [rbind fst snd] in Ex, Ey. destruct mt; [|congruence].
    apply rbind_ends in Ex as (l1 & E1 & Eu1). apply rbind_ends in Ey as (l2 & E2 & Eu2). apply rbind_ends in E1 as (m1 & E1 & E1'). apply rbind_ends in E2 as (m2 & E2 & E2').
    assert (Hnests : forall i l, local_nest g i l -> local_nest a i l).
    { intros i l (s & Hs & El). pose proof (zget_some _ _ _ Hs). unfold local_nest. rewrite zget_nat in * by lia. destruct (Ha _ _ Hs) as (u & Hu & Hd). exists u. split; [exact Hu|]. unfold detected in Hd. destruct (s_sink s =? -1)%Z; [destruct Hd as [(k & _ & ->)|[_ ->]]|rewrite Hd]; exact El. }
    assert (HLs : forall o, Permutation o (seq 0 nh) -> exists L, NoDup L /\ (forall i, In i L <-> exists h gr, In h o /\ nth_error table (S h) = Some gr /\ In i (zs gr)) /\
      run_each o (fun h l => match nth_error (tl table) h with None => Crash | Some [] => Done l | Some (c :: _) => merge_rec_inclusive pmass snap fuel (Z.of_nat c) l end) a = run_each L (merge_at_inclusive pmass snap) a).
    { intros o Po. destruct (merge_halos_by _ _ _ _ _ _ HN Hh Hr _ _ Eg snap (merge_at_inclusive pmass snap) (merge_rec_inclusive pmass snap) fuel o) as (L & HndL & HinL & _ & Hrun); [apply at_list_nests|intros; apply at_tree; assumption|lia|eapply Permutation_NoDup; [symmetry; exact Po|apply seq_NoDup]|intros h Hhh; apply (Permutation_in _ Po), in_seq in Hhh; lia|].
      exists L. split; [exact HndL|]. split; [exact HinL|]. apply Hrun. exact Hnests. }
    destruct (HLs o3 P3) as (L1 & N1 & I1 & R1). destruct (HLs q3 Q3) as (L2 & N2 & I2 & R2). rewrite R1 in E1. rewrite R2 in E2.
    assert (PL : Permutation L1 L2).
    { apply NoDup_Permutation; [exact N1|exact N2|]. intros i. rewrite I1, I2. split; intros (h & gr & A & B); exists h, gr; (split; [|exact B]).
      - apply (Permutation_in _ (Permutation_sym Q3)), (Permutation_in _ P3). exact A.
      - apply (Permutation_in _ (Permutation_sym P3)), (Permutation_in _ Q3). exact A. }
    assert (m1 = m2).
    { destruct (merge_turns _ _ _ E1) as [G1 F1]. destruct (merge_turns _ _ _ E2) as [_ F2]. eapply own_same; [| |exact F1|exact F2]; [|apply Permutation_map; exact PL].
      clear -N1 G1. induction N1 as [|i L Hi N IH]; cbn; constructor; [|apply IH; intros; apply G1; right; assumption]. intros Hc. apply Hi. apply in_map_iff in Hc as (k & Ek & Hk). assert (k = i); [|subst; exact Hk]. pose proof (G1 i (or_introl eq_refl)). pose proof (G1 k (or_intror Hk)). lia. }
    subst m2. assert (l1 = l2); [|congruence]. eapply merged_same; [| |exact E1'|exact E2']; [eapply Permutation_NoDup; [symmetry; exact P4|apply seq_NoDup]|].
    transitivity (seq 0 (length subs)); [exact P4|symmetry; exact Q4].
  Qed.
  End Merge.

  Lemma work_inclusive_same (H : Type) (before : list (list (sub X R))) (ps : list (@proc X R H)) p mt os o1 o2 o3 o4 qs q1 q2 q3 q4 :
    nest_history (H := H) before -> nest_begun before ps -> In p ps ->
    Permutation os (seq 0 (length (p_nested p))) -> Permutation o1 (seq 0 (length (p_nested p))) -> Permutation o2 (seq 0 (length (p_nested p))) -> Permutation o3 (seq 0 (length (p_halos p))) -> Permutation o4 (seq 0 (length (p_nested p))) ->
    Permutation qs (seq 0 (length (p_nested p))) -> Permutation q1 (seq 0 (length (p_nested p))) -> Permutation q2 (seq 0 (length (p_nested p))) -> Permutation q3 (seq 0 (length (p_halos p))) -> Permutation q4 (seq 0 (length (p_nested p))) ->
    work_inclusive unbind (truncate allowed) near pmass snap mt (length (p_nested p)) os o1 o2 o3 o4 (p_table p) (p_heads p) (p_nested p) =
    work_inclusive unbind (truncate allowed) near pmass snap mt (length (p_nested p)) qs q1 q2 q3 q4 (p_table p) (p_heads p) (p_nested p).
  Proof using one_sign sorter_ok shuffle_ok min_ok converged_ok allowed_ok snap_ok.
    intros HH HB Hp Hos P1 P2 P3 P4 Hqs Q1 Q2 Q3 Q4. unfold work_inclusive.
    rewrite (C86_order neg pos lt sorter shuffle energy inner no_energy rest_of pmass min_part converged max_sample refine allowed snap near one_sign sorter_ok shuffle_ok min_ok converged_ok allowed_ok snap_ok qs os (p_nested p) Hqs Hos).
    destruct (refine_alone unbind _ (truncate allowed) (fun s => unbind_total s) os (p_nested p) Hos) as (refined & -> & HR). cbn [rbind].
    assert (HS : Forall2 same_place (p_nested p) refined). { eapply Forall2_impl; [|exact HR]. intros a b (u & HU & ->). apply unbinding_place in HU. exact HU. }
    assert (HT : Forall settled refined).
    { clear HS. revert HR. generalize (p_nested p). intros l0 HR. induction HR as [|a b l m (u & HU & ->) HR IH]; [constructor|]. constructor; [|exact IH]. eapply settled_done; eassumption. }
    destruct (place_facts H before ps p HH HB Hp refined HS) as (tn & HN & Hh & Hr). assert (HL := Forall2_length_eq _ _ _ HS).
    apply (merge_inclusive_same _ _ _ _ _ _ HN Hh Hr HT); try (rewrite <- HL; assumption); try assumption. lia.
  Qed.
End Config.
