(** The steps of a process do not depend on the order in which its threads treat halos and subhalos. *)
From Coq Require Import List ZArith QArith Bool Lia Sorting.Permutation.
From Verif.Model Require Import ListMem Mpi Run Hash Subhalo Tracks Nest UpdateTracks Mask Unbind Merge Work Threads.
From Verif.Spec Require Import Members Forest Nesting NestHistory Masking Unbinding Sinking Races.
From Verif.Proofs Require Import ListMemProofs MpiProofs ListExtra MemberProofs TreeProofs NestProofs NestProofs2 NestProofs3 NestProofs4 NestProofs5 LocalizeProofs HistorySteps HistorySteps2 HistoryProofs NestFinal ReportProofs GlueTree HaloWork MaskFinal UnbindProofs StripProofs RefineProofs DetectProofs MergeProofs MergeFinal WorkProofs ThreadProofs WalkProofs LoopSafety HelperLoops UpdateLoops ScheduleProofs.
From Verif.Props Require Import PropsNest PropsUnbind PropsMerge PropsThreads.
Import ListNotations.
Local Open Scope nat_scope.

Section Nesting.
  Context {X R H : Type}.
  Variables (before : list (list (sub X R))) (ps : list (@proc X R H)) (p : @proc X R H).
  Hypothesis HH : nest_history (H := H) before.
  Hypothesis HB : nest_begun before ps.
  Hypothesis Hp : In p ps.

  Lemma nest_same order : Permutation order (seq 0 (length (p_local p))) -> nest_local (length (p_local p)) order (p_table p) (p_local p) = Done (p_nested p, p_heads p).
  Proof using HH HB Hp.
    intros Ho. assert (Hk := Hp). apply In_nth_error in Hk as [k Hk]. destruct (begun_spec before ps (history_ok _ HH) HB) as [H1 _]. destruct (H1 k p Hk) as ((tr & Hforest & Hroots) & _).
    destruct (nest_total_length before ps HH (proj1 HB)) as (locals & El & Htot). destruct HB as (_ & El' & Hnest & _). rewrite El in El'. injection El' as ->. rewrite Forall_forall in Hnest. destruct (Hnest p Hp) as (order0 & Hord & En).
    destruct (Htot k p (p_local p) order Hk (map_nth_error _ _ _ Hk) Ho) as (subs & heads & En' & _). rewrite En'. unfold nest_local, level_up_all in En, En'.
    apply rbind_ends in En as (out & En & Eh). apply rbind_ends in En as (raised & Er & En). apply of_opt_ends in Er. rewrite Er in En'. cbn [of_opt rbind] in En'. apply rbind_ends in En' as (out' & En' & Eh').
    assert (Hkeep : forall l (a b : list (sub X R)), for_each l (fun i x => modify x i (set_rank 0)) a = Some b -> keeps_nests a b).
    { induction l as [|i l IH]; intros a b Ef; cbn in Ef; [injection Ef as <-; apply keeps_refl|]. destruct (modify a i (set_rank 0)) as [a1|] eqn:E1; [|discriminate]. eapply keeps_trans; [|apply IH; exact Ef].
      rewrite modify_z in E1. destruct (zmodify_present _ _ _ _ E1) as [s Hs]. eapply keeps_put; [exact Hs|exact (zmodify_zupd _ _ _ _ _ Hs E1)|reflexivity]. }
    apply Hkeep in Er. destruct Hforest as [HF HP].
    assert (Hloop : forall o x, Permutation o (seq 0 (length (p_local p))) -> run_each o (fun i l => match nth_error (map (fun s => s_rank s =? 0)%Z (p_local p)) i with None => Crash | Some true => level_up (length (p_local p)) (Z.of_nat i) l | Some false => Done l end) raised = Done x ->
      safe_loop Z.eqb race (level_turns (length (p_local p)) (map (fun s => s_rank s =? 0)%Z (p_local p))) (zget raised) (zget x)).
    { intros o x Ho' Ex. eapply (level_loop raised tr); [| | | |exact Ex].
      - eapply Permutation_NoDup; [symmetry; exact HP|]. apply NoDup_map_inj; [|apply seq_NoDup]. intros i j _ _. apply Nat2Z.inj.
      - eapply Forall_impl; [|exact HF]. intros t. apply keeps_tree. exact Er.
      - intros i Hi. rewrite nth_error_map in Hi. destruct (nth_error (p_local p) i) as [s|] eqn:Es; [|discriminate]. injection Hi as Hi. apply Z.eqb_eq in Hi. rewrite <- zget_of_nat in Es. apply (Hroots _ s Es). exact Hi.
      - rewrite map_length. exact Ho'. }
    assert (out' = out) by (eapply loop_same; [exact (Hloop _ _ Ho En')|exact (Hloop _ _ Hord En)]). subst out'. congruence.
  Qed.

  Lemma update_same sort o1 o2 snap halo_ids : sorts_by_mass (p_reg p) sort -> length halo_ids = length (p_halos p) -> Permutation o1 (seq 0 (length halo_ids)) -> Permutation o2 (seq 0 (length halo_ids)) ->
    update_tracks sort (length (p_reg p)) o1 snap halo_ids (p_heads p) (p_reg p) = update_tracks sort (length (p_reg p)) o2 snap halo_ids (p_heads p) (p_reg p).
  Proof using HH HB Hp.
    intros Hsort Hids Ho1 Ho2. assert (Hk := Hp). apply In_nth_error in Hk as [k Hk].
    destruct (begun_spec before ps (history_ok _ HH) HB) as [H1 H2]. destruct (H1 k p Hk) as (_ & (tn & HN) & Hheads & _). destruct (H2 k p Hk) as (tr & HR).
    destruct HB as (_ & _ & _ & Hwork & _). rewrite Forall_forall in Hwork. rewrite Hids in Ho1, Ho2.
    destruct (HistorySteps2.ranked_facts _ _ _ _ _ _ _ _ _ _ (Hwork p Hp) HN HR Hheads Hsort) as (table & ET & HT & Huni & Hhl & Hhd).
    destruct HR as ([Hfor Hroot] & _).
    destruct (extend_nests_spec _ _ _ _ _ _ Hfor Hroot Huni HT Hhl Hhd (le_n _) o1 Ho1) as (s1 & E1 & _). destruct (extend_nests_spec _ _ _ _ _ _ Hfor Hroot Huni HT Hhl Hhd (le_n _) o2 Ho2) as (s2 & E2 & _).
    assert (s1 = s2) by (eapply loop_same; [exact (extend_loop _ _ _ _ _ _ Hfor Hroot Huni HT Hhl Hhd (le_n _) o1 s1 Ho1 E1)|exact (extend_loop _ _ _ _ _ _ Hfor Hroot Huni HT Hhl Hhd (le_n _) o2 s2 Ho2 E2)]). subst s2.
    unfold update_tracks. rewrite Hids, ET. cbn [of_opt rbind]. rewrite E1, E2. reflexivity.
  Qed.
End Nesting.

Section Config.
  Context {X R E : Type}.
  Local Notation entry := (nat * E)%type.
  Variables neg pos : E -> bool.
  Variable lt : E -> E -> bool.
  Variable sorter : sort_site -> list entry -> list entry.
  Variable shuffle : list (Z * X) -> list (Z * X).
  Variable energy : list (Z * X) * R -> nat -> list entry -> nat -> E.
  Variable inner : list (Z * X) * R -> list entry -> nat -> E.
  Variable no_energy : E.
  Variable rest_of : list (Z * X) -> nat -> R -> R.
  Variable pmass : Z * X -> Q.
  Variables (min_part : nat) (converged : nat -> nat -> bool) (max_sample : nat) (refine : bool) (allowed : nat -> nat) (snap : Z).
  Variable near : nat * list (Z * X) * R -> nat * list (Z * X) * R -> bool.
  Hypothesis one_sign : forall e, neg e = true -> pos e = false.
  Hypothesis sorter_ok : forall site l, Permutation (sorter site l) l /\ ascending lt snd (sorter site l).
  Hypothesis shuffle_ok : forall l, Permutation (shuffle l) l.
  Hypothesis min_ok : 2 <= min_part.
  Hypothesis converged_ok : forall n, converged n n = true.
  Hypothesis allowed_ok : forall n, n <= allowed n.
  Hypothesis snap_ok : (0 <= snap)%Z.
  Local Notation unbind := (unbind neg pos sorter shuffle energy inner no_energy rest_of pmass min_part converged max_sample refine snap).
  Local Notation merge_subhalos mt := (merge_subhalos near pmass snap unbind (truncate allowed) mt).
  Local Notation settled_refine := (refine_settled neg pos lt sorter shuffle energy inner no_energy rest_of pmass min_part converged max_sample refine allowed snap one_sign sorter_ok shuffle_ok min_ok converged_ok allowed_ok snap_ok).
  Local Notation settled_merge := (merge_settled neg pos lt sorter shuffle energy inner no_energy rest_of pmass min_part converged max_sample refine allowed snap near one_sign sorter_ok shuffle_ok min_ok converged_ok allowed_ok snap_ok).
  Local Notation work := (work neg pos sorter shuffle energy inner no_energy rest_of pmass min_part converged max_sample refine allowed snap near).
  Local Notation unbind_keeps := (unbind_nest neg pos lt sorter shuffle energy inner no_energy rest_of pmass min_part converged max_sample refine snap one_sign sorter_ok shuffle_ok min_ok converged_ok).

  Section Merge.
  Variables (moved : list (sub X R)) (nh : nat) (table : list (list nat)) (subs : list (sub X R)) (tn : list tree) (heads : list (list nat)).
  Hypothesis HN : nested_as moved nh table subs tn.
  Hypothesis Hh : mapM (heads_of subs) (tl table) = Some heads.
  Hypothesis Hr : Forall (fun s => (-1 <= s_host s < Z.of_nat nh)%Z) moved.
  Hypothesis HT : Forall settled subs.
  Lemma merge_same mt fuel o1 o2 o3 o4 q1 q2 q3 q4 : length subs <= fuel ->
    Permutation o1 (seq 0 (length subs)) -> Permutation o2 (seq 0 (length subs)) -> Permutation o3 (seq 0 nh) -> Permutation o4 (seq 0 (length subs)) ->
    Permutation q1 (seq 0 (length subs)) -> Permutation q2 (seq 0 (length subs)) -> Permutation q3 (seq 0 nh) -> Permutation q4 (seq 0 (length subs)) ->
    merge_subhalos mt fuel o1 o2 o3 o4 table heads subs = merge_subhalos mt fuel q1 q2 q3 q4 table heads subs.
  Proof using All.
    intros Hf P1 P2 P3 P4 Q1 Q2 Q3 Q4.
    destruct (settled_merge _ _ _ _ _ _ HN Hh Hr mt fuel o1 o2 o3 o4 HT Hf P1 P2 P3 P4) as (x & Ex & _). destruct (settled_merge _ _ _ _ _ _ HN Hh Hr mt fuel q1 q2 q3 q4 HT Hf Q1 Q2 Q3 Q4) as (y & Ey & _).
    rewrite Ex, Ey. f_equal. unfold Merge.merge_subhalos in Ex, Ey. destruct (glue (tl table) heads subs) as [[g sizes]|] eqn:Eg; [|discriminate].
    destruct (g_all _ _ _ _ _ _ HN Hh g sizes Eg) as (HL & _ & _ & _ & Hget & _).
    assert (Par := g_par _ _ _ _ _ _ HN Hh Hr g sizes Eg). assert (Ex0 := g_ex _ _ _ _ _ _ HN Hh Hr g sizes Eg). assert (Dep := g_dep _ _ _ _ _ _ HN Hh Hr g sizes Eg).
    rewrite (detect_same near snap g Par Ex0 Dep fuel q1 q2 o1 o2) in Ey by (rewrite HL; assumption).
    destruct (detect_ok near snap g Par Ex0 Dep fuel o1 o2) as (a & mg & Ed & HLa & HLm & Ha & Hm); [rewrite HL; assumption..|].
    rewrite Ed in Ex, Ey. cbn [rbind fst snd] in Ex, Ey. destruct mt; [|congruence].
    apply rbind_ends in Ex as (l1 & E1 & Eu1). apply rbind_ends in Ey as (l2 & E2 & Eu2). apply rbind_ends in E1 as (m1 & E1 & E1'). apply rbind_ends in E2 as (m2 & E2 & E2').
    assert (Hnests : forall i l, local_nest g i l -> local_nest a i l).
    { intros i l (s & Hs & El). pose proof (zget_some _ _ _ Hs). unfold local_nest. rewrite zget_nat in * by lia. destruct (Ha _ _ Hs) as (u & Hu & Hd). exists u. split; [exact Hu|]. unfold detected in Hd. destruct (s_sink s =? -1)%Z; [destruct Hd as [(k & _ & ->)|[_ ->]]|rewrite Hd]; exact El. }
    assert (Hin : forall h i s, In i (LoopSafety.region table h) -> zget a i = Some s -> trapped s && alive s = true -> In (s_sink s) (LoopSafety.region table h)).
    { intros h i s Hi Hs Ht. unfold LoopSafety.region in *. destruct (nth_error (tl table) h) as [gr|] eqn:Eh; [|destruct Hi]. apply tl_at in Eh. apply andb_true_iff in Ht as [Ht1 Ht2]. unfold trapped, alive in Ht1, Ht2. apply negb_true_iff, Z.eqb_neq in Ht1. apply Z.eqb_eq in Ht2.
      pose proof (zget_some _ _ _ Hs) as Hrg. rewrite HLa in Hrg. destruct (zget_in_range g i Hrg) as [s0 Hs0]. rewrite zget_nat in Hs, Hs0 by lia. destruct (Ha _ _ Hs0) as (u & Hu & Hd). assert (u = s) by congruence. subst u. rewrite Z2Nat.id in Hd by lia. unfold detected in Hd. destruct (Z.eqb_spec (s_sink s0) (-1)) as [Es|Es].
      - destruct Hd as [(k & (d & Hab & _) & ->)|[_ ->]]; [|contradiction]. cbn [s_sink set_sink]. eapply (above_group _ _ _ _ _ _ HN Hh Hr g sizes Eg); eauto.
      - subst s. exfalso. destruct (nth_error_in_range subs (Z.to_nat i)) as [q Hq]; [lia|]. destruct (Hget _ q Hq) as [l Hl]. rewrite Hs0 in Hl. injection Hl as ->. cbn in *. rewrite Forall_forall in HT. destruct (HT q (nth_error_In _ _ Hq)) as (A & _). auto. }
    assert (m1 = m2).
    { assert (Hsn : (snap <> -1)%Z) by lia. eapply loop_same; [exact (merge_loop _ _ _ _ _ _ HN Hh g sizes Eg a Hnests pmass snap fuel o3 m1 Hsn P3 Hin E1)|exact (merge_loop _ _ _ _ _ _ HN Hh g sizes Eg a Hnests pmass snap fuel q3 m2 Hsn Q3 Hin E2)]. }
    subst m2. assert (l1 = l2); [|congruence]. eapply merged_same; [| |exact E1'|exact E2']; [eapply Permutation_NoDup; [symmetry; exact P4|apply seq_NoDup]|].
    transitivity (seq 0 (length subs)); [exact P4|symmetry; exact Q4].
  Qed.
  End Merge.

  Lemma work_same (H : Type) (before : list (list (sub X R))) (ps : list (@proc X R H)) p mt oh oh2 os o1 o2 o3 o4 qh qh2 qs q1 q2 q3 q4 :
    nest_history (H := H) before -> nest_begun before ps -> In p ps ->
    Permutation oh (seq 0 (length (p_halos p))) -> Permutation oh2 (seq 0 (length (p_halos p))) -> Permutation os (unnested (p_table p) (p_nested p)) ->
    Permutation o1 (seq 0 (length (p_nested p))) -> Permutation o2 (seq 0 (length (p_nested p))) -> Permutation o3 (seq 0 (length (p_halos p))) -> Permutation o4 (seq 0 (length (p_nested p))) ->
    Permutation qh (seq 0 (length (p_halos p))) -> Permutation qh2 (seq 0 (length (p_halos p))) -> Permutation qs (unnested (p_table p) (p_nested p)) ->
    Permutation q1 (seq 0 (length (p_nested p))) -> Permutation q2 (seq 0 (length (p_nested p))) -> Permutation q3 (seq 0 (length (p_halos p))) -> Permutation q4 (seq 0 (length (p_nested p))) ->
    work mt (length (p_nested p)) oh oh2 os o1 o2 o3 o4 (p_table p) (p_heads p) (p_nested p) = work mt (length (p_nested p)) qh qh2 qs q1 q2 q3 q4 (p_table p) (p_heads p) (p_nested p).
  Proof using one_sign sorter_ok shuffle_ok min_ok converged_ok allowed_ok snap_ok.
    intros HH HB Hp Hoh Hoh2 Hos P1 P2 P3 P4 Hqh Hqh2 Hqs Q1 Q2 Q3 Q4.
    destruct (place_facts H before ps p HH HB Hp (p_nested p)) as (tn & HN & Hh & Hr). { clear. induction (p_nested p); constructor; [split; reflexivity|assumption]. }
    destruct (mask_halos_spec (p_moved p) (length (p_halos p)) (p_table p) (p_nested p) tn (p_heads p) HN Hh (length (p_nested p)) oh (le_n _) Hoh) as (a & Ea & La & _ & _ & Ma).
    destruct (mask_halos_spec (p_moved p) (length (p_halos p)) (p_table p) (p_nested p) tn (p_heads p) HN Hh (length (p_nested p)) qh (le_n _) Hqh) as (a' & Ea' & _).
    assert (a' = a) by (eapply loop_same; [exact (mask_loop _ _ _ _ _ _ HN Hh _ _ _ Hqh Ea')|exact (mask_loop _ _ _ _ _ _ HN Hh _ _ _ Hoh Ea)]). subst a'.
    assert (Sa := mask_place H p a Ma). destruct (place_facts H before ps p HH HB Hp a Sa) as (ta & HNa & Hha & _).
    assert (Eun : unnested (p_table p) a = unnested (p_table p) (p_nested p)) by (unfold unnested; rewrite La; reflexivity).
    destruct (settled_refine _ _ _ _ _ _ HNa Hha Hr (length (p_nested p)) oh2 os) as (b & Eb & Sb & Tb); [lia|exact Hoh2|rewrite Eun; exact Hos|].
    destruct (settled_refine _ _ _ _ _ _ HNa Hha Hr (length (p_nested p)) qh2 qs) as (b' & Eb' & _); [lia|exact Hqh2|rewrite Eun; exact Hqs|].
    unfold Work.work, work_with. unfold Unbind.refine_particles in Eb, Eb'. rewrite Ea, Ea'. cbn [rbind]. rewrite Eb, Eb'. cbn [rbind].
    assert (b' = b).
    { unfold refine_with in Eb, Eb'. apply rbind_ends in Eb as (s1 & E1 & Eb). apply rbind_ends in Eb as (u1 & F1 & Eb). apply rbind_ends in Eb' as (s2 & E2 & Eb'). apply rbind_ends in Eb' as (u2 & F2 & Eb').
      assert (s2 = s1) by (eapply loop_same; [exact (unbind_loop _ _ _ _ _ _ HNa Hha unbind _ _ _ unbind_keeps Hqh2 E2)|exact (unbind_loop _ _ _ _ _ _ HNa Hha unbind _ _ _ unbind_keeps Hoh2 E1)]). subst s2.
      assert (u1 = u2); [|congruence]. eapply unbind_same; [| |exact F1|exact F2]; [|transitivity (unnested (p_table p) (p_nested p)); [exact Hos|symmetry; exact Hqs]].
      eapply Permutation_NoDup; [symmetry; exact Hos|].
      assert (HTP : Permutation (concat (p_table p)) (seq 0 (length (p_moved p)))) by (eapply (table_perm neg pos); eassumption). unfold unnested. rewrite (Permutation_length HTP), seq_length.
      apply NoDup_app_intro; [|apply seq_NoDup|].
      - assert (HN' : NoDup (concat (p_table p))) by (eapply Permutation_NoDup; [symmetry; exact HTP|apply seq_NoDup]). destruct (p_table p) as [|g0 t]; [constructor|]. cbn in *. exact (NoDup_app_remove_r _ _ HN').
      - intros x Hx Hx'. assert (Hin : In x (seq 0 (length (p_moved p)))). { apply (Permutation_in _ HTP). destruct (p_table p) as [|g0 t]; [destruct Hx|]. cbn in *. apply in_or_app. left. exact Hx. }
        apply in_seq in Hin, Hx'. lia. }
    subst b'. assert (Sab : Forall2 same_place (p_nested p) b) by (eapply F2_trans; [apply same_place_trans|exact Sa|exact Sb]). destruct (place_facts H before ps p HH HB Hp b Sab) as (tb & HNb & Hhb & _).
    assert (Lb := Forall2_length_eq _ _ _ Sab). apply (merge_same _ _ _ _ _ _ HNb Hhb Hr Tb); try (rewrite <- Lb; assumption); try assumption. lia.
  Qed.
End Config.
