(** Property C87: the parallel loops over subhalos and halos, whatever the threads do. *)
From Coq Require Import List ZArith QArith Bool Lia Sorting.Permutation.
From Verif.Model Require Import ListMem Mpi Run Hash Subhalo Tracks Nest UpdateTracks Mask Unbind Merge Work Threads.
From Verif.Spec Require Import Members Forest Nesting NestHistory Masking Unbinding Sinking Races.
From Verif.Proofs Require Import ListMemProofs MpiProofs ListExtra MemberProofs TreeProofs NestProofs NestProofs2 LocalizeProofs HistorySteps HistorySteps2 HistoryProofs GlueTree HaloWork MaskFinal UnbindProofs StripProofs RefineProofs DetectProofs MergeProofs MergeFinal WorkProofs ThreadProofs WalkProofs LoopSafety HelperLoops.
From Verif.Props Require Import PropsNest PropsUnbind PropsMerge.
Import ListNotations.
Local Open Scope nat_scope.

Section Config.
  Context {X R E : Type}.
  Local Notation entry := (nat * E)%type.
  Variables neg pos : E -> bool.
  Variable lt : E -> E -> bool.
  Variable sorter : sort_site -> list entry -> list entry.
  Variable shuffle : list (Z * X) -> list (Z * X).
  Variable energy : list (Z * X) * R -> nat -> list entry -> nat -> E.
  Variable inner : list (Z * X) * R -> list entry -> nat -> E.
  Variable no_energy : E.
  Variable rest_of : list (Z * X) -> nat -> R -> R.
  Variable pmass : Z * X -> Q.
  Variables (min_part : nat) (converged : nat -> nat -> bool) (max_sample : nat) (refine : bool) (allowed : nat -> nat) (snap : Z).
  Variable near : nat * list (Z * X) * R -> nat * list (Z * X) * R -> bool.
  Hypothesis one_sign : forall e, neg e = true -> pos e = false.
  Hypothesis sorter_ok : forall site l, Permutation (sorter site l) l /\ ascending lt snd (sorter site l).
  Hypothesis shuffle_ok : forall l, Permutation (shuffle l) l.
  Hypothesis min_ok : 2 <= min_part.
  Hypothesis converged_ok : forall n, converged n n = true.
  Hypothesis allowed_ok : forall n, n <= allowed n.
  Hypothesis snap_ok : (0 <= snap)%Z.
  Local Notation unbind := (unbind neg pos sorter shuffle energy inner no_energy rest_of pmass min_part converged max_sample refine snap).
  Local Notation refine_particles := (refine_particles neg pos sorter shuffle energy inner no_energy rest_of pmass min_part converged max_sample refine allowed snap).
  Local Notation merge_subhalos := (merge_subhalos near pmass snap unbind (truncate allowed) true).
  Local Notation settled_refine := (refine_settled neg pos lt sorter shuffle energy inner no_energy rest_of pmass min_part converged max_sample refine allowed snap one_sign sorter_ok shuffle_ok min_ok converged_ok allowed_ok snap_ok).
  Local Notation settled_merge := (merge_settled neg pos lt sorter shuffle energy inner no_energy rest_of pmass min_part converged max_sample refine allowed snap near one_sign sorter_ok shuffle_ok min_ok converged_ok allowed_ok snap_ok).
  Local Notation total := (unbind_total neg pos lt sorter shuffle energy inner no_energy rest_of pmass min_part converged max_sample refine snap one_sign sorter_ok shuffle_ok min_ok converged_ok).

  Lemma unbind_nest (s u : sub X R) : unbind s = Done u -> s_nest u = s_nest s.
  Proof using one_sign sorter_ok shuffle_ok min_ok converged_ok.
    intros Eu. destruct (total s) as (s' & Es & HU). rewrite Eu in Es. injection Es as <-. apply unbinding_place in HU. destruct HU as [A _]. apply nesting_fields in A. destruct A as (_ & _ & A). congruence.
  Qed.

  Section Process.
  Variable H : Type.
  (** One process in any snapshot of any history. *)
  Variables (before : list (list (sub X R))) (ps : list (@proc X R H)) (p : @proc X R H).
  Hypothesis HH : nest_history (H := H) before.
  Hypothesis HB : nest_begun before ps.
  Hypothesis Hp : In p ps.
  Local Notation halos := (seq 0 (length (p_halos p))).

  (** C87, LevelUpDetachedSubhalos: after the ranks have been raised, whatever the threads do in the loop over the heads, it ends,
      nothing undefined happens, no two turns ever are about to access the same subhalo with one of them writing, and in the end the
      subhalos are those of the model, in which the turns came one after the other. *)
  Theorem C87_level : exists raised, raise_ranks (p_table p) (p_local p) = Some raised /\
    safe_loop Z.eqb race (level_turns (length (p_local p)) (map (fun s => s_rank s =? 0)%Z (p_local p))) (cells raised) (cells (p_nested p)).
  Proof using HH HB Hp.
    assert (Hk := Hp). apply In_nth_error in Hk as [k Hk]. destruct (begun_spec before ps (history_ok _ HH) HB) as [H1 _]. destruct (H1 k p Hk) as ((tr & Hforest & Hroots) & _).
    destruct HB as (_ & _ & Hnest & _). rewrite Forall_forall in Hnest. destruct (Hnest p Hp) as (order & Hord & En). unfold nest_local, level_up_all in En.
    apply rbind_ends in En as (out & En & Eh). apply rbind_ends in En as (raised & Er & En). apply of_opt_ends in Er. exists raised. split; [exact Er|].
    assert (out = p_nested p). { destruct (mapM (heads_of out) (tl (p_table p))); [|discriminate]. congruence. } subst out.
    assert (Hkeep : forall l (a b : list (sub X R)), for_each l (fun i x => modify x i (set_rank 0)) a = Some b -> keeps_nests a b).
    { induction l as [|i l IH]; intros a b Ef; cbn in Ef; [injection Ef as <-; apply keeps_refl|]. destruct (modify a i (set_rank 0)) as [a1|] eqn:E1; [|discriminate]. eapply keeps_trans; [|apply IH; exact Ef].
      rewrite modify_z in E1. destruct (zmodify_present _ _ _ _ E1) as [s Hs]. eapply keeps_put; [exact Hs|exact (zmodify_zupd _ _ _ _ _ Hs E1)|reflexivity]. }
    apply Hkeep in Er. destruct Hforest as [HF HP]. eapply (level_loop raised tr); [| | | |exact En].
    - eapply Permutation_NoDup; [symmetry; exact HP|]. apply NoDup_map_inj; [|apply seq_NoDup]. intros x y _ _. apply Nat2Z.inj.
    - eapply Forall_impl; [|exact HF]. intros t. apply keeps_tree. exact Er.
    - intros i Hi. rewrite nth_error_map in Hi. destruct (nth_error (p_local p) i) as [s|] eqn:Es; [|discriminate]. injection Hi as Hi. apply Z.eqb_eq in Hi. rewrite <- zget_of_nat in Es. apply (Hroots _ s Es). exact Hi.
    - rewrite map_length. exact Hord.
  Qed.

  (** C87, MaskSubhalos. *)
  Theorem C87_mask : exists out, mask_halos (length (p_nested p)) halos (tl (p_table p)) (p_heads p) (p_nested p) = Done out /\
    safe_loop Z.eqb race (mask_turns (length (p_nested p)) (tl (p_table p)) (p_heads p)) (cells (p_nested p)) (cells out).
  Proof using HH HB Hp.
    destruct (place_facts H before ps p HH HB Hp (p_nested p)) as (tn & HN & Hh & Hr). { clear. induction (p_nested p); constructor; [split; reflexivity|assumption]. }
    destruct (mask_halos_spec (p_moved p) (length (p_halos p)) (p_table p) (p_nested p) tn (p_heads p) HN Hh (length (p_nested p)) halos (le_n _) (Permutation_refl _)) as (a & Ea & _).
    exists a. split; [exact Ea|]. exact (mask_loop _ _ _ _ _ _ HN Hh _ _ _ (Permutation_refl _) Ea).
  Qed.

  (** C87, RefineParticles on the subhalos after any masking: the loop over the halos, then that over the subhalos which are in no
      halo or new. *)
  Section Masked.
  Variable subs0 : list (sub X R).
  Hypothesis Hmask : Forall2 (fun a b => exists kept, b = set_parts kept a) (p_nested p) subs0.
  Theorem C87_refine : exists stripped unbound,
    refine_particles (length subs0) halos (unnested (p_table p) subs0) (p_table p) (p_heads p) subs0 = Done (map (truncate allowed) unbound) /\
    safe_loop Z.eqb race (unbind_turns unbind (length subs0) (tl (p_table p)) (p_heads p)) (cells subs0) (cells stripped) /\
    safe_loop Z.eqb race (map (own_prog unbind) (unnested (p_table p) subs0)) (cells stripped) (cells unbound).
  Proof using HH HB Hp Hmask one_sign sorter_ok shuffle_ok min_ok converged_ok allowed_ok snap_ok.
    destruct (place_facts H before ps p HH HB Hp _ (mask_place H p subs0 Hmask)) as (tn & HN & Hh & Hr).
    destruct (settled_refine _ _ _ _ _ _ HN Hh Hr (length subs0) halos (unnested (p_table p) subs0) (le_n _) (Permutation_refl _) (Permutation_refl _)) as (out & EQ & _).
    assert (EQ0 := EQ). unfold Unbind.refine_particles, refine_with in EQ. apply rbind_ends in EQ as (stripped & E1 & EQ). apply rbind_ends in EQ as (unbound & E2 & EQ). injection EQ as <-.
    exists stripped, unbound. split; [exact EQ0|]. split; [exact (unbind_loop _ _ _ _ _ _ HN Hh unbind _ _ _ unbind_nest (Permutation_refl _) E1)|]. apply own_loop; [|exact E2].
    assert (HTP : Permutation (concat (p_table p)) (seq 0 (length (p_moved p)))) by (eapply (table_perm neg pos); eassumption). unfold unnested. rewrite (Permutation_length HTP), seq_length.
    apply NoDup_app_intro; [|apply seq_NoDup|].
    - assert (HN' : NoDup (concat (p_table p))) by (eapply Permutation_NoDup; [symmetry; exact HTP|apply seq_NoDup]). destruct (p_table p) as [|g0 t]; [constructor|]. cbn in *. exact (NoDup_app_remove_r _ _ HN').
    - intros x Hx Hx'. assert (Hin : In x (seq 0 (length (p_moved p)))). { apply (Permutation_in _ HTP). destruct (p_table p) as [|g0 t]; [destruct Hx|]. cbn in *. apply in_or_app. left. exact Hx. }
      apply in_seq in Hin, Hx'. lia.
  Qed.

  (** C87, MergeSubhalos with merging, on the subhalos after RefineParticles: FillHostTrackIds; DetectTraps, where two turns may be
      about to write the same value to the same flag but nothing else ([clash]); the merging; the unbinding of those that received
      something. *)
  Section Refined.
  Variables (subs : list (sub X R)) (oh os : list nat).
  Hypothesis Hoh : Permutation oh halos.
  Hypothesis Hos : Permutation os (unnested (p_table p) subs0).
  Hypothesis Hrefine : refine_particles (length subs0) oh os (p_table p) (p_heads p) subs0 = Done subs.
  Local Notation n := (length subs).
  Theorem C87_merge : exists g sizes hosts marked flags merged unbound out,
    glue (tl (p_table p)) (p_heads p) subs = Some (g, sizes) /\
    safe_loop cell_eqb race (host_turns n) (memory g g (repeat (-1)%Z n) (repeat false n)) (memory g g hosts (repeat false n)) /\
    safe_loop cell_eqb clash (detect_turns near snap n n) (memory g g hosts (repeat false n)) (memory marked g hosts flags) /\
    safe_loop Z.eqb race (merge_turns pmass snap n (tl (p_table p))) (cells marked) (cells merged) /\
    safe_loop Z.eqb race (map (merged_prog unbind flags) (seq 0 n)) (cells merged) (cells unbound) /\
    unglue (tl (p_table p)) sizes (map (fun sm : sub X R * bool => if snd sm then truncate allowed (fst sm) else fst sm) (combine unbound flags)) = Some out /\
    merge_subhalos n (seq 0 n) (seq 0 n) halos (seq 0 n) (p_table p) (p_heads p) subs = Done out.
  Proof using All.
    destruct (place_facts H before ps p HH HB Hp _ (mask_place H p subs0 Hmask)) as (tn & HN & Hh & Hr). destruct (settled_refine _ _ _ _ _ _ HN Hh Hr (length subs0) oh os (le_n _) Hoh Hos) as (out0 & EQ & HS & HT).
    assert (out0 = subs) by congruence. subst out0. destruct (place_facts H before ps p HH HB Hp subs) as (tn' & HN' & Hh' & _); [eapply F2_trans; [apply same_place_trans|apply (mask_place H p subs0 Hmask)|exact HS]|].
    destruct (settled_merge _ _ _ _ _ _ HN' Hh' Hr true n (seq 0 n) (seq 0 n) halos (seq 0 n) HT (le_n _)) as (out & Eo & _); try apply Permutation_refl. assert (Eo0 := Eo).
    unfold Merge.merge_subhalos in Eo. destruct (glue (tl (p_table p)) (p_heads p) subs) as [[g sizes]|] eqn:Eg; [|discriminate].
    destruct (g_all _ _ _ _ _ _ HN' Hh' g sizes Eg) as (HL & _ & _ & _ & Hget & _).
    assert (Par := g_par _ _ _ _ _ _ HN' Hh' Hr g sizes Eg). assert (Ex := g_ex _ _ _ _ _ _ HN' Hh' Hr g sizes Eg). assert (Dep := g_dep _ _ _ _ _ _ HN' Hh' Hr g sizes Eg).
    destruct (fill_hosts_ok near snap g Par Ex Dep (seq 0 n)) as (hosts & Ef & HLh & Hhs); [rewrite HL; apply Permutation_refl|].
    destruct (detect_ok near snap g Par Ex Dep n (seq 0 n) (seq 0 n)) as (a & mg & Ed & HLa & HLm & Ha & Hm); [rewrite HL; try apply Permutation_refl; lia..|].
    rewrite Ed in Eo. cbn [rbind fst snd] in Eo. apply rbind_ends in Eo as (late & E1 & Eu). apply of_opt_ends in Eu. apply rbind_ends in E1 as (merged & E1 & E2). unfold unbind_merged in E2. apply rbind_ends in E2 as (unbound & E2 & E3). injection E3 as <-.
    exists g, sizes, hosts, a, mg, merged, unbound, out. split; [reflexivity|]. split; [rewrite <- HL; apply (host_loop g Par Ex Dep); assumption|].
    split; [rewrite <- HL; apply (trap_loop near snap g Par Ex Dep); try assumption; lia|]. split; [|split; [apply merged_loop; [apply seq_NoDup|exact E2]|split; [exact Eu|exact Eo0]]].
    assert (Hnests : forall i l, local_nest g i l -> local_nest a i l).
    { intros i l (s & Hs & El). pose proof (zget_some _ _ _ Hs). unfold local_nest. rewrite zget_nat in * by lia. destruct (Ha _ _ Hs) as (u & Hu & Hd). exists u. split; [exact Hu|]. unfold detected in Hd. destruct (s_sink s =? -1)%Z; [destruct Hd as [(k & _ & ->)|[_ ->]]|rewrite Hd]; exact El. }
    eapply (merge_loop _ _ _ _ _ _ HN' Hh' g sizes Eg a Hnests); [|apply Permutation_refl| |exact E1]; [lia|].
    intros h i s Hi Hs Ht. unfold region in *. destruct (nth_error (tl (p_table p)) h) as [gr|] eqn:Eh; [|destruct Hi]. apply tl_at in Eh. apply andb_true_iff in Ht as [Ht1 Ht2]. unfold trapped, alive in Ht1, Ht2. apply negb_true_iff, Z.eqb_neq in Ht1. apply Z.eqb_eq in Ht2.
    pose proof (zget_some _ _ _ Hs) as Hrg. rewrite HLa in Hrg. destruct (zget_in_range g i Hrg) as [s0 Hs0]. rewrite zget_nat in Hs, Hs0 by lia. destruct (Ha _ _ Hs0) as (u & Hu & Hd). assert (u = s) by congruence. subst u. rewrite Z2Nat.id in Hd by lia. unfold detected in Hd. destruct (Z.eqb_spec (s_sink s0) (-1)) as [Es|Es].
    - destruct Hd as [(k & (d & Hab & _) & ->)|[_ ->]]; [|contradiction]. cbn [s_sink set_sink]. eapply (above_group _ _ _ _ _ _ HN' Hh' Hr g sizes Eg); eauto.
    - subst s. exfalso. destruct (nth_error_in_range subs (Z.to_nat i)) as [q Hq]; [lia|]. destruct (Hget _ q Hq) as [l Hl]. rewrite Hs0 in Hl. injection Hl as ->. cbn in *. rewrite Forall_forall in HT. destruct (HT q (nth_error_In _ _ Hq)) as (A & _). auto.
  Qed.
  End Refined.
  End Masked.
  End Process.
End Config.
Print Assumptions C87_level.
Print Assumptions C87_mask.
Print Assumptions C87_refine.
Print Assumptions C87_merge.

(** Threads that do what a schedule says. *)
Section Schedule.
  Context {L V : Type}.
  Variable same : L -> L -> bool.
  Fixpoint exec_at (sched : list nat) (c : list (@prog L V unit) * store) : option (list (@prog L V unit) * store) :=
    match sched with
    | [] => Some c
    | t :: r => match nth_error (fst c) t with
                | Some p => match step1 same p (snd c) with
                            | Some (p', s') => match upd (fst c) t p' with Some ps' => exec_at r (ps', s') | None => None end
                            | None => None
                            end
                | None => None
                end
    end.
  Lemma steps_front n (a b c : list (@prog L V unit) * store) : step same a b -> steps same n b c -> steps same (S n) a c.
  Proof. intros H1 H2. induction H2 as [b|n b d e H2 IH H3]; [econstructor; [constructor|exact H1]|]. econstructor; [apply IH; exact H1|exact H3]. Qed.
  Lemma exec_steps sched : forall c c', exec_at sched c = Some c' -> steps same (length sched) c c'.
  Proof.
    induction sched as [|t r IH]; intros [ps s] c' E; cbn in E; [injection E as <-; constructor|]. destruct (nth_error ps t) as [p|] eqn:Ep; [|discriminate]. destruct (step1 same p s) as [[p' s']|] eqn:Es; [|discriminate].
    destruct (upd ps t p') as [ps'|] eqn:Eu; [|discriminate]. eapply steps_front; [econstructor; eauto|]. apply IH. exact E.
  Qed.
  Definition next (p : @prog L V unit) : option (L * option V) := match p with Get l _ => Some (l, None) | Put l v _ => Some (l, Some v) | _ => None end.
  Lemma next_about p l a : next p = Some (l, a) -> about p l a.
  Proof. destruct p; cbn; intros H; try discriminate; injection H as <- <-; constructor. Qed.
End Schedule.

(** Process 0 of the second snapshot has two halos; the threads of the masking take turns.  [C87_mask] holds of it, and the memory
    is in fact what the model gives. *)
Definition idle : @proc Z nat Q := @mkproc Z nat Q [] [] [] [] [] [] [] [] [] [] [] [].
Example C87_witness : nest_history (H := Q) (map p_out sim0) /\ nest_begun (map p_out sim0) sim1 /\
  (let p := nth 0 sim1 idle in
   match exec_at Z.eqb [1; 0; 0; 1; 0; 1; 0; 0; 1; 0; 0; 1; 0; 0; 0; 0; 0; 1; 0; 1] (mask_turns 4 (tl (p_table p)) (p_heads p), cells (p_nested p)), mask_halos 4 [0; 1] (tl (p_table p)) (p_heads p) (p_nested p) with
   | Some (ps, s), Done out => (tl (p_table p), map next ps, map s [0; 1; 2; 3]%Z) = ([[0; 1; 3]; [2]], [None; None], map (zget out) [0; 1; 2; 3]%Z)
   | _, _ => False
   end).
Proof. split; [apply nest_step with (before := repeat [] 2); [exact (nest_start 2)|exact sim0_run]|]. split; [apply sim1_run|vm_compute; reflexivity]. Qed.
Example C87_level_witness : nest_history (H := Q) (map p_out sim1) /\ nest_begun (map p_out sim1) sim2 /\
  length (level_turns (X := Z) (R := nat) 3 (map (fun s => s_rank s =? 0)%Z (p_local (nth 0 sim2 idle)))) = 3.
Proof. split; [apply sim_history|]. split; [apply sim2_run|]. vm_compute. reflexivity. Qed.

(** C87 is not all that one could wish: in DetectTraps two threads may write the flag of a subhalo at the same time (the same value,
    [true]).  Process 0 of the third snapshot, as in C39, where both subhalos sink into the central. *)
Definition near_2 (a b : nat * list (Z * Z) * nat) : bool := fst (fst b) =? 22.
Theorem C87_flag_refuted : exists (before : list (list (sub Z nat))) ps (p : @proc Z nat Q) subs g sizes hosts n turns s,
  nest_history (H := Q) before /\ nest_begun before ps /\ In p ps /\ refined_1 p = subs /\
  glue (tl (p_table p)) (p_heads p) subs = Some (g, sizes) /\ fill_hosts [0; 1; 2] g = Some hosts /\
  steps cell_eqb n (detect_turns near_2 2 3 3, memory g g hosts (repeat false 3)) (turns, s) /\ race turns.
Proof.
  assert (Hin : In (nth 0 sim2 idle) sim2) by (apply nth_In; apply Nat.ltb_lt; vm_compute; reflexivity). revert Hin. generalize (eq_refl (nth 0 sim2 idle)). generalize (nth 0 sim2 idle) at 2 3. intros p Ep Hin.
  destruct (glue (tl (p_table p)) (p_heads p) (refined_1 p)) as [[g sizes]|] eqn:Eg; [|exfalso; subst p; vm_compute in Eg; discriminate Eg].
  destruct (fill_hosts [0; 1; 2] g) as [hosts|] eqn:Eh; [|exfalso; subst p; vm_compute in Eg; injection Eg as <- <-; vm_compute in Eh; discriminate Eh].
  assert (Hn : option_map (fun c => firstn 2 (map next (fst c))) (exec_at cell_eqb (repeat 0 8 ++ repeat 1 12) (detect_turns near_2 2 3 3, memory g g hosts (repeat false 3))) = Some [Some (CMerged 2, Some (VBool true)); Some (CMerged 2, Some (VBool true))]).
  { subst p. vm_compute in Eg. injection Eg as <- <-. vm_compute in Eh. injection Eh as <-. vm_compute. reflexivity. }
  destruct (exec_at cell_eqb _ _) as [[turns s]|] eqn:Ee; [|discriminate Hn]. apply exec_steps in Ee.
  exists (map p_out sim1), sim2, p, (refined_1 p), g, sizes, hosts. eexists. exists turns, s.
  split; [apply sim_history|]. split; [apply sim2_run|]. split; [exact Hin|]. split; [reflexivity|]. split; [exact Eg|]. split; [exact Eh|]. split; [exact Ee|].
  clear - Hn. cbn [option_map fst] in Hn. destruct turns as [|t0 [|t1 r]]; [discriminate Hn|discriminate Hn|]. cbn [map firstn] in Hn. injection Hn as E0 E1.
  exists (CMerged 2), (Some (VBool true)), (Some (VBool true)). split; [|left; discriminate]. exists 0, 1, t0, t1. split; [discriminate|]. split; [reflexivity|]. split; [reflexivity|]. split; apply next_about; assumption.
Qed.
Print Assumptions C87_flag_refuted.
