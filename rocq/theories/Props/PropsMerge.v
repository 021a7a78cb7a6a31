(** Properties C39, C40, C54: sinking and merging subhalos, and the whole work on a snapshot. *)
From Coq Require Import List ZArith QArith Bool Lia Sorting.Permutation.
From Verif.Model Require Import ListMem Mpi Run Hash Subhalo Tracks Nest UpdateTracks Mask Unbind Merge Work.
From Verif.Spec Require Import Members Forest Nesting NestHistory Masking Unbinding Sinking.
From Verif.Proofs Require Import ListMemProofs MpiProofs ListExtra MemberProofs NestProofs NestProofs2 LocalizeProofs HistorySteps HistorySteps2 HistoryProofs HaloWork MaskFinal UnbindProofs StripProofs RefineProofs DetectProofs MergeProofs MergeFinal WorkProofs.
From Verif.Props Require Import PropsNest PropsUnbind.
Import ListNotations.
Local Open Scope nat_scope.

Section Config.
  Context {X R E : Type}.
  Local Notation entry := (nat * E)%type.
  Variables neg pos : E -> bool.
  Variable lt : E -> E -> bool.
  Variable sorter : sort_site -> list entry -> list entry.
  Variable shuffle : list (Z * X) -> list (Z * X).
  Variable energy : list (Z * X) * R -> nat -> list entry -> nat -> E.
  Variable inner : list (Z * X) * R -> list entry -> nat -> E.
  Variable no_energy : E.
  Variable rest_of : list (Z * X) -> nat -> R -> R.
  Variable pmass : Z * X -> Q.
  Variables (min_part : nat) (converged : nat -> nat -> bool) (max_sample : nat) (refine : bool) (allowed : nat -> nat) (snap : Z).
  Variable near : nat * list (Z * X) * R -> nat * list (Z * X) * R -> bool.
  Hypothesis one_sign : forall e, neg e = true -> pos e = false.
  Hypothesis sorter_ok : forall site l, Permutation (sorter site l) l /\ ascending lt snd (sorter site l).
  Hypothesis shuffle_ok : forall l, Permutation (shuffle l) l.
  Hypothesis min_ok : 2 <= min_part.
  Hypothesis converged_ok : forall n, converged n n = true.
  Hypothesis allowed_ok : forall n, n <= allowed n.
  Hypothesis snap_ok : (0 <= snap)%Z.
  Local Notation unbind := (unbind neg pos sorter shuffle energy inner no_energy rest_of pmass min_part converged max_sample refine snap).
  Local Notation unbinding := (unbinding neg pos lt energy inner no_energy min_part converged max_sample refine snap pmass).
  Local Notation refine_particles := (refine_particles neg pos sorter shuffle energy inner no_energy rest_of pmass min_part converged max_sample refine allowed snap).
  Local Notation merge_subhalos := (merge_subhalos near pmass snap unbind (truncate allowed)).
  Local Notation work := (work neg pos sorter shuffle energy inner no_energy rest_of pmass min_part converged max_sample refine allowed snap near).
  Local Notation settled_refine := (refine_settled neg pos lt sorter shuffle energy inner no_energy rest_of pmass min_part converged max_sample refine allowed snap one_sign sorter_ok shuffle_ok min_ok converged_ok allowed_ok snap_ok).
  Local Notation settled_merge := (merge_settled neg pos lt sorter shuffle energy inner no_energy rest_of pmass min_part converged max_sample refine allowed snap near one_sign sorter_ok shuffle_ok min_ok converged_ok allowed_ok snap_ok).

  Section Process.
  Variable H : Type.
  (** One process in any snapshot of any history; the subhalos after any masking, and after RefineParticles in any order. *)
  Variables (before : list (list (sub X R))) (ps : list (@proc X R H)) (p : @proc X R H) (subs0 subs : list (sub X R)) (oh os : list nat).
  Hypothesis HH : nest_history (H := H) before.
  Hypothesis HB : nest_begun before ps.
  Hypothesis Hp : In p ps.
  Hypothesis Hmask : Forall2 (fun a b => exists kept, b = set_parts kept a) (p_nested p) subs0.
  Hypothesis Hoh : Permutation oh (seq 0 (length (p_halos p))).
  Hypothesis Hos : Permutation os (unnested (p_table p) subs0).
  Hypothesis Hrefine : refine_particles (length subs0) oh os (p_table p) (p_heads p) subs0 = Done subs.
  (** Any order in which the threads treat subhalos and halos while merging. *)
  Variables o1 o2 o3 o4 : list nat.
  Hypothesis P1 : Permutation o1 (seq 0 (length subs)).
  Hypothesis P2 : Permutation o2 (seq 0 (length subs)).
  Hypothesis P3 : Permutation o3 (seq 0 (length (p_halos p))).
  Hypothesis P4 : Permutation o4 (seq 0 (length subs)).

  Lemma place_facts (l : list (sub X R)) : Forall2 same_place (p_nested p) l -> exists tn, nested_as (p_moved p) (length (p_halos p)) (p_table p) l tn /\ mapM (heads_of l) (tl (p_table p)) = Some (p_heads p) /\
    Forall (fun s => (-1 <= s_host s < Z.of_nat (length (p_halos p)))%Z) (p_moved p).
  Proof using HH HB Hp.
    intros HS. assert (Hk := Hp). apply In_nth_error in Hk as [k Hk]. destruct (begun_spec before ps (history_ok _ HH) HB) as [H1 _].
    destruct (H1 k p Hk) as (_ & (tn & HN) & Hh & _). exists tn. split; [exact (nested_as_ext _ _ _ _ _ _ HS HN)|]. split; [rewrite (heads_same _ _ _ HS); exact Hh|].
    destruct HB as ((_ & Hf & _) & _). rewrite Forall_forall in Hf. apply (Hf p Hp).
  Qed.
  Lemma mask_place : Forall2 same_place (p_nested p) subs0.
  Proof using Hmask. eapply Forall2_impl; [|exact Hmask]. intros a b (kp & ->). split; reflexivity. Qed.
  Lemma merge_any mt : exists out, merge_subhalos mt (length subs) o1 o2 o3 o4 (p_table p) (p_heads p) subs = Done out /\
    merging_done neg pos lt energy inner no_energy pmass min_part converged max_sample refine allowed snap near (p_heads p) mt subs out.
  Proof.
    destruct (place_facts _ mask_place) as (tn & HN & Hh & Hr). destruct (settled_refine _ _ _ _ _ _ HN Hh Hr (length subs0) oh os (le_n _) Hoh Hos) as (out & EQ & HS & HT).
    assert (out = subs) by congruence. subst out. destruct (place_facts subs) as (tn' & HN' & Hh' & _); [eapply F2_trans; [apply same_place_trans|apply mask_place|exact HS]|].
    apply (settled_merge _ _ _ _ _ _ HN' Hh' Hr mt (length subs) o1 o2 o3 o4 HT (le_n _) P1 P2 P3 P4).
  Qed.

  (** C39: MergeSubhalos ends; a subhalo that was not marked is marked with the nearest subhalo above it that is resolved and
      near enough, if there is one; no other mark changes.  Without merging nothing else happens. *)
  Theorem C39_trapping : forall merge_trapped, exists marked out,
    merge_subhalos merge_trapped (length subs) o1 o2 o3 o4 (p_table p) (p_heads p) subs = Done out /\ length marked = length subs /\
    (forall i s, zget subs i = Some s -> exists u, zget marked i = Some u /\ detected snap (sinks_to near (p_heads p) subs) i s u) /\
    (if merge_trapped then after_merge pmass unbinding (truncate allowed) snap marked out else out = marked).
  Proof.
    intros mt. destruct (merge_any mt) as (out & EQ & marked & L1 & _ & HD & HM). exists marked, out. auto.
  Qed.

  (** C40: with merging, after the detection of C39 ([marked]): every alive subhalo marked as sinking, if resolved, gives its
      particles to the last subhalo of its chain of sinks, keeps its first particle and is dead; every other subhalo keeps its
      particles in front, in order, and has exactly the ids of those that join it besides its own, each once; those that
      received something are unbound again and truncated, the others are unchanged. *)
  Theorem C40_merging : exists marked out,
    merge_subhalos true (length subs) o1 o2 o3 o4 (p_table p) (p_heads p) subs = Done out /\ length out = length subs /\ length marked = length subs /\
    (forall i s, zget subs i = Some s -> exists u, zget marked i = Some u /\ detected snap (sinks_to near (p_heads p) subs) i s u) /\
    (forall i s, zget marked i = Some s -> exists u v, zget out i = Some v /\
       (sinking s -> remains pmass snap s u) /\ (~ sinking s -> gathers marked i s u) /\
       ((exists k, k <> i /\ joins marked k i) -> exists w, unbinding u w /\ v = truncate allowed w) /\ ((forall k, joins marked k i -> k = i) -> v = u)).
  Proof.
    destruct (merge_any true) as (out & EQ & marked & L1 & L2 & HD & HM). exists marked, out. split; [exact EQ|]. split; [exact L2|]. split; [exact L1|]. split; [exact HD|].
    intros i s Hs. destruct (HM i s Hs) as (u & v & Hv & [A B] & C & D). exists u, v. auto.
  Qed.

  (** C40, in the output: a resolved subhalo that sinks ends as its most bound particle, dead since this snapshot, with its
      sink; whether or not others sank into it. *)
  Theorem C40_merged_remains : forall out, merge_subhalos true (length subs) o1 o2 o3 o4 (p_table p) (p_heads p) subs = Done out ->
    forall i s k, zget subs i = Some s -> 1 < s_nbound s -> sinks_to near (p_heads p) subs i k ->
    exists x r v, s_parts s = x :: r /\ zget out i = Some v /\ s_parts v = [x] /\ s_nbound v = 1 /\ s_death v = snap /\ s_sink v = k /\ s_snapsink v = snap /\ (s_mass v == pmass x)%Q.
  Proof.
    intros out EQ i s k Hi Hb Hk. destruct (place_facts _ mask_place) as (tn & HN & Hh & Hr). destruct (settled_refine _ _ _ _ _ _ HN Hh Hr (length subs0) oh os (le_n _) Hoh Hos) as (subs' & EQ' & HS & HT).
    assert (subs' = subs) by congruence. subst subs'. destruct (place_facts subs) as (tn' & HN' & Hh' & _); [eapply F2_trans; [apply same_place_trans|apply mask_place|exact HS]|].
    assert (Hset : settled s). { rewrite Forall_forall in HT. pose proof (zget_some _ _ _ Hi). rewrite zget_nat in Hi by lia. apply HT. eapply nth_error_In; eauto. }
    destruct Hset as (A & B & C). specialize (B Hb). specialize (A B).
    destruct C40_merging as (marked & out' & EQ2 & _ & _ & HD & HM). assert (out' = out) by congruence. subst out'.
    destruct (HD i s Hi) as (m & Hm & HDm). unfold detected in HDm. rewrite A, Z.eqb_refl in HDm. destruct HDm as [(k' & Hk' & ->)|[Hno _]]; [|destruct (Hno k Hk)].
    assert (k' = k) by (eapply (sinks_unique near (p_moved p)); eassumption). subst k'.
    assert (Hk0 : (0 <= k)%Z). { destruct Hk as (d & _ & (a & b & _ & Hz & _) & _). pose proof (zget_some _ _ _ Hz). lia. }
    destruct (HM i _ Hm) as (u & v & Hv & H1 & _ & H2 & H3). assert (HR : remains pmass snap (set_sink k snap s) u) by (apply H1; split; cbn; [lia|exact B]).
    unfold remains in HR. cbn [s_nbound set_sink] in HR. rewrite (proj2 (Nat.leb_gt _ _) Hb) in HR. destruct HR as (x & r & Hx & ->). cbn [s_parts set_sink] in Hx. exists x, r, v. split; [exact Hx|]. split; [exact Hv|].
    destruct (joins_dec marked i) as [Hj|Hj]; [rewrite (H3 Hj); cbn; repeat (split; [reflexivity|]); ring|].
    destruct (H2 Hj) as (w & HU & ->). destruct HU as (HO & HPm & HL & HMs & [[F _ _ _]|[_ F1 _ F2 [F3 F4]]]); [cbn in F; lia|]. cbn in HPm, F1, F2, F3, F4.
    apply Permutation_sym, Permutation_length_1_inv in HPm. destruct (truncate_ok allowed allowed_ok w HL) as (n & -> & _ & Hn & _). cbn. rewrite (Hn ltac:(lia)), HPm, F1. cbn. rewrite HMs, F1, HPm.
    assert (Ed : (snap =? -1)%Z = false) by (apply Z.eqb_neq; lia). rewrite Ed in F2. repeat (split; [assumption || reflexivity|]). cbn. ring.
  Qed.
  End Process.

  (** C54: after every history, in every order of the threads, the work on a snapshot - masking, unbinding, merging - ends; it
      keeps tracks, ranks, nests and hosts, as the histories of C27-C30 assume; and no alive subhalo is left with a sink unless
      it sank in this snapshot. *)
  Theorem C54_work : forall (H : Type) (before : list (list (sub X R))) (ps : list (@proc X R H)) p merge_trapped oh oh2 os o1 o2 o3 o4,
    nest_history (H := H) before -> nest_begun before ps -> In p ps ->
    Permutation oh (seq 0 (length (p_halos p))) -> Permutation oh2 (seq 0 (length (p_halos p))) -> Permutation os (unnested (p_table p) (p_nested p)) ->
    Permutation o1 (seq 0 (length (p_nested p))) -> Permutation o2 (seq 0 (length (p_nested p))) -> Permutation o3 (seq 0 (length (p_halos p))) -> Permutation o4 (seq 0 (length (p_nested p))) ->
    exists out, work merge_trapped (length (p_nested p)) oh oh2 os o1 o2 o3 o4 (p_table p) (p_heads p) (p_nested p) = Done out /\
      Forall2 (fun a b => nesting_of a = nesting_of b /\ s_host a = s_host b) (p_nested p) out /\
      Forall (fun s => s_death s = (-1)%Z -> s_sink s <> (-1)%Z -> merge_trapped = false /\ s_snapsink s = snap) out /\
      Forall (fun s => 1 < s_nbound s -> s_death s = (-1)%Z) out /\ Forall (fun s => s_nbound s <= length (s_parts s)) out.
  Proof.
    intros H before ps p mt oh oh2 os o1 o2 o3 o4 HH HB Hp Hoh Hoh2 Hos P1 P2 P3 P4.
    destruct (place_facts H before ps p HH HB Hp (p_nested p)) as (tn & HN & Hh & Hr). { clear. induction (p_nested p); constructor; [split; reflexivity|assumption]. }
    destruct (mask_halos_spec (p_moved p) (length (p_halos p)) (p_table p) (p_nested p) tn (p_heads p) HN Hh (length (p_nested p)) oh (le_n _) Hoh) as (a & Ea & La & _ & _ & Ma).
    assert (Sa := mask_place H p a Ma). destruct (place_facts H before ps p HH HB Hp a Sa) as (ta & HNa & Hha & _).
    destruct (settled_refine _ _ _ _ _ _ HNa Hha Hr (length (p_nested p)) oh2 os) as (b & Eb & Sb & Tb); [lia|exact Hoh2|unfold unnested; rewrite La; exact Hos|].
    assert (Sab : Forall2 same_place (p_nested p) b) by (eapply F2_trans; [apply same_place_trans|exact Sa|exact Sb]). destruct (place_facts H before ps p HH HB Hp b Sab) as (tb & HNb & Hhb & _).
    assert (Lb := Forall2_length_eq _ _ _ Sab). destruct (settled_merge _ _ _ _ _ _ HNb Hhb Hr mt (length (p_nested p)) o1 o2 o3 o4 Tb) as (out & Eo & Mo); try (rewrite <- Lb; assumption); [lia|exact P3|].
    exists out. unfold Work.work, work_with. unfold Unbind.refine_particles in Eb. rewrite Ea. cbn [rbind]. rewrite Eb. cbn [rbind]. split; [exact Eo|]. split.
    - eapply F2_trans; [apply same_place_trans|exact Sab|]. eapply merging_place; exact Mo.
    - assert (HT : Forall (settled_after snap mt) out) by (eapply merging_settled; eassumption). split; [|split]; (eapply Forall_impl; [|exact HT]); intros v (A & B & C); assumption.
  Qed.
End Config.
Print Assumptions C39_trapping.
Print Assumptions C40_merging.
Print Assumptions C40_merged_remains.
Print Assumptions C54_work.

(** Process 0 of the third snapshot, after the masking of C31 and the unbinding of C37: the subhalos keep 4, 2 and 22 bound
    particles; the one of 2 is nested in the one of 4, which is a head below the central.  Each sinks into the next; the last
    takes all. *)
Definition near_1 (a b : nat * list (Z * Z) * nat) : bool := (fst (fst a) =? 2) && (fst (fst b) =? 4) || (fst (fst a) =? 4) && (fst (fst b) =? 22).
Definition masked_1 (p : @proc Z nat Q) : list (sub Z nat) := done [] (mask_halos 3 [0] (tl (p_table p)) (p_heads p) (p_nested p)).
Definition refined_1 (p : @proc Z nat Q) : list (sub Z nat) :=
  done [] (refine_particles z_neg z_pos e_sort (@rev (Z * Z)) thirds by_id 0%Z rest_same (fun p => inject_Z (fst p)) 2 (converged_q 1) 0 false (allowed_q 3) 2 3 [0] (unnested (p_table p) (masked_1 p)) (p_table p) (p_heads p) (masked_1 p)).
Definition merged_1 (mt : bool) (p : @proc Z nat Q) : list (sub Z nat) :=
  done [] (merge_subhalos near_1 (fun p => inject_Z (fst p)) 2 (unbind z_neg z_pos e_sort (@rev (Z * Z)) thirds by_id 0%Z rest_same (fun p => inject_Z (fst p)) 2 (converged_q 1) 0 false 2) (truncate (allowed_q 3)) mt 3 [0; 1; 2] [2; 0; 1] [0] [1; 2; 0] (p_table p) (p_heads p) (refined_1 p)).
Definition seen (s : sub Z nat) := (Z.of_nat (s_nbound s), map fst (s_parts s), s_sink s, s_snapsink s, s_death s).
Example C39_witness : nest_history (H := Q) (map p_out sim1) /\ nest_begun (map p_out sim1) sim2 /\
  option_map (fun p => (map s_nest (refined_1 p), p_heads p, map (fun s => (Z.of_nat (s_nbound s), s_sink s)) (refined_1 p), map (fun s => (Z.of_nat (s_nbound s), s_sink s, s_snapsink s)) (merged_1 false p))) (nth_error sim2 0) =
    Some ([[1]; []; []]%Z, [[2; 0]], [(4, -1); (2, -1); (22, -1)]%Z, [(4, 2, 2); (2, 0, 2); (22, -1, -1)]%Z).
Proof. split; [apply sim_history|]. split; [apply sim2_run|]. vm_compute. reflexivity. Qed.
Example C40_witness : nest_history (H := Q) (map p_out sim1) /\ nest_begun (map p_out sim1) sim2 /\
  option_map (fun p => map seen (merged_1 true p)) (nth_error sim2 0) =
    Some [(1, [10], 2, 2, 2); (1, [20], 0, 2, 2); (28, map Z.of_nat (seq 10 28), -1, -1, -1)]%Z.
Proof. split; [apply sim_history|]. split; [apply sim2_run|]. vm_compute. reflexivity. Qed.
Example C54_witness : nest_history (H := Q) (map p_out sim1) /\ nest_begun (map p_out sim1) sim2 /\
  option_map (fun p => match work z_neg z_pos e_sort (@rev (Z * Z)) thirds by_id 0%Z rest_same (fun p => inject_Z (fst p)) 2 (converged_q 1) 0 false (allowed_q 3) 2 near_1 true 3 [0] [0] (unnested (p_table p) (p_nested p)) [2; 1; 0] [0; 1; 2] [0] [1; 2; 0] (p_table p) (p_heads p) (p_nested p) with
                       | Done out => (map seen out, map nesting_of out, map nesting_of (p_nested p)) | _ => ([], [], []) end) (nth_error sim2 0) =
    Some ([(1, [10], 2, 2, 2); (1, [20], 0, 2, 2); (28, map Z.of_nat (seq 10 28), -1, -1, -1)], [(0, 0, [1]); (1, 1, []); (2, 0, [])], [(0, 0, [1]); (1, 1, []); (2, 0, [])])%Z.
Proof. split; [apply sim_history|]. split; [apply sim2_run|]. vm_compute. reflexivity. Qed.
