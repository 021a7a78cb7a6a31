(** Runs with other schedules of the threads: C91. *)
From Coq Require Import List ZArith QArith Bool Lia Sorting.Sorted Sorting.Permutation.
From Verif.Model Require Import Run ListMem Mpi Hash Subhalo Tracks Nest UpdateTracks Catalogue Unbind Program.
From Verif.Spec Require Import Members Nesting NestHistory Query Unbinding Catalogue Masking Program Ownership Schedule.
From Verif.Proofs Require Import MpiProofs HashProofs CatalogueProofs RestartProofs RefineProofs OwnProofs ScheduleStages ScheduleRun ProgramLoop.
From Verif.Props Require Import PropsApostle PropsMembers PropsNest PropsProgram PropsOwnership PropsInclusiveRun.
Import ListNotations.
Local Open Scope nat_scope.

(** C91: on valid input, a run of any number of snapshots on any number of processes, of any build, ends with the same files
    and the same catalogue, whatever the order in which the threads treat the elements of the parallel loops, as long as the
    centrals are fed in the same order. *)
Theorem C91_run : forall (X R S E : Type) (g : setup X R S E) sch keys (W n : nat) (d : disk X R),
  sane g -> only_order g sch keys -> let start := g_min_snapshot g in valid_input g W n start ->
  hbt (reschedule g sch keys) W n start d = hbt g W n start d.
Proof. intros X R S E g sch keys W n d HG HO start HV. apply hbt_same; [exact HG|exact HO|exact (vi_procs _ _ _ _ HV)|exact HV]. Qed.
Print Assumptions C91_run.

(** C91: after every history, the nests made by LevelUpDetachedSubhalos and its companions. *)
Theorem C91_nest : forall (X R H : Type) (before : list (list (sub X R))) (ps : list (@proc X R H)) p o1 o2,
  nest_history (H := H) before -> nest_begun before ps -> In p ps ->
  Permutation o1 (seq 0 (length (p_local p))) -> Permutation o2 (seq 0 (length (p_local p))) ->
  nest_local (length (p_local p)) o1 (p_table p) (p_local p) = nest_local (length (p_local p)) o2 (p_table p) (p_local p).
Proof. intros X R H before ps p o1 o2 HH HB Hp H1 H2. transitivity (Done (p_nested p, p_heads p)); [|symmetry]; eapply nest_same; eassumption. Qed.
Print Assumptions C91_nest.

(** C91: after every history, the end of a snapshot (UpdateTracks). *)
Theorem C91_update : forall (X R H : Type) (before : list (list (sub X R))) (ps : list (@proc X R H)) p sort o1 o2 snap halo_ids,
  nest_history (H := H) before -> nest_begun before ps -> In p ps -> sorts_by_mass (p_reg p) sort -> length halo_ids = length (p_halos p) ->
  Permutation o1 (seq 0 (length halo_ids)) -> Permutation o2 (seq 0 (length halo_ids)) ->
  update_tracks sort (length (p_reg p)) o1 snap halo_ids (p_heads p) (p_reg p) = update_tracks sort (length (p_reg p)) o2 snap halo_ids (p_heads p) (p_reg p).
Proof. intros X R H before ps p sort o1 o2 snap ids HH HB Hp Hs HL H1 H2. exact (update_same before ps p HH HB Hp sort o1 o2 snap ids Hs HL H1 H2). Qed.
Print Assumptions C91_update.

Local Open Scope Z_scope.
Lemma see_end g n l : c62_see g n = Some l -> exists d c, hbt g 1 n 0 c61_blank = Done (tt, d, c) /\
  map (fun s => (s_track s, s_host s, s_nest s, s_mass s, s_nbound s, map fst (s_parts s), (s_sink s, s_death s))) (concat c) = l.
Proof. unfold c62_see. destruct (hbt g 1 n 0 c61_blank) as [[[[] d] c]| |]; [|discriminate..]. intros [= <-]. eauto. Qed.
(** C91: the order in which the centrals are fed does matter: the same program on the same valid input gives other tracks to
    the same groups if the threads feed the centrals in another order. *)
Theorem C91_numbering_refuted : exists (g : setup Z nat Z Z) sch keys W n d d1 d2 c1 c2,
  sane g /\ valid_input g W n (g_min_snapshot g) /\
  (forall snap k site l, Permutation (sch snap k site l) l) /\ (forall snap k l, Permutation (keys snap k l) l) /\
  hbt g W n (g_min_snapshot g) d = Done (tt, d1, c1) /\ hbt (reschedule g sch keys) W n (g_min_snapshot g) d = Done (tt, d2, c2) /\
  exists s t, In s (concat c1) /\ In t (concat c2) /\ s_track s = s_track t /\ s_host s <> s_host t /\ (forall p, In p (s_parts s) -> ~ In (fst p) (map fst (s_parts t))).
Proof.
  destruct (c90_valid false (-50)) as (HS & [A B C D] & _).
  assert (HV : valid_input (c90 false (-50)) 1 1 0) by (constructor; [exact A|exact B|intros k Hk; apply C; lia|intros k p Hk; apply D; lia]).
  destruct (see_end (c90 false (-50)) 1 [(0, 500, [], 4%Q, 4%nat, [0; 1; 2; 3], (-1, -1)); (1, 501, [], 6%Q, 5%nat, [4; 5; 6; 7; 8], (-1, -1))]) as (d1 & c1 & E1 & F1); [vm_compute; reflexivity|].
  destruct (see_end (reschedule (c90 false (-50)) (fun _ _ _ l => rev l) (fun _ _ l => l)) 1 [(0, 501, [], 6%Q, 5%nat, [4; 5; 6; 7; 8], (-1, -1)); (1, 500, [], 4%Q, 4%nat, [0; 1; 2; 3], (-1, -1))]) as (d2 & c2 & E2 & F2); [vm_compute; reflexivity|].
  exists (c90 false (-50)), (fun _ _ _ l => rev l), (fun _ _ l => l), 1%nat, 1%nat, c61_blank, d1, d2, c1, c2.
  split; [exact HS|]. split; [exact HV|]. split; [intros; symmetry; apply Permutation_rev|]. split; [reflexivity|]. split; [exact E1|]. split; [exact E2|].
  destruct (concat c1) as [|s l1]; [discriminate F1|]. destruct (concat c2) as [|t l2]; [discriminate F2|]. cbn [map] in F1, F2.
  injection F1 as H1 H2 _ _ _ H3 _ _ _. injection F2 as K1 K2 _ _ _ K3 _ _ _.
  exists s, t. split; [left; reflexivity|]. split; [left; reflexivity|]. split; [rewrite H1, K1; reflexivity|]. split; [rewrite H2, K2; discriminate|].
  intros p Hp. apply (in_map fst) in Hp. rewrite H3 in Hp. rewrite K3. cbn in *. lia.
Qed.
Print Assumptions C91_numbering_refuted.

(** C91: the thread schedule of [c61] is in reverse order everywhere; here only the centrals are fed in that order. *)
Definition c91_sch (snap : Z) (k site : nat) (l : list nat) : list nat := match site with 0%nat => rev l | _ => l end.
Example C91_witness : sane c61 /\ only_order c61 c91_sch (fun _ _ l => l) /\ valid_input c61 2 3 (g_min_snapshot c61) /\
  g_sched c61 0 0 1 [0; 1; 2]%nat <> c91_sch 0 0 1 [0; 1; 2]%nat /\
  match hbt (reschedule c61 c91_sch (fun _ _ l => l)) 2 3 0 c61_blank with
  | Done (_, _, c) => Some (map (map (fun s => (s_track s, s_birth s, s_host s, s_rank s, s_nest s, map fst (s_parts s)))) c)
  | _ => None
  end = Some [[(0, 0, -1, 0, [], [0; 1; 2; 3]); (2, 2, 520, 0, [], [8; 9; 10])]; [(1, 0, 521, 0, [], [1; 2; 3; 4; 5; 6; 7])]].
Proof.
  split; [exact c61_sane|]. split.
  - constructor; [intros snap k [|site] l; [symmetry; apply Permutation_rev|reflexivity]|reflexivity|reflexivity].
  - split; [exact c61_valid|]. split; [discriminate|]. vm_compute. reflexivity.
Qed.
(** C91: a build with inclusive masses. *)
Example C91_witness_inclusive : sane (c90 true (-50)) /\ only_order (c90 true (-50)) (fun _ _ site l => match site with 0%nat => l | _ => rev l end) (fun _ _ l => rev l) /\
  valid_input (c90 true (-50)) 1 2 (g_min_snapshot (c90 true (-50))) /\
  c62_see (reschedule (c90 true (-50)) (fun _ _ site l => match site with 0%nat => l | _ => rev l end) (fun _ _ l => rev l)) 2 =
  Some [(0, 510, [], 3%Q, 3%nat, [2; 1; 3; 0], (-1, -1)); (1, 510, [0], 4%Q, 4%nat, [8; 2; 3; 1; 5; 0; 6; 7; 4], (-1, -1))].
Proof.
  destruct (c90_valid true (-50)) as (A & B & _). split; [exact A|]. split.
  - constructor; [intros snap k [|site] l; [reflexivity|symmetry; apply Permutation_rev]|intros; symmetry; apply Permutation_rev|reflexivity].
  - split; [exact B|]. vm_compute. reflexivity.
Qed.
(** C91: the stages, in the third snapshot of the history of C27. *)
Example C91_witness_stages : nest_history (H := Q) (map p_out sim1) /\ nest_begun (map p_out sim1) sim2 /\
  map (fun p => (length (p_local p), length (p_halos p), match nest_local (length (p_local p)) (rev (seq 0 (length (p_local p)))) (p_table p) (p_local p) with Done (l, _) => map s_nest l | _ => [] end)) sim2 =
  map (fun p => (length (p_local p), length (p_halos p), map s_nest (p_nested p))) sim2 /\
  map (fun p => length (p_local p)) sim2 = [3; 2]%nat.
Proof. split; [apply sim_history|]. split; [apply sim2_run|]. split; vm_compute; reflexivity. Qed.
