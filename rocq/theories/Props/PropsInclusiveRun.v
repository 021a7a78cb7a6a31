(** Whole runs of builds with INCLUSIVE_MASS: C90. *)
From Coq Require Import List ZArith QArith Bool Lia Sorting.Sorted Sorting.Permutation.
From Verif.Model Require Import Run ListMem Mpi Hash Subhalo Tracks Nest UpdateTracks UpdateInclusive Catalogue Unbind Program.
From Verif.Spec Require Import Members Nesting NestHistory Query Unbinding Catalogue Masking Program Ownership Leading.
From Verif.Proofs Require Import MpiProofs HashProofs CatalogueProofs RestartProofs RefineProofs OwnProofs InclusiveRun ProgramHosts ProgramSteps ProgramLoop.
From Verif.Props Require Import PropsApostle PropsMembers PropsNest PropsProgram PropsOwnership.
Import ListNotations.
Local Open Scope nat_scope.

(** C90: after every history, the end of the snapshot is that of the usual build but for the order of the particles of each
    subhalo and its position and velocity; these are those of its first particle, or neither changes; and the first particle
    is as stated below. *)
Theorem C90_update : forall (X R H : Type) (promoted : Z * X -> R -> R) (before : list (list (sub X R))) (ps : list (@proc X R H)) p sort order porder snap halo_ids ranked out,
  nest_history (H := H) before -> nest_begun before ps -> In p ps -> sorts_by_mass (p_reg p) sort -> length halo_ids = length (p_halos p) ->
  Permutation order (seq 0 (length halo_ids)) -> Permutation porder (seq 0 (1 + length halo_ids)) ->
  update_tracks sort (length (p_reg p)) order snap halo_ids (p_heads p) (p_reg p) = Done (ranked, out) ->
  exists ranked' out', update_tracks_inclusive promoted sort (length (p_reg p)) order porder snap halo_ids (p_heads p) (p_reg p) = Done (ranked', out') /\
    Forall2 (repurged promoted) out out' /\ (NoDup halo_ids -> led out').
Proof. intros X R H promoted before ps p sort order porder snap ids ranked out HH HB Hp Hs HL Ho Ho' EU. exact (update_inclusive promoted before ps p HH HB Hp sort order porder snap ids ranked out Hs HL Ho Ho' EU). Qed.
Print Assumptions C90_update.

(** C90: in builds with INCLUSIVE_MASS, on valid input whose groups are tidy, at the end of a run of any number of snapshots
    on any number of processes, no particle is listed twice in a subhalo, and the first particle of every resolved subhalo
    is in no smaller resolved subhalo of its host, unless all its particles are. *)
Theorem C90_inclusive_runs : forall (X R S E : Type) (g : setup X R S E) (W n : nat) (d0 : disk X R),
  sane g -> g_inclusive g = true -> let start := g_min_snapshot g in valid_input g W (Datatypes.S n) start ->
  (forall snap, (start <= snap < start + Z.of_nat (Datatypes.S n))%Z -> tidy_groups g snap) ->
  exists d cat, hbt g W (Datatypes.S n) start d0 = Done (tt, d, cat) /\
    led (concat cat) /\ (forall s, In s (concat cat) -> NoDup (part_ids s)).
Proof.
  intros X R S E g W n d0 Hg HI start [V1 V2 V3 V4] T1.
  assert (E0 : concat (repeat (@nil (sub X R)) W) = []) by (clear; induction W; [reflexivity|assumption]).
  destruct (loop_ok g Hg W V1 (Datatypes.S n) start (repeat [] W) V2 (state_empty W _) V3) as (cs & raw & L1 & _ & L2 & _ & L4).
  - intros _ s p Hs. rewrite E0 in Hs. destruct Hs.
  - exact V4.
  - destruct (L1 d0) as (d & D1 & _). exists d, (cs (Datatypes.S n)). split.
    { unfold hbt, program, load. fold start. replace (Z.ltb (start - 1) start) with true by (symmetry; apply Z.ltb_lt; lia). exact D1. }
    assert (G : forall k, k < Datatypes.S n -> led (concat (cs (Datatypes.S k))) /\ forall s, In s (concat (cs (Datatypes.S k))) -> NoDup (part_ids s)).
    { induction k as [|k IH]; intros Hk; destruct (L4 _ Hk) as (_ & _ & _ & _ & HC); (destruct (HC HI) as [HL HN]; [apply T1; lia|]); (split; [exact HL|]); apply HN.
      - intros s Hs. rewrite L2, E0 in Hs. destruct Hs.
      - apply IH. lia. }
    apply (G n). lia.
Qed.
Print Assumptions C90_inclusive_runs.

Local Open Scope Z_scope.
(** Snapshot 2 of the run of C28: track 2 has the particles of the smaller subhalos; the most bound particle becomes 16. *)
Example C90_update_witness : nest_history (H := Q) (map p_out sim1) /\ nest_begun (map p_out sim1) sim2 /\
  option_map (fun p => (map (fun s => (s_host s, s_nbound s, map fst (s_parts s), s_rest s)) (p_reg p), done [] (rbind (update_tracks_inclusive (fun p _ => Z.to_nat (fst p)) (mass_sort (p_reg p)) (length (p_reg p)) [0%nat] [1; 0]%nat 3 [100] (p_heads p) (p_reg p)) (fun o => Done (map (fun s => (s_track s, s_host s, s_rank s, map fst (s_parts s), s_rest s)) (snd o)))))) (nth_error sim2 0) =
  Some ([(0, 6%nat, [10; 11; 12; 13; 14; 15], 0%nat); (0, 3%nat, [20; 21; 22], 0%nat); (0, 28%nat, [30; 11; 12; 13; 14; 15; 16; 17; 18; 19; 20; 21; 22; 23; 24; 25; 26; 27; 28; 29; 10; 31; 32; 33; 34; 35; 36; 37], 0%nat)],
    [(0, 100, 1, [11; 10; 12; 13; 14; 15], 11%nat); (1, 100, 2, [21; 20; 22], 21%nat); (2, 100, 0, [16; 11; 12; 13; 14; 15; 30; 17; 18; 19; 20; 21; 22; 23; 24; 25; 26; 27; 28; 29; 10; 31; 32; 33; 34; 35; 36; 37], 16%nat)]).
Proof. split; [apply sim_history|]. split; [apply sim2_run|]. vm_compute. reflexivity. Qed.
(** Groups 0..3 and 4..8, which merge in snapshot 1.  There, the subhalo of the first has the bound particles 1..3; of the
    particles of the whole group, 1..3 and [top] are bound to that of the second, which is the central one. *)
Definition c90_gr (snap : Z) : list (Z * list Z) := if snap =? 0 then [(500, [0; 1; 2; 3]); (501, [4; 5; 6; 7; 8])] else [(510, [0; 1; 2; 3; 4; 5; 6; 7; 8])].
Definition c90_mass (p : Z * Z) : Q := if fst p =? 5 then 2%Q else 1%Q.
Definition c90 (incl : bool) (top : Z) := c62_build incl true false 3
  (fun snap w _ l i => match nth_error (fst w) (fst (nth i l (0%nat, 0))) with Some p => if snap =? 0 then fst p - 100 else
     if (length (fst w) =? 4)%nat then if fst p =? 0 then 1 else fst p - 100 else if fst p =? 8 then top else if (1 <=? fst p) && (fst p <=? 3) then fst p - 100 else 1 | None => 1 end)
  (fun _ _ _ => false) c90_mass (fun _ => c62_all) c90_gr.
Lemma c90_valid incl top : sane (c90 incl top) /\ valid_input (c90 incl top) 1 2 0 /\ tidy_input (c90 incl top) 2 0.
Proof.
  split; [apply c62_sane; lia|]. destruct (c62_build_valid incl true false 3 (g_energy (c90 incl top)) (g_near (c90 incl top)) c90_mass (fun _ => c62_all) c90_gr) as [HV HT].
  - intros p _. unfold c90_mass. destruct (fst p =? 5); discriminate.
  - intros snap. unfold c90_gr. destruct (snap =? 0); reflexivity.
  - intros _ id Hid. cbn in Hid. lia.
  - split; [destruct HV as [A B C D]; constructor; [exact A|exact B|intros k Hk; apply C; lia|intros k p Hk; apply D; lia]|]. constructor; [intros snap _; apply HT|]. intros snap p _ Hp. unfold particles in *. cbn [c90 c62_build g_loaded concat] in *. rewrite app_nil_r in *. apply in_map_iff in Hp as (i & <- & Hi). rewrite map_map. exact Hi.
Qed.
(** At the end, particles 1..3 are bound to both subhalos.  With [top] of -50, the most bound particle of the central one was 1,
    which subhalo 0 has; now it is 8, which subhalo 0 has not. *)
Example C90_witness : sane (c90 true (-50)) /\ g_inclusive (c90 true (-50)) = true /\ valid_input (c90 true (-50)) 1 2 0 /\ (forall snap, 0 <= snap < 2 -> tidy_groups (c90 true (-50)) snap) /\
  map (c62_see (c90 true (-50))) [1; 2]%nat =
  [Some [(0, 500, [], 4%Q, 4%nat, [1; 0; 2; 3], (-1, -1)); (1, 501, [], 6%Q, 5%nat, [5; 4; 6; 7; 8], (-1, -1))];
   Some [(0, 510, [], 3%Q, 3%nat, [2; 1; 3; 0], (-1, -1)); (1, 510, [0], 4%Q, 4%nat, [8; 2; 3; 1; 5; 0; 6; 7; 4], (-1, -1))]].
Proof. destruct (c90_valid true (-50)) as (A & B & [C _]). split; [exact A|]. split; [reflexivity|]. split; [exact B|]. split; [exact C|]. vm_compute. reflexivity. Qed.

(** What C62 says of other builds is false of these: with [top] of -200, the bound particles of the central subhalo are 8 and
    1..3, the most bound of which, 8, is in no other subhalo; but it is exchanged with particle 5, which is not bound.  The
    catalogue then lists 5 and 1..3 as bound, and their mass is not that of the subhalo; 1..3 are bound to both subhalos. *)
Theorem C90_ownership_refuted : exists (g : setup Z nat Z Z) (n : nat) (d0 d : disk Z nat) cat s u,
  sane g /\ g_inclusive g = true /\ valid_input g 1 n (g_min_snapshot g) /\ tidy_input g n (g_min_snapshot g) /\ hbt g 1 n (g_min_snapshot g) d0 = Done (tt, d, cat) /\
  In s (concat cat) /\ In u (concat cat) /\ s_track s <> s_track u /\ s_host s = s_host u /\ s_host s <> -1 /\
  ~ (s_mass s == fold_right (fun p q => (g_pmass g p + q)%Q) 0%Q (firstn (s_nbound s) (s_parts s)))%Q /\
  (1 < s_nbound u)%nat /\ incl (bound_ids u) (bound_ids s).
Proof.
  exists (c90 true (-200)), 2%nat, c61_blank. destruct (c90_valid true (-200)) as (A & B & C). destruct (C90_inclusive_runs Z nat Z Z (c90 true (-200)) 1 1 c61_blank A eq_refl B (ti_groups _ _ _ C)) as (d & cat & Eh & _).
  assert (Es : match hbt (c90 true (-200)) 1 2 0 c61_blank with Done (_, _, c) => match concat c with [u; s] => (s_track s, s_track u, s_host s, s_host u, s_mass s, map (g_pmass (c90 true (-200))) (firstn (s_nbound s) (s_parts s)), s_nbound u, bound_ids s, bound_ids u) = (1, 0, 510, 510, 4%Q, [2; 1; 1; 1]%Q, 3%nat, [5; 1; 2; 3], [2; 1; 3]) | _ => False end | _ => False end) by (vm_compute; reflexivity).
  change (g_min_snapshot (c90 true (-200))) with 0 in *. rewrite Eh in Es. destruct (concat cat) as [|u [|s [|? ?]]] eqn:Ec; try (destruct Es; fail). injection Es as E1 E2 E3 E4 E5 E6 E7 E8 E9.
  exists d, cat, s, u. rewrite Ec, E1, E2, E3, E4, E5, E7, E8, E9.
  assert (Em : forall l, fold_right (fun p q => (g_pmass (c90 true (-200)) p + q)%Q) 0%Q l = fold_right Qplus 0%Q (map c90_mass l)) by (induction l as [|a l IH]; [reflexivity|cbn [fold_right map]; rewrite IH; reflexivity]).
  rewrite Em, E6. split; [exact A|]. split; [reflexivity|]. split; [exact B|]. split; [exact C|]. split; [exact Eh|]. repeat (split; [first [lia | reflexivity | cbn; auto; fail | discriminate]|]). intros i Hi. cbn in *. tauto.
Qed.
Print Assumptions C90_ownership_refuted.
