(** Which particles belong to which subhalo: C62. *)
From Coq Require Import List ZArith QArith Bool Lia Sorting.Sorted Sorting.Permutation.
From Verif.Model Require Import Run ListMem Mpi Hash Subhalo Catalogue Unbind Program.
From Verif.Spec Require Import Members Nesting Query Unbinding Catalogue Masking Program Ownership.
From Verif.Proofs Require Import MpiProofs HashProofs CatalogueProofs RestartProofs RefineProofs OwnProofs ProgramHosts ProgramSteps ProgramLoop.
From Verif.Props Require Import PropsApostle PropsMembers PropsNest PropsProgram.
Import ListNotations.
Local Open Scope nat_scope.

Lemma owned_run : forall (X R S E : Type) (g : setup X R S E) (W n : nat) (d0 : disk X R),
  sane g -> g_inclusive g = false -> let start := g_min_snapshot g in valid_input g W (Datatypes.S n) start -> tidy_input g (Datatypes.S n) start ->
  exists d cat, hbt g W (Datatypes.S n) start d0 = Done (tt, d, cat) /\
    Forall (owned_g g) (concat cat) /\ separate (g_merge g) (start + Z.of_nat n) (concat cat).
Proof.
  intros X R S E g W n d0 Hg HI start [V1 V2 V3 V4] [T1 T2].
  assert (E0 : concat (repeat (@nil (sub X R)) W) = []) by (clear; induction W; [reflexivity|assumption]).
  destruct (loop_ok g Hg W V1 (Datatypes.S n) start (repeat [] W) V2 (state_empty W _) V3) as (cs & raw & L1 & _ & L2 & _ & L4).
  - intros _ s p Hs. rewrite E0 in Hs. destruct Hs.
  - exact V4.
  - destruct (L1 d0) as (d & D1 & _). exists d, (cs (Datatypes.S n)). split.
    { unfold hbt, program, load. fold start. replace (Z.ltb (start - 1) start) with true by (symmetry; apply Z.ltb_lt; lia). exact D1. }
    assert (G : forall k, k < Datatypes.S n -> settled g (start + Z.of_nat k) (cs (Datatypes.S k))).
    { induction k as [|k IH]; intros Hk; destruct (L4 _ Hk) as (_ & _ & _ & HC & _); apply HC; try exact HI; try (apply T1; lia).
      - intros s Hs. rewrite L2, E0 in Hs. destruct Hs.
      - intros s Hs. destruct (IH ltac:(lia)) as [HO _]. rewrite Forall_forall in HO. destruct (HO s Hs) as [[_ O2 O3] _]. split; [exact O3|]. split; [exact O2|]. intros p Hp.
        destruct (L4 k ltac:(lia)) as (_ & HS & _). pose proof (sd_particles _ _ _ _ HS s p Hs Hp) as Hin. apply T2 in Hin; [|lia]. replace (start + Z.of_nat k + 1)%Z with (start + Z.of_nat (Datatypes.S k))%Z in Hin by lia.
        apply in_map_iff in Hin as (q & Eq & Hq). assert (HVk : valid_snapshot g W (start + Z.of_nat (Datatypes.S k))) by (apply V3; lia). rewrite <- Eq, (now_known g W _ HVk q Hq). discriminate. }
    apply (G n). lia.
Qed.

(** C62: in builds without INCLUSIVE_MASS, on valid input whose particles last and whose groups are tidy, at the end of a run of any number of snapshots on any
    number of processes: the mass of every subhalo is the mass of its bound particles, no particle is listed twice in a
    subhalo, subhalos with at most one bound particle list no others, and no particle is bound to two subhalos of a host
    with more than one bound particle each, unless one of the two has just received a merged subhalo. *)
Theorem C62_ownership : forall (X R S E : Type) (g : setup X R S E) (W n : nat) (d0 : disk X R),
  sane g -> g_inclusive g = false -> let start := g_min_snapshot g in valid_input g W (Datatypes.S n) start -> tidy_input g (Datatypes.S n) start ->
  exists d cat, hbt g W (Datatypes.S n) start d0 = Done (tt, d, cat) /\
    Forall (owned (g_pmass g)) (concat cat) /\ separate (g_merge g) (start + Z.of_nat n) (concat cat).
Proof.
  intros X R S E g W n d0 Hg HI start HV HT. destruct (owned_run X R S E g W n d0 Hg HI HV HT) as (d & cat & A & B & C). exists d, cat. split; [exact A|]. split; [|exact C]. eapply Forall_impl; [|exact B]. intros s [D _]. exact D.
Qed.
Print Assumptions C62_ownership.

(** The setup of C61 with other physics: one process with one thread; [ids] and [grps] are the particles and groups. *)
Local Open Scope Z_scope.
Definition c62_halo (g : Z * list Z) : list (Z * Z) * Z := (map (fun i => (i, 0)) (snd g), fst g).
Definition c62_build (incl strip merge : bool) (least : nat) (energy : Z -> list (Z * Z) * nat -> nat -> list (nat * Z) -> nat -> Z)
  (near : Z -> nat * list (Z * Z) * nat -> nat * list (Z * Z) * nat -> bool) (mass : Z * Z -> Q) (ids : Z -> list Z) (grps : Z -> list (Z * list Z)) : setup Z nat Z Z :=
  mksetup Z nat Z Z 3 3 false false merge false strip incl (4 # 5) (converged_q (9 # 10)) (allowed_q 3) 10 least 0 0
  (isort fst) (isort (fun p => fst (fst p))) (isort fst) (isort (fun p => Z.of_nat (snd p))) key_sort mass_sort (fun _ => isort snd)
  (fun _ _ _ l => l) (fun _ _ l => l) (fun N d => if Nat.eqb d 1 then N else 1%nat) (fun s => (0%Q, 0%Q, 0%Q)) (fun _ s => s) (fun s => s)
  (fun _ _ _ => 1%Q) (fun _ r => r) 0%nat (fun e => e <? 0) (fun e => 0 <? e) 0
  energy (fun _ _ _ i => Z.of_nat i)
  (fun _ _ _ r => r) (fun _ l => l) near mass (fun s => s_rest s) (fun p _ => Z.to_nat (fst p)) (fun _ s => s_rest s)
  (fun _ r => r) (fun s => s) (fun _ _ _ => 0) (fun snap => [map (fun id => (id, 100 * snap + id)) (ids snap)]) (fun snap => [map c62_halo (grps snap)]).
Definition c62_in := c62_build false.
Definition c62 := c62_in true.
Definition c62_see (g : setup Z nat Z Z) (n : nat) :=
  match hbt g 1 n 0 c61_blank with
  | Done (_, _, c) => Some (map (fun s => (s_track s, s_host s, s_nest s, s_mass s, s_nbound s, map fst (s_parts s), (s_sink s, s_death s))) (concat c))
  | _ => None
  end.
Lemma c62_sane incl strip merge least energy near mass ids grps : (2 <= least)%nat -> sane (c62_build incl strip merge least energy near mass ids grps).
Proof.
  intros HL. assert (HS : forall A (key : A -> Z) l, Permutation (isort key l) l /\ StronglySorted Z.le (map key (isort key l))).
  { intros A key l. destruct (isort_sorts key l) as [HP HO]. split; [exact HP|]. clear HP. induction HO as [|x m HO IH HF]; cbn; constructor; [exact IH|]. rewrite Forall_forall in *. intros y Hy. apply in_map_iff in Hy as (z & <- & Hz). apply HF. exact Hz. }
  constructor; cbn; try reflexivity; try lia; try discriminate.
  - intros l. apply (HS _ fst).
  - intros l. apply (HS _ (fun p : Z * Z * nat => fst (fst p))).
  - intros l. apply (HS _ fst).
  - intros l. destruct (HS _ (fun p : nat * nat => Z.of_nat (snd p)) l) as [HP HO]. split; [exact HP|]. revert HO. generalize (isort (fun p : nat * nat => Z.of_nat (snd p)) l). clear. intros m. induction m as [|x m IH]; cbn; intros HO; constructor.
    + apply IH. inversion HO; assumption.
    + inversion HO as [|? ? _ HF]. rewrite Forall_forall in *. intros y Hy. apply in_map_iff in Hy as (z & <- & Hz). apply Nat2Z.inj_le. apply HF. apply in_map_iff. exists z. split; [reflexivity|exact Hz].
  - intros l. apply key_sort_fill.
  - apply mass_sort_ok.
  - exists Z.ltb. intros site l. destruct (isort_sorts (@snd nat Z) l) as [HP HO]. split; [exact HP|]. unfold ascending. clear HP. induction HO as [|x m HO IH HF]; constructor; [exact IH|]. rewrite Forall_forall in *. intros y Hy. apply Z.ltb_ge. apply HF. exact Hy.
  - split; [intros N d HN _; destruct (Nat.eqb d 1); lia|reflexivity].
  - apply (converged_q_ok (9 # 10)). discriminate.
  - apply (allowed_q_ok 3). discriminate.
Qed.
Fixpoint c62_distinct (l : list Z) : bool := match l with [] => true | x :: r => negb (existsb (Z.eqb x) r) && c62_distinct r end.
Lemma c62_distinct_ok l : c62_distinct l = true -> NoDup l.
Proof.
  induction l as [|x l IH]; cbn; intros H; constructor; apply andb_prop in H as [H1 H2]; auto. intros Hin. apply negb_true_iff in H1. rewrite <- not_true_iff_false in H1. apply H1. apply existsb_exists. exists x. split; [exact Hin|apply Z.eqb_refl].
Qed.
Definition c62_check (l : list Z) (gs : list (Z * list Z)) : bool :=
  c62_distinct l && forallb (Z.leb 0) l && existsb (Z.eqb 0) l && existsb (Z.eqb 15) l && forallb (fun g => forallb (fun i => (0 <=? i) && (i <=? 15)) (snd g) && c62_distinct (snd g)) gs && c62_distinct (map fst gs).
Lemma c62_build_valid incl strip merge least energy near mass ids grps : (forall p, 0 <= fst p -> (0 <= mass p)%Q) ->
  (forall snap, c62_check (ids snap) (grps snap) = true) -> (forall snap id, In id (ids snap) -> 0 <= id <= 15) ->
  let g := c62_build incl strip merge least energy near mass ids grps in valid_input g 1 3 0 /\ forall snap, tidy_groups g snap.
Proof.
  intros Hmass Hc Hb g.
  assert (Hin : forall snap p, In p (particles g snap) -> In (fst p) (ids snap)) by (intros snap p Hp; unfold particles in Hp; cbn in Hp; rewrite app_nil_r in Hp; apply in_map_iff in Hp as (i & <- & Hi); exact Hi).
  assert (Hof : forall snap i, In i (ids snap) -> In (i, 100 * snap + i) (particles g snap)) by (intros snap i Hi; unfold particles; cbn; rewrite app_nil_r; apply in_map_iff; eauto).
  assert (Hwi : forall snap id, 0 <= id <= 15 -> within g snap id).
  { intros snap id Hid. pose proof (Hc snap) as H. unfold c62_check in H. rewrite !andb_true_iff in H. destruct H as [[[[[_ _] H0] H15] _] _]. apply existsb_exists in H0 as (a & Ha & Ea). apply existsb_exists in H15 as (b & Hb' & Eb). apply Z.eqb_eq in Ea, Eb. subst a b.
    exists (0, 100 * snap + 0), (15, 100 * snap + 15). split; [apply Hof; exact Ha|]. split; [apply Hof; exact Hb'|exact Hid]. }
  assert (Hgr : forall snap h, In h (groups g snap) -> exists gr, In gr (grps snap) /\ h = c62_halo gr) by (intros snap h Hh; unfold groups in Hh; cbn in Hh; rewrite app_nil_r in Hh; apply in_map_iff in Hh as (gr & <- & Hgr); eauto).
  assert (Egi : forall gr, map fst (fst (c62_halo gr)) = snd gr) by (intros gr; unfold c62_halo; cbn; rewrite map_map; apply map_id).
  split.
  - constructor; [lia|lia| |].
    + intros snap _. pose proof (Hc snap) as H. unfold c62_check in H. rewrite !andb_true_iff in H. destruct H as [[[[[HD HP] H0] H15] HG] HN]. constructor; try reflexivity.
      * unfold particles. cbn. rewrite app_nil_r, map_length. apply existsb_exists in H0 as (a & Ha & _). destruct (ids snap); [destruct Ha|cbn; lia].
      * unfold particles. cbn. rewrite app_nil_r, map_map. cbn. rewrite map_id. apply c62_distinct_ok. exact HD.
      * intros p Hp. apply (Hb snap). apply Hin. exact Hp.
      * intros p Hp. apply Hmass. apply (Hb snap). apply Hin. exact Hp.
      * intros h p Hh Hp. cbn. apply Hwi. destruct (Hgr snap h Hh) as (gr & Hgr' & ->). rewrite forallb_forall in HG. specialize (HG gr Hgr'). apply andb_prop in HG as [HG _]. rewrite forallb_forall in HG. apply (in_map fst) in Hp. rewrite Egi in Hp. specialize (HG _ Hp). lia.
    + intros snap p _ Hp. apply Hwi. apply (Hb snap). apply Hin. exact Hp.
  - intros snap. pose proof (Hc snap) as H. unfold c62_check in H. rewrite !andb_true_iff in H. destruct H as [[[[[HD HP] H0] H15] HG] HN]. constructor.
    + unfold groups. cbn. rewrite app_nil_r, map_map. cbn. apply c62_distinct_ok. exact HN.
    + intros h Hh. destruct (Hgr snap h Hh) as (gr & Hgr' & ->). rewrite Egi. rewrite forallb_forall in HG. specialize (HG gr Hgr'). apply andb_prop in HG as [_ HG]. apply c62_distinct_ok. exact HG.
Qed.
Definition c62_valid := c62_build_valid false.
Definition c62_all : list Z := [0; 1; 2; 3; 4; 5; 6; 7; 8; 9; 10; 11; 12; 13; 14; 15].

(** Groups 0..3, 4..8 and 9..14; the first two merge in snapshot 1, all in snapshot 2.  There, particle 3 is not bound to the
    subhalo of the first group, nor to that of the second until the first has merged into it. *)
Definition c62_mk (strip merge : bool) := c62_in strip merge 3
  (fun snap w _ _ i => match nth_error (fst w) i with Some p => if (snap =? 2) && (fst p =? 3) && (length (fst w) <? 7)%nat then 1 else fst p - 100 | None => 1 end)
  (fun snap s h => (snap =? 2) && (fst (fst s) =? 3)%nat) (fun _ => 1%Q) (fun _ => c62_all)
  (fun snap => if snap =? 0 then [(500, [0; 1; 2; 3]); (501, [4; 5; 6; 7; 8]); (502, [9; 10; 11; 12; 13; 14])]
    else if snap =? 1 then [(510, [0; 1; 2; 3; 4; 5; 6; 7; 8]); (512, [9; 10; 11; 12; 13; 14])] else [(520, [0; 1; 2; 3; 4; 5; 6; 7; 8; 9; 10; 11; 12; 13; 14])]).
Definition c62_m := c62_mk true.
Lemma c62_m_valid strip merge : sane (c62_mk strip merge) /\ valid_input (c62_mk strip merge) 1 3 0 /\ tidy_input (c62_mk strip merge) 3 0.
Proof.
  split; [apply c62_sane; lia|]. destruct (c62_valid strip merge 3 (g_energy (c62_mk strip merge)) (g_near (c62_mk strip merge)) (fun _ => 1%Q) (fun _ => c62_all) (fun snap => if snap =? 0 then [(500, [0; 1; 2; 3]); (501, [4; 5; 6; 7; 8]); (502, [9; 10; 11; 12; 13; 14])]
    else if snap =? 1 then [(510, [0; 1; 2; 3; 4; 5; 6; 7; 8]); (512, [9; 10; 11; 12; 13; 14])] else [(520, [0; 1; 2; 3; 4; 5; 6; 7; 8; 9; 10; 11; 12; 13; 14])])) as [HV HT].
  - intros. discriminate.
  - intros snap. destruct (snap =? 0), (snap =? 1); reflexivity.
  - intros _ id Hid. cbn in Hid. lia.
  - split; [exact HV|]. constructor; [intros snap _; apply HT|]. intros snap p _ Hp. unfold particles in *. cbn [c62_mk c62_in c62_build g_loaded concat] in *. rewrite app_nil_r in *. apply in_map_iff in Hp as (i & <- & Hi). rewrite map_map. exact Hi.
Qed.
Example C62_witness : sane (c62_m false) /\ valid_input (c62_m false) 1 3 0 /\ tidy_input (c62_m false) 3 0 /\ map (c62_see (c62_m false)) [2; 3]%nat =
  [Some [(0, 510, [], 4%Q, 4%nat, [0; 1; 2; 3], (-1, -1)); (1, 510, [0], 5%Q, 5%nat, [4; 5; 6; 7; 8], (-1, -1)); (2, 512, [], 6%Q, 6%nat, [9; 10; 11; 12; 13; 14], (-1, -1))];
   Some [(0, 520, [], 3%Q, 3%nat, [2; 1; 0; 3], (1, -1)); (1, 520, [0], 5%Q, 5%nat, [8; 5; 6; 7; 4; 3], (-1, -1)); (2, 520, [1], 7%Q, 7%nat, [3; 9; 10; 11; 12; 13; 14], (-1, -1))]].
Proof. destruct (c62_m_valid true false) as (A & B & C). split; [exact A|]. split; [exact B|]. split; [exact C|]. vm_compute. reflexivity. Qed.

(** C62 does not hold for subhalos that received a merged one: here particle 3 is bound to tracks 1 and 2. *)
Theorem C62_merging_refuted : exists (g : setup Z nat Z Z) (n : nat) (d0 d : disk Z nat) cat s u id,
  sane g /\ g_inclusive g = false /\ valid_input g 1 n (g_min_snapshot g) /\ tidy_input g n (g_min_snapshot g) /\ hbt g 1 n (g_min_snapshot g) d0 = Done (tt, d, cat) /\
  In s (concat cat) /\ In u (concat cat) /\ s_track s <> s_track u /\ s_host s = s_host u /\ s_host s <> -1 /\ (1 < s_nbound s)%nat /\ (1 < s_nbound u)%nat /\
  In id (bound_ids s) /\ In id (bound_ids u).
Proof.
  exists (c62_m true), 3%nat, c61_blank. destruct (c62_m_valid true true) as (A & B & C). destruct (C62_ownership Z nat Z Z (c62_m true) 1 2 c61_blank A eq_refl B C) as (d & cat & Eh & _).
  assert (Es : match hbt (c62_m true) 1 3 0 c61_blank with Done (_, _, c) => match concat c with [_; s; u] => (s_track s, s_track u, s_host s, s_host u, s_nbound s, s_nbound u, bound_ids s, bound_ids u) = (1, 2, 520, 520, 9%nat, 7%nat, [0; 1; 2; 3; 4; 5; 6; 7; 8], [3; 9; 10; 11; 12; 13; 14]) | _ => False end | _ => False end) by (vm_compute; reflexivity).
  change (g_min_snapshot (c62_m true)) with 0 in *. rewrite Eh in Es. destruct (concat cat) as [|x [|s [|u [|? ?]]]] eqn:Ec; try (destruct Es; fail). injection Es as E1 E2 E3 E4 E5 E6 E7 E8.
  exists d, cat, s, u, 3. rewrite Ec, E1, E2, E3, E4, E5, E6, E7, E8. repeat (split; [first [assumption | lia | reflexivity | cbn; auto; fail]|]). cbn; auto.
Qed.
Print Assumptions C62_merging_refuted.

(** Groups 1..4 and 5..9, which merge in snapshot 1.  There, only particles 1 and 2 of the first are bound; in snapshot 2,
    particle 1 is gone, so that the subhalo has one bound particle left and is treated as one that was not resolved. *)
Definition c62_gr (snap : Z) : list (Z * list Z) := if snap =? 0 then [(500, [1; 2; 3; 4]); (501, [5; 6; 7; 8; 9])] else [(510, [1; 2; 3; 4; 5; 6; 7; 8; 9])].
Definition c62_ids (snap : Z) : list Z := if snap =? 2 then [0; 15; 2; 3; 4; 5; 6; 7; 8; 9] else [0; 15; 1; 2; 3; 4; 5; 6; 7; 8; 9].
Definition c62_v := c62 false 2
  (fun snap w _ _ i => match nth_error (fst w) i with Some p => if ((snap =? 1) && existsb (Z.eqb (fst p)) [3; 4] || (snap =? 2) && (fst p =? 2)) && (length (fst w) <=? 4)%nat then 1 else fst p - 100 | None => 1 end)
  (fun _ _ _ => false) (fun p => inject_Z (fst p)) c62_ids c62_gr.
(** C62 does not hold when particles vanish: the central subhalo then lists particles twice, and counts their mass twice. *)
Theorem C62_vanishing_refuted : exists (g : setup Z nat Z Z) (n : nat) (d0 d : disk Z nat) cat s,
  sane g /\ g_inclusive g = false /\ valid_input g 1 n (g_min_snapshot g) /\ (forall snap, tidy_groups g snap) /\ hbt g 1 n (g_min_snapshot g) d0 = Done (tt, d, cat) /\
  In s (concat cat) /\ ~ NoDup (bound_ids s).
Proof.
  exists c62_v, 3%nat, c61_blank. assert (HG : sane c62_v) by (apply c62_sane; lia). destruct (c62_valid true false 2 (g_energy c62_v) (g_near c62_v) (fun p => inject_Z (fst p)) c62_ids c62_gr) as [HV HT].
  - intros p Hp. unfold Qle. cbn. lia.
  - intros snap. unfold c62_ids, c62_gr. destruct (snap =? 0), (snap =? 2); reflexivity.
  - intros snap id Hid. unfold c62_ids in Hid. destruct (snap =? 2); cbn in Hid; lia.
  - destruct (C61_whole_runs Z nat Z Z c62_v 1 3 c61_blank HG HV) as (cs & d & Eh & _). change (g_min_snapshot c62_v) with 0 in *.
    assert (Es : match hbt c62_v 1 3 0 c61_blank with Done (_, _, c) => match concat c with [_; s] => bound_ids s = [2; 3; 3; 4; 4; 5; 6; 7; 8; 9] | _ => False end | _ => False end) by (vm_compute; reflexivity).
    rewrite Eh in Es. destruct (concat (cs 3%nat)) as [|x [|s [|? ?]]] eqn:Ec; try (destruct Es; fail). exists d, (cs 3%nat), s. rewrite Ec, Es. split; [exact HG|]. split; [reflexivity|]. split; [exact HV|]. split; [exact HT|]. split; [exact Eh|]. split; [cbn; auto|].
    intros HN. inversion HN as [|? ? _ HN']. inversion HN' as [|? ? H3 _]. apply H3. left; reflexivity.
Qed.
Print Assumptions C62_vanishing_refuted.

(** Groups 0..3, 4..8 and 9..14; in snapshot 1 the first and the third merge, except for particle 3, which joins the second. *)
Definition c62_hg (snap : Z) : list (Z * list Z) := if snap =? 0 then [(500, [0; 1; 2; 3]); (501, [4; 5; 6; 7; 8]); (502, [9; 10; 11; 12; 13; 14])] else [(510, [0; 1; 2; 9; 10; 11; 12; 13; 14]); (511, [3; 4; 5; 6; 7; 8])].
Definition c62_h := c62 false 3 (fun _ w _ _ i => match nth_error (fst w) i with Some p => fst p - 100 | None => 1 end) (fun _ _ _ => false) (fun _ => 1%Q) (fun _ => c62_all) c62_hg.
(** A particle can be bound to subhalos of two different hosts: subhalos keep particles that are in another group. *)
Theorem C62_hosts_refuted : exists (g : setup Z nat Z Z) (n : nat) (d0 d : disk Z nat) cat s u id,
  sane g /\ g_inclusive g = false /\ valid_input g 1 n (g_min_snapshot g) /\ tidy_input g n (g_min_snapshot g) /\ g_merge g = false /\ hbt g 1 n (g_min_snapshot g) d0 = Done (tt, d, cat) /\
  In s (concat cat) /\ In u (concat cat) /\ s_track s <> s_track u /\ s_host s <> -1 /\ s_host u <> -1 /\ (1 < s_nbound s)%nat /\ (1 < s_nbound u)%nat /\
  In id (bound_ids s) /\ In id (bound_ids u).
Proof.
  exists c62_h, 3%nat, c61_blank. assert (HG : sane c62_h) by (apply c62_sane; lia). destruct (c62_valid true false 3 (g_energy c62_h) (g_near c62_h) (fun _ => 1%Q) (fun _ => c62_all) c62_hg) as [HV HT].
  - intros. discriminate.
  - intros snap. unfold c62_hg. destruct (snap =? 0); reflexivity.
  - intros _ id Hid. cbn in Hid. lia.
  - destruct (C61_whole_runs Z nat Z Z c62_h 1 3 c61_blank HG HV) as (cs & d & Eh & _). change (g_min_snapshot c62_h) with 0 in *.
    assert (Es : match hbt c62_h 1 3 0 c61_blank with Done (_, _, c) => match concat c with [s; u; _] => (s_track s, s_track u, s_host s, s_host u, s_nbound s, s_nbound u, bound_ids s, bound_ids u) = (0, 1, 510, 511, 4%nat, 6%nat, [0; 1; 2; 3], [3; 4; 5; 6; 7; 8]) | _ => False end | _ => False end) by (vm_compute; reflexivity).
    rewrite Eh in Es. destruct (concat (cs 3%nat)) as [|s [|u [|? [|? ?]]]] eqn:Ec; try (destruct Es; fail). injection Es as E1 E2 E3 E4 E5 E6 E7 E8.
    exists d, (cs 3%nat), s, u, 3. rewrite Ec, E1, E2, E3, E4, E5, E6, E7, E8. split; [exact HG|]. split; [reflexivity|]. split; [exact HV|]. split.
    { constructor; [intros snap _; apply HT|]. intros snap p _ Hp. unfold particles in *. cbn [c62_h c62 c62_in c62_build g_loaded concat] in *. rewrite app_nil_r in *. apply in_map_iff in Hp as (i & <- & Hi). rewrite map_map. exact Hi. }
    repeat (split; [first [assumption | lia | reflexivity | cbn; auto; fail]|]). cbn; auto.
Qed.
Print Assumptions C62_hosts_refuted.
