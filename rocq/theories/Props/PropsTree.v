(** C46-C49: the octrees. *)
From Coq Require Import List ZArith QArith Qfield Bool Lia Lqa Sorting.Permutation.
From Verif.Model Require Import ListMem Run Mymath Tree.
From Verif.Spec Require Import Basic Octree.
From Verif.Proofs Require Import ListMemProofs ListExtra MymathProofs2 OctProofs TreeInsert TreeBuild TreeWalk TreeFinal TreeResults.
Import ListNotations.
Local Open Scope nat_scope.

Lemma cube_some ps : ps <> [] -> exists c len, cube ps = Some (c, len).
Proof. destruct ps as [|x r]; [congruence|]. intros _. unfold cube. destruct (fold_left _ r (x, x)) as [mn mx]. eauto. Qed.
Lemma fair_follows rnd ps c h : fair rnd ps c h -> (forall i, rnd i < 8) /\ forall x, In x ps -> follows_not rnd x c h.
Proof. intros [H1 H2]. split; [exact H1|]. intros x Hx d a. apply H2. exact Hx. Qed.

(** C46: inserting all particles, with any random choices for unresolved ones, never fails, and the cells form an octree that
    holds every particle in exactly one slot. *)
Theorem C46_every_particle_once : forall (W : Type) (ps : list vec) (res : Q) (rnd : nat -> nat) (fuel : nat),
  ps <> [] -> (forall i, rnd i < 8) ->
  match build_cells (W := W) ps (res * (1 # 2))%Q rnd fuel with
  | Crash => False
  | Running => True
  | Done cells => octree (length ps) cells
  end.
Proof.
  intros W ps res rnd fuel Hne Hr. destruct (cube_some ps Hne) as (c & len & Hc). pose proof (build_built (W := W) ps res rnd Hr fuel (c, len) Hc Hne) as HB.
  destruct (build_cells ps (res * (1 # 2)) rnd fuel) as [cells| |]; auto. destruct HB as (sons & HW & HF & _ & HL & HC). apply (octree_ok ps cells sons); assumption.
Qed.
Print Assumptions C46_every_particle_once.

(** ... and both trees are finished after finitely many steps, if the resolution is positive and the random numbers do not
    follow the addresses of a particle for ever. *)
Theorem C46_terminates : forall (ps : list vec) (res : Q) (rnd : nat -> nat) (pmass : Z -> Q) (c : vec) (len : Q),
  ps <> [] -> (0 < res)%Q -> cube ps = Some (c, len) -> fair rnd ps c ((1 # 2) * len)%Q ->
  exists F, forall fuel, F <= fuel -> (exists st, grav_tree ps res rnd pmass fuel = Done st) /\ (exists st, geo_tree ps res rnd fuel = Done st).
Proof.
  intros ps res rnd pmass c len Hne Hres Hc Hf. apply fair_follows in Hf as [Hr Hf].
  destruct (build_tree_stops (W := vec * Q) ps res rnd Hr (0%Q, (0, 0, 0)%Q) (grav_part ps pmass) grav_cell grav_finish (grav_box res) c len Hres Hc Hne Hf) as (F1 & HF1).
  destruct (build_tree_stops (W := vec * Z) ps res rnd Hr 0%Z (fun _ a => (a + 1)%Z) (fun w a => (a + snd w)%Z) (fun a c => (c, a)) (geo_box res) c len Hres Hc Hne Hf) as (F2 & HF2).
  exists (F1 + F2). intros fuel Hle. split.
  - pose proof (build_tree_ok ps res rnd Hr (0%Q, (0, 0, 0)%Q) (grav_part ps pmass) grav_cell grav_finish (grav_box res) fuel (c, len) Hc Hne) as HB. specialize (HF1 fuel ltac:(lia)).
    unfold grav_tree. destruct (build_tree ps res rnd (0%Q, (0, 0, 0)%Q) (grav_part ps pmass) grav_cell grav_finish (grav_box res) fuel); [eauto|destruct HB|congruence].
  - pose proof (build_tree_ok ps res rnd Hr 0%Z (fun _ a => (a + 1)%Z) (fun (w : vec * Z) a => (a + snd w)%Z) (fun a c => (c, a)) (geo_box res) fuel (c, len) Hc Hne) as HB. specialize (HF2 fuel ltac:(lia)).
    unfold geo_tree. destruct (build_tree ps res rnd 0%Z (fun _ a => (a + 1)%Z) (fun w a => (a + snd w)%Z) (fun a c => (c, a)) (geo_box res) fuel); [eauto|destruct HB|congruence].
Qed.
Print Assumptions C46_terminates.

(** The gravity tree: building never fails; every cell has the mass and the centre of mass of the particles it holds; the walk
    that opens all cells meets every particle exactly once. *)
Theorem C46_gravity_tree : forall (ps : list vec) (res : Q) (rnd : nat -> nat) (pmass : Z -> Q) (fuel : nat),
  ps <> [] -> (forall i, rnd i < 8) -> (forall i, (0 <= i < Z.of_nat (length ps))%Z -> (0 < pmass i)%Q) ->
  match grav_tree ps res rnd pmass fuel with
  | Crash => False
  | Running => True
  | Done st => exists cells : list (cell (vec * Q)), build_cells ps (res * (1 # 2))%Q rnd fuel = Done cells /\ octree (length ps) cells /\ length (fst st) = length cells /\
      (forall c, c < length cells -> exists len centre mass sib next l,
         nth_error (fst st) c = Some (Way len (centre, mass) sib next) /\ holds (length ps) cells (Z.of_nat (length ps + c)) l /\
         (mass == total pmass l)%Q /\ centre_of_mass (position ps) pmass l centre /\ spans (position ps) l len) /\
      exists F, forall fuel', F <= fuel' -> exists l, walk (length ps) (fun _ _ => true) fuel' st (Z.of_nat (length ps)) = Done l /\ Permutation l (particles (length ps))
  end.
Proof.
  intros ps res rnd pmass fuel Hne Hr Hm. destruct (cube_some ps Hne) as (c & len & Hc).
  pose proof (build_tree_ok ps res rnd Hr (0%Q, (0, 0, 0)%Q) (grav_part ps pmass) grav_cell grav_finish (grav_box res) fuel (c, len) Hc Hne) as HB.
  unfold grav_tree. destruct (build_tree ps res rnd (0%Q, (0, 0, 0)%Q) (grav_part ps pmass) grav_cell grav_finish (grav_box res) fuel) as [st| |]; auto.
  destruct HB as (cells & sons & E & HW & HF & HFi & HL & HC & HT & L1 & L2). exists cells. split; [exact E|]. split; [apply (octree_ok ps cells sons); assumption|]. split; [exact L1|]. split.
  - intros k Hk. set (id := Z.of_nat (length ps + k)).
    assert (Hin : In id (cellids (OCell (Z.of_nat (length ps)) sons))). { apply (Permutation_in _ (Permutation_sym HC)). apply in_map_iff. exists k. split; [reflexivity|]. apply in_seq. lia. }
    destruct (within_cell (grav_box res) _ (c, len) id Hin) as (s' & b' & Hw). destruct (within_thr _ _ _ _ _ _ st _ _ _ _ Hw ltac:(discriminate) _ HT) as (next' & HT').
    rewrite thr_cell in HT'. destruct HT' as [H1 _]. pose proof (within_full _ _ _ _ _ Hw HF) as HF'. pose proof (within_rep ps cells _ _ _ _ _ Hw (proj1 HW)) as HR'.
    assert (Hm' : forall i, In i (leaves (OCell id s')) -> (0 < pmass (Z.of_nat i))%Q).
    { intros i Hi. apply Hm. apply (within_leaves _ _ _ _ _ Hw) in Hi. apply (Permutation_in _ HL), in_seq in Hi. lia. }
    pose proof (grav_pay_ok ps res pmass (OCell id s') HF' ltac:(discriminate) Hm' b') as [P1 P2].
    destruct (pay (0%Q, (0, 0, 0)%Q) (grav_part ps pmass) grav_cell grav_finish (grav_box res) (OCell id s') b') as [centre mass]. cbn [fst snd] in P1, P2.
    rewrite zget_nat in H1 by (unfold id; lia). replace (Z.to_nat (id - Z.of_nat (length ps))) with k in H1 by (unfold id; lia).
    do 5 eexists. exists (map Z.of_nat (leaves (OCell id s'))). split; [exact H1|]. split; [apply (holds_rep ps cells (OCell id s')); auto; discriminate|]. split; [exact P1|]. split; [exact P2|].
    destruct (within_grav res _ _ _ _ Hw (c, len) eq_refl) as (c' & Hw' & Hs'). rewrite <- Hs'. apply (fits_spans ps res).
    + destruct (cube_ok _ _ _ Hc) as [H0 _]. clear - Hw' H0. assert (G : forall t b t' b', within (geo_box res) t b t' b' -> (0 <= snd b)%Q -> (0 <= snd b')%Q); [|apply (G _ _ _ _ Hw' H0)].
      induction 1; [auto|]. intros Hb. apply IHwithin. apply geo_len. exact Hb.
    + apply (within_fits ps res _ _ _ _ Hw' HFi).
  - exists (visits (0%Q, (0, 0, 0)%Q) (grav_part ps pmass) grav_cell grav_finish (grav_box res) (fun _ _ => true) (OCell (Z.of_nat (length ps)) sons) (c, len)).
    intros fuel' Hf. eexists. split.
    + rewrite (root_walk ps _ _ _ _ _ (fun _ _ => true) st sons (c, len) HT HF L2). match goal with |- context [?a <? ?b] => destruct (Nat.ltb_spec a b); [lia|] end. reflexivity.
    + rewrite items_all. apply leaves_particles. exact HL.
Qed.
Print Assumptions C46_gravity_tree.

(** The geometric tree: the same with the number of particles; all particles of a cell lie in its cube. *)
Theorem C46_geometric_tree : forall (ps : list vec) (res : Q) (rnd : nat -> nat) (fuel : nat),
  ps <> [] -> (forall i, rnd i < 8) ->
  match geo_tree ps res rnd fuel with
  | Crash => False
  | Running => True
  | Done st => exists cells : list (cell (vec * Z)), build_cells ps (res * (1 # 2))%Q rnd fuel = Done cells /\ octree (length ps) cells /\ length (fst st) = length cells /\
      (forall c, c < length cells -> exists len centre count sib next l,
         nth_error (fst st) c = Some (Way len (centre, count) sib next) /\ holds (length ps) cells (Z.of_nat (length ps + c)) l /\ count = Z.of_nat (length l) /\
         forall i j, In i l -> (- (len / 2) <= coord j (position ps i) - coord j centre <= len / 2)%Q) /\
      exists F, forall fuel', F <= fuel' -> exists l, walk (length ps) (fun _ _ => true) fuel' st (Z.of_nat (length ps)) = Done l /\ Permutation l (particles (length ps))
  end.
Proof.
  intros ps res rnd fuel Hne Hr. destruct (cube_some ps Hne) as (c & len & Hc).
  pose proof (build_tree_ok ps res rnd Hr 0%Z (fun _ a => (a + 1)%Z) (fun (w : vec * Z) a => (a + snd w)%Z) (fun a c => (c, a)) (geo_box res) fuel (c, len) Hc Hne) as HB.
  unfold geo_tree. destruct (build_tree ps res rnd 0%Z (fun _ a => (a + 1)%Z) (fun w a => (a + snd w)%Z) (fun a c => (c, a)) (geo_box res) fuel) as [st| |]; auto.
  destruct HB as (cells & sons & E & HW & HF & HFi & HL & HC & HT & L1 & L2). exists cells. split; [exact E|]. split; [apply (octree_ok ps cells sons); assumption|]. split; [exact L1|]. split.
  - intros k Hk. set (id := Z.of_nat (length ps + k)).
    assert (Hin : In id (cellids (OCell (Z.of_nat (length ps)) sons))). { apply (Permutation_in _ (Permutation_sym HC)). apply in_map_iff. exists k. split; [reflexivity|]. apply in_seq. lia. }
    destruct (within_cell (geo_box res) _ (c, len) id Hin) as (s' & b' & Hw). destruct (within_thr _ _ _ _ _ _ st _ _ _ _ Hw ltac:(discriminate) _ HT) as (next' & HT').
    rewrite thr_cell in HT'. destruct HT' as [H1 _]. pose proof (within_full _ _ _ _ _ Hw HF) as HF'. pose proof (within_rep ps cells _ _ _ _ _ Hw (proj1 HW)) as HR'.
    rewrite (geo_pay_ok res (OCell id s') b') in H1. 
    rewrite zget_nat in H1 by (unfold id; lia). replace (Z.to_nat (id - Z.of_nat (length ps))) with k in H1 by (unfold id; lia).
    do 5 eexists. exists (map Z.of_nat (leaves (OCell id s'))). split; [exact H1|]. split; [apply (holds_rep ps cells (OCell id s')); auto; discriminate|]. split; [rewrite map_length; reflexivity|].
    intros i j Hi. apply in_map_iff in Hi as (i0 & <- & Hi).
    assert (Hb' : (0 <= snd b')%Q). { destruct (cube_ok _ _ _ Hc) as [H0 _]. clear - Hw H0. assert (G : forall t b t' b', within (geo_box res) t b t' b' -> (0 <= snd b)%Q -> (0 <= snd b')%Q); [|apply (G _ _ _ _ Hw H0)].
      induction 1; [auto|]. intros Hb. apply IHwithin. apply geo_len. exact Hb. }
    destruct (fits_leaves ps res _ b' Hb' (within_fits ps res _ _ _ _ Hw HFi) i0 Hi) as (y & Ey & By). rewrite (position_nth _ _ _ Ey). apply By.
  - exists (visits 0%Z (fun _ a => (a + 1)%Z) (fun (w : vec * Z) a => (a + snd w)%Z) (fun a c => (c, a)) (geo_box res) (fun _ _ => true) (OCell (Z.of_nat (length ps)) sons) (c, len)).
    intros fuel' Hf. eexists. split.
    + rewrite (root_walk ps _ _ _ _ _ (fun _ _ => true) st sons (c, len) HT HF L2). match goal with |- context [?a <? ?b] => destruct (Nat.ltb_spec a b); [lia|] end. reflexivity.
    + rewrite items_all. apply leaves_particles. exact HL.
Qed.
Print Assumptions C46_geometric_tree.

(** With a vanishing resolution (softening 0) two particles at one place are inserted for ever. *)
Lemma same_place_runs {W} x rnd : forall fuel node c h (cells : list (cell W)), (0 <= h)%Q -> get_son [x; x] cells node (son_of c x) = Some 0%Z ->
  insert [x; x] (0 * (1 # 2))%Q rnd fuel 1 node c h cells = Running.
Proof.
  induction fuel as [|fuel IH]; intros node c h cells Hh Hg; [reflexivity|]. cbn [insert nth_error]. rewrite Hg. cbn [Z.ltb Z.compare length Z.of_nat Pos.of_succ_nat Pos.succ].
  change (zget [x; x] 0) with (Some x). cbn iota.
  assert (E : Qgtb (0 * (1 # 2)) (h * (1 # 2)) = false) by (apply Qgtb_false; lra). rewrite E.
  unfold get_son in Hg. cbn [length Z.of_nat Pos.of_succ_nat Pos.succ] in Hg. destruct (zget cells (node - 2)) as [[l|]|] eqn:El; try discriminate.
  assert (Hb := El). apply zget_some in Hb.
  assert (H1 : exists cells1, set_son [x; x] (append_cell cells) node (son_of c x) (2 + Z.of_nat (length cells))%Z = Some cells1 /\ length cells1 = S (length cells) /\ zget cells1 (2 + Z.of_nat (length cells) - 2) = Some (Sons (repeat (-1)%Z 8))).
  { unfold set_son. cbn [length Z.of_nat Pos.of_succ_nat Pos.succ]. unfold append_cell.
    rewrite zget_nat in El by lia. assert (Hlt : (Z.to_nat (node - 2) < length cells)%nat) by lia.
    rewrite zget_nat by lia. rewrite nth_error_app1 by exact Hlt. rewrite El.
    destruct (upd l (son_of c x) (2 + Z.of_nat (length cells))%Z) as [l'|] eqn:Eu.
    2:{ exfalso. assert (nth_error l (son_of c x) <> None) by congruence. apply nth_error_Some in H. destruct (upd_some l (son_of c x) (2 + Z.of_nat (length cells))%Z H) as [l' E']. congruence. }
    destruct (zupd (cells ++ [Sons (repeat (-1)%Z 8)]) (node - 2) (Sons l')) as [cells1|] eqn:Ez.
    2:{ exfalso. unfold zupd in Ez. destruct (Z.ltb_spec (node - 2) 0); [lia|]. destruct (upd_some (cells ++ [Sons (repeat (-1)%Z 8)]) (Z.to_nat (node - 2)) (@Sons W l')) as [q Eq]; [rewrite app_length; cbn; lia|congruence]. }
    exists cells1. split; [reflexivity|]. pose proof (zupd_length _ _ _ _ Ez) as HL. rewrite app_length in HL. cbn [length] in HL. split; [lia|].
    rewrite (zget_zupd _ _ _ (2 + Z.of_nat (length cells) - 2) _ Ez). destruct (Z.eqb_spec (2 + Z.of_nat (length cells) - 2) (node - 2)); [lia|]. rewrite zget_nat by lia. replace (Z.to_nat (2 + Z.of_nat (length cells) - 2)) with (length cells) by lia. rewrite nth_error_app2 by lia. rewrite Nat.sub_diag. reflexivity. }
  destruct H1 as (cells1 & E1 & HL1 & HG1). cbn [length Z.of_nat Pos.of_succ_nat Pos.succ] in E1. rewrite E1. cbn [of_opt rbind].
  set (c1 := son_center (h * (1 # 2)) c x). set (new := (2 + Z.of_nat (length cells))%Z) in *.
  assert (Hk : (son_of c1 x < 8)%nat) by apply son_of_lt.
  assert (H2 : exists cells2, set_son [x; x] cells1 new (son_of c1 x) 0%Z = Some cells2 /\ get_son [x; x] cells2 new (son_of c1 x) = Some 0%Z).
  { unfold set_son, get_son. cbn [length Z.of_nat Pos.of_succ_nat Pos.succ]. rewrite HG1. destruct (upd_some (repeat (-1)%Z 8) (son_of c1 x) 0%Z ltac:(rewrite repeat_length; exact Hk)) as [l' El']. rewrite El'.
    destruct (zupd cells1 (new - 2) (Sons l')) as [cells2|] eqn:Ez.
    2:{ exfalso. unfold zupd in Ez. destruct (Z.ltb_spec (new - 2) 0); [lia|]. destruct (upd_some cells1 (Z.to_nat (new - 2)) (@Sons W l')) as [q Eq]; [unfold new; lia|congruence]. }
    exists cells2. split; [reflexivity|]. rewrite (zget_zupd _ _ _ (new - 2) _ Ez), Z.eqb_refl. apply (upd_same _ _ _ _ El'). }
  destruct H2 as (cells2 & E2 & G2). rewrite E2. cbn [of_opt rbind]. apply IH; [lra|exact G2].
Qed.
Theorem C46_zero_resolution_refuted : exists ps : list vec, ps <> [] /\ forall (rnd : nat -> nat) (fuel : nat), build_cells (W := vec * Q) ps (0 * (1 # 2))%Q rnd fuel = Running.
Proof.
  exists [(1, 1, 1)%Q; (1, 1, 1)%Q]. split; [discriminate|]. intros rnd fuel. destruct fuel as [|fuel]; [reflexivity|].
  unfold build_cells. set (q := cube _). vm_compute in q. subst q. cbn [length seq run_each].
  match goal with |- rbind ?a _ = _ => replace a with (Done [@Sons (vec * Q) (0%Z :: repeat (-1)%Z 7)]) by reflexivity end. cbn [rbind].
  rewrite (same_place_runs (1, 1, 1)%Q rnd (S fuel)); [reflexivity|vm_compute; discriminate|reflexivity].
Qed.
Print Assumptions C46_zero_resolution_refuted.

(** C47: whatever cells are opened, the items met by the walk hold every particle exactly once. *)
Theorem C47_items_cover : forall (ps : list vec) (res : Q) (rnd : nat -> nat) (pmass : Z -> Q) (fuel : nat) st (opens : Q -> vec * Q -> bool),
  ps <> [] -> (forall i, rnd i < 8) -> grav_tree ps res rnd pmass fuel = Done st ->
  exists (cells : list (cell (vec * Q))) F, build_cells ps (res * (1 # 2))%Q rnd fuel = Done cells /\ forall fuel', F <= fuel' ->
    exists its ls, walk (length ps) opens fuel' st (Z.of_nat (length ps)) = Done its /\
      Forall2 (holds (length ps) cells) its ls /\ Permutation (concat ls) (particles (length ps)).
Proof.
  intros ps res rnd pmass fuel st opens Hne Hr Est. destruct (cube_some ps Hne) as (c & len & Hc).
  pose proof (build_tree_ok ps res rnd Hr (0%Q, (0, 0, 0)%Q) (grav_part ps pmass) grav_cell grav_finish (grav_box res) fuel (c, len) Hc Hne) as HB.
  unfold grav_tree in Est. rewrite Est in HB. destruct HB as (cells & sons & E & HW & HF & HFi & HL & HC & HT & L1 & L2).
  exists cells, (visits (0%Q, (0, 0, 0)%Q) (grav_part ps pmass) grav_cell grav_finish (grav_box res) opens (OCell (Z.of_nat (length ps)) sons) (c, len)). split; [exact E|]. intros fuel' Hf.
  destruct (@items_hold ps res rnd Hr _ _ (0%Q, (0, 0, 0)%Q) (grav_part ps pmass) grav_cell grav_finish (grav_box res) opens cells _ (proj1 HW) HF (c, len)) as (ls & H1 & H2).
  eexists. exists ls. split; [|split; [exact H1|rewrite H2; apply leaves_particles; exact HL]].
  rewrite (root_walk ps _ _ _ _ _ opens st sons (c, len) HT HF L2). match goal with |- context [?a <? ?b] => destruct (Nat.ltb_spec a b); [lia|] end. reflexivity.
Qed.
Print Assumptions C47_items_cover.

(** The potential is the sum over groups of particles that hold every particle once; a group is a single particle, or is
    replaced by its mass at its centre of mass and seen under an angle below the limit. *)
Theorem C47_potential : forall (ps : list vec) (res : Q) (rnd : nat -> nat) (periodic : bool) (L : Q) (pmass : Z -> Q) (kernel : Q -> Q) (soft angle2 : Q) (fuel : nat) st (x : vec) (m0 : Q),
  ps <> [] -> (forall i, rnd i < 8) -> (forall i, (0 <= i < Z.of_nat (length ps))%Z -> (0 < pmass i)%Q) -> grav_tree ps res rnd pmass fuel = Done st ->
  exists F, forall fuel', F <= fuel' -> exists pot groups,
    potential ps periodic L pmass kernel soft angle2 fuel' st x m0 = Done pot /\
    (pot == m0 / soft + group_sum pmass (fun c => norm2 (apart periodic L c x)) kernel groups)%Q /\
    Permutation (concat (map snd groups)) (particles (length ps)) /\
    Forall (group (position ps) pmass (fun c => norm2 (apart periodic L c x)) angle2) groups.
Proof.
  intros ps res rnd periodic L pmass kernel soft angle2 fuel st x m0 Hne Hr Hm Est. destruct (cube_some ps Hne) as (c & len & Hc).
  pose proof (build_tree_ok ps res rnd Hr (0%Q, (0, 0, 0)%Q) (grav_part ps pmass) grav_cell grav_finish (grav_box res) fuel (c, len) Hc Hne) as HB.
  unfold grav_tree in Est. rewrite Est in HB. destruct HB as (cells & sons & E & HW & HF & HFi & HL & HC & HT & L1 & L2).
  exists (visits (0%Q, (0, 0, 0)%Q) (grav_part ps pmass) grav_cell grav_finish (grav_box res) (grav_opens periodic L angle2 x) (OCell (Z.of_nat (length ps)) sons) (c, len)). intros fuel' Hf.
  destruct (cube_ok _ _ _ Hc) as [H0 _].
  assert (Hm' : forall i, In i (leaves (OCell (Z.of_nat (length ps)) sons)) -> (0 < pmass (Z.of_nat i))%Q). { intros i Hi. apply Hm. apply (Permutation_in _ HL), in_seq in Hi. lia. }
  destruct (groups_ok ps res periodic L pmass kernel angle2 x st L2 (OCell (Z.of_nat (length ps)) sons) HF ltac:(discriminate) Hm' (c, len) (c, len) (-1)%Z eq_refl H0 HFi HT) as (gs & G1 & G2 & G3).
  eexists. exists gs. split; [|split; [|split; [rewrite G2; apply leaves_particles; exact HL|exact G3]]].
  - unfold potential. rewrite (root_walk ps _ _ _ _ _ (grav_opens periodic L angle2 x) st sons (c, len) HT HF L2). match goal with |- context [?a <? ?b] => destruct (Nat.ltb_spec a b); [lia|] end. reflexivity.
  - rewrite fold_total. rewrite <- G1. reflexivity.
Qed.
Print Assumptions C47_potential.

(** With a vanishing opening angle it is the direct sum over all particles, unless all of them are at one place; a target
    among them does not act on itself, if the kernel at distance 0 is [-1/soft] as in the code. *)
Theorem C47_direct_sum : forall (ps : list vec) (res : Q) (rnd : nat -> nat) (periodic : bool) (L : Q) (pmass : Z -> Q) (kernel : Q -> Q) (soft angle2 : Q) (fuel : nat) st (x : vec) (m0 : Q) c len,
  ps <> [] -> (forall i, rnd i < 8) -> grav_tree ps res rnd pmass fuel = Done st -> (angle2 == 0)%Q -> cube ps = Some (c, len) -> (0 < len)%Q ->
  exists F, forall fuel', F <= fuel' -> exists pot, potential ps periodic L pmass kernel soft angle2 fuel' st x m0 = Done pot /\
    (pot == m0 / soft + total (fun i => pmass i * kernel (norm2 (apart periodic L (position ps i) x))) (particles (length ps)))%Q /\
    forall i, (0 <= i < Z.of_nat (length ps))%Z -> x = position ps i -> (m0 == pmass i)%Q -> (kernel (norm2 (apart periodic L x x)) == - (1 / soft))%Q ->
      (pot == total (fun k => pmass k * kernel (norm2 (apart periodic L (position ps k) x))) (filter (fun k => negb (k =? i)%Z) (particles (length ps))))%Q.
Proof.
  intros ps res rnd periodic L pmass kernel soft angle2 fuel st x m0 c len Hne Hr Est Ha Hc Hlen.
  pose proof (build_tree_ok ps res rnd Hr (0%Q, (0, 0, 0)%Q) (grav_part ps pmass) grav_cell grav_finish (grav_box res) fuel (c, len) Hc Hne) as HB.
  unfold grav_tree in Est. rewrite Est in HB. destruct HB as (cells & sons & E & HW & HF & HFi & HL & HC & HT & L1 & L2).
  exists (visits (0%Q, (0, 0, 0)%Q) (grav_part ps pmass) grav_cell grav_finish (grav_box res) (grav_opens periodic L angle2 x) (OCell (Z.of_nat (length ps)) sons) (c, len)). intros fuel' Hf.
  assert (Hpot : (fold_left (fun pot no => pot + grav_item ps periodic L pmass kernel st x no) (items (0%Q, (0, 0, 0)%Q) (grav_part ps pmass) grav_cell grav_finish (grav_box res) (grav_opens periodic L angle2 x) (OCell (Z.of_nat (length ps)) sons) (c, len)) (m0 / soft)
    == m0 / soft + total (fun i => pmass i * kernel (norm2 (apart periodic L (position ps i) x))) (particles (length ps)))%Q).
  { rewrite fold_total. rewrite (items_open ps res periodic L pmass angle2 x _ Ha (c, len) Hlen). apply Qplus_comp; [reflexivity|].
    rewrite (total_perm (grav_item ps periodic L pmass kernel st x) _ _ (leaves_particles ps sons HL)). apply total_ext. intros i Hi. apply (particles_in ps rnd Hr) in Hi. unfold grav_item. destruct (Z.ltb_spec i (Z.of_nat (length ps))); [reflexivity|lia]. }
  eexists. split; [|split; [exact Hpot|]].
  - unfold potential. rewrite (root_walk ps _ _ _ _ _ (grav_opens periodic L angle2 x) st sons (c, len) HT HF L2). match goal with |- context [?a <? ?b] => destruct (Nat.ltb_spec a b); [lia|] end. reflexivity.
  - intros i Hi Hx Hm0 Hk. rewrite Hpot. set (f := fun k => (pmass k * kernel (norm2 (apart periodic L (position ps k) x)))%Q).
    assert (HS : Permutation (particles (length ps)) (i :: filter (fun k => negb (k =? i)%Z) (particles (length ps)))).
    { assert (ND : NoDup (particles (length ps))) by (apply NoDup_map_inj; [intros; lia|apply seq_NoDup]). apply NoDup_Permutation; [exact ND| |].
      - constructor; [intros Hin; apply filter_In in Hin as [_ Hin]; rewrite Z.eqb_refl in Hin; discriminate|apply NoDup_filter; exact ND].
      - intros k. cbn [In]. rewrite filter_In. destruct (Z.eqb_spec k i) as [->|Hki].
        + split; [auto|intros _]. apply (particles_in ps rnd Hr). exact Hi.
        + split; [intros Hk'; right; split; [exact Hk'|reflexivity]|intros [->|[Hk' _]]; [congruence|exact Hk']]. }
    rewrite (total_perm f _ _ HS). cbn [total fold_right]. fold (total f (filter (fun k => negb (k =? i)%Z) (particles (length ps)))).
    unfold f at 1. rewrite <- Hx, Hk, Hm0. unfold Qdiv. ring.
Qed.
Print Assumptions C47_direct_sum.

(** C48: a search collects exactly the particles closer than the radius, each once, with their squared distances; with
    periodic boundaries the distance is that to the nearest image. *)
Theorem C48_search : forall (ps : list vec) (res : Q) (rnd : nat -> nat) (periodic : bool) (L : Q) (fuel : nat) st (x : vec) (radius : Q),
  ps <> [] -> (forall i, rnd i < 8) -> geo_tree ps res rnd fuel = Done st -> (0 <= radius)%Q ->
  (periodic = true -> (0 < L)%Q /\ in_domain L x /\ Forall (in_domain L) ps) ->
  exists F, forall fuel', F <= fuel' -> exists found, search ps periodic L fuel' st x radius = Done found /\
    NoDup (map fst found) /\
    (forall i, In i (map fst found) <-> (0 <= i < Z.of_nat (length ps))%Z /\ exists r2, least_distance2 periodic L (position ps i) x r2 /\ (r2 < radius * radius)%Q) /\
    (forall i r2, In (i, r2) found -> least_distance2 periodic L (position ps i) x r2).
Proof.
  intros ps res rnd periodic L fuel st x radius Hne Hr Est Hrad HP. destruct (cube_some ps Hne) as (c & len & Hc).
  pose proof (build_tree_ok ps res rnd Hr 0%Z (fun _ a => (a + 1)%Z) (fun (w : vec * Z) a => (a + snd w)%Z) (fun a c => (c, a)) (geo_box res) fuel (c, len) Hc Hne) as HB.
  unfold geo_tree in Est. rewrite Est in HB. destruct HB as (cells & sons & E & HW & HF & HFi & HL & HC & HT & L1 & L2).
  exists (visits 0%Z (fun _ a => (a + 1)%Z) (fun (w : vec * Z) a => (a + snd w)%Z) (fun a c => (c, a)) (geo_box res) (geo_opens periodic L x radius) (OCell (Z.of_nat (length ps)) sons) (c, len)). intros fuel' Hf.
  destruct (cube_ok _ _ _ Hc) as [H0 _].
  assert (Dx : domain periodic L x) by (intros Hp; apply HP; exact Hp). assert (HLp : periodic = true -> (0 < L)%Q) by (intros Hp; apply HP; exact Hp).
  assert (Dps : Forall (domain periodic L) ps). { apply Forall_forall. intros y Hy Hp. destruct (HP Hp) as (_ & _ & HFa). rewrite Forall_forall in HFa. apply HFa. exact Hy. }
  assert (HlenL : periodic = true -> (len <= L)%Q). { intros Hp. destruct (HP Hp) as (_ & _ & HFa). apply (cube_domain L ps c len HFa Hc). }
  pose proof (search_items ps res periodic L x radius Hrad Dx Dps HLp (OCell (Z.of_nat (length ps)) sons) (c, len) H0 HlenL HFi (fun id Hin => proj1 (rep_bounds ps cells _ id (proj1 HW) Hin))) as HS.
  eexists. split.
  { unfold search. rewrite (root_walk ps _ _ _ _ _ (geo_opens periodic L x radius) st sons (c, len) HT HF L2). match goal with |- context [?a <? ?b] => destruct (Nat.ltb_spec a b); [lia|] end. cbn [rbind]. rewrite HS. reflexivity. }
  assert (HPm := leaves_particles ps sons HL). set (l := map Z.of_nat (leaves (OCell (Z.of_nat (length ps)) sons))) in *.
  assert (Hin : forall i, In i l <-> (0 <= i < Z.of_nat (length ps))%Z). { intros i. rewrite <- (particles_in ps rnd Hr). split; intros Hi; [apply (Permutation_in _ HPm Hi)|apply (Permutation_in _ (Permutation_sym HPm) Hi)]. }
  assert (NDl : NoDup l). { apply (Permutation_NoDup (Permutation_sym HPm)). apply NoDup_map_inj; [intros; lia|apply seq_NoDup]. }
  pose proof (fun i Hi => item_spec ps periodic L x radius i Hrad Dx Dps HLp Hi) as HI. split; [|split].
  - assert (G : forall l, NoDup l -> NoDup (map fst (flat_map (geo_item ps periodic L x radius) l)) /\ forall i, In i (map fst (flat_map (geo_item ps periodic L x radius) l)) -> In i l).
    { clear. induction l as [|i l IH]; intros ND; [split; [constructor|intros i []]|]. apply NoDup_cons_iff in ND as [Hni ND]. destruct (IH ND) as [I1 I2]. cbn [flat_map]. rewrite map_app.
      assert (Hitem : map fst (geo_item ps periodic L x radius i) = [] \/ map fst (geo_item ps periodic L x radius i) = [i]). { unfold geo_item. destruct (i <? Z.of_nat (length ps))%Z; [|left; reflexivity]. destruct (inside_range radius (apart periodic L (position ps i) x) && Qgtb (radius * radius) (norm2 (apart periodic L (position ps i) x))); [right|left]; reflexivity. }
      destruct Hitem as [->| ->]; cbn [app].
      - split; [exact I1|]. intros k Hk. right. apply I2. exact Hk.
      - split; [constructor; [intros Hk; apply Hni, I2, Hk|exact I1]|]. intros k [<-|Hk]; [left; reflexivity|right; apply I2; exact Hk]. }
    apply G. exact NDl.
  - intros i. rewrite in_map_iff. split.
    + intros ([i' r2] & Ei & Hi). cbn [fst] in Ei. subst i'. apply in_flat_map in Hi as (k & Hk & Hi). apply Hin in Hk. apply (HI k Hk) in Hi as [Hw Hi]. injection Hi as -> _. exact Hw.
    + intros Hw. exists (i, norm2 (apart periodic L (position ps i) x)). split; [reflexivity|]. apply in_flat_map. exists i. split; [apply Hin; apply Hw|]. apply (HI i (proj1 Hw)). split; [exact Hw|reflexivity].
  - intros i r2 Hi. apply in_flat_map in Hi as (k & Hk & Hi). apply Hin in Hk. apply (HI k Hk) in Hi as [_ Hi]. injection Hi as -> ->.
    apply apart_least; auto. unfold position. destruct (zget_in_range ps k Hk) as [y Ey]. rewrite Ey. rewrite Forall_forall in Dps. apply Dps. rewrite zget_nat in Ey by lia. apply (nth_error_In _ _ Ey).
Qed.
Print Assumptions C48_search.

(** C49 fails: the collector starts with D2 = -1 and only takes particles below it, so the search for the nearest neighbour
    of any point in any tree runs for ever. *)
Lemma collect_none found : (forall p, In p found -> (0 <= snd p)%Q) -> fold_left collect found (0%Z, (-1)%Q) = (0%Z, (-1)%Q).
Proof.
  induction found as [|p found IH]; intros H; [reflexivity|]. cbn [fold_left]. unfold collect at 2. cbn [snd].
  assert (E : Qgtb (-1) (snd p) = false). { apply Qgtb_false. specialize (H p (or_introl eq_refl)). lra. }
  rewrite E. apply IH. intros q Hq. apply H. right. exact Hq.
Qed.
Lemma search_nonneg ps periodic L fuel st x radius found : search ps periodic L fuel st x radius = Done found -> forall p, In p found -> (0 <= snd p)%Q.
Proof.
  unfold search. destruct (walk (length ps) (geo_opens periodic L x radius) fuel st (Z.of_nat (length ps))) as [its| |]; cbn [rbind]; try discriminate. intros E. injection E as <-.
  intros p Hp. apply in_flat_map in Hp as (i & _ & Hp). unfold geo_item in Hp. destruct (i <? Z.of_nat (length ps))%Z; [|destruct Hp].
  destruct (inside_range radius (apart periodic L (position ps i) x) && Qgtb (radius * radius) (norm2 (apart periodic L (position ps i) x))); [|destruct Hp]. destruct Hp as [<-|[]]. cbn [snd].
  destruct (apart periodic L (position ps i) x) as [[d0 d1] d2]. cbn [norm2]. nra.
Qed.
Theorem C49_nearest_neighbour_refuted : forall (ps : list vec) (res : Q) (rnd : nat -> nat) (periodic : bool) (L : Q) (fuel0 : nat) st (x : vec) (rguess : Q),
  ps <> [] -> (forall i, rnd i < 8) -> geo_tree ps res rnd fuel0 = Done st ->
  (forall fuel fuel1 v, nearest_neighbour ps periodic L fuel fuel1 st x rguess <> Done v) /\
  forall fuel, exists F, forall fuel1, F <= fuel1 -> nearest_neighbour ps periodic L fuel fuel1 st x rguess = Running.
Proof.
  intros ps res rnd periodic L fuel0 st x rguess Hne Hr Est.
  assert (HW : forall r, exists F, forall f, F <= f -> exists found, search ps periodic L f st x r = Done found).
  { intros r. destruct (cube_some ps Hne) as (c & len & Hc).
    pose proof (build_tree_ok ps res rnd Hr 0%Z (fun _ a => (a + 1)%Z) (fun (w : vec * Z) a => (a + snd w)%Z) (fun a c => (c, a)) (geo_box res) fuel0 (c, len) Hc Hne) as HB.
    unfold geo_tree in Est. rewrite Est in HB. destruct HB as (cells & sons & E & HW & HF & HFi & HL & HC & HT & L1 & L2).
    eexists. intros f Hf. unfold search. rewrite (root_walk ps _ _ _ _ _ (geo_opens periodic L x r) st sons (c, len) HT HF L2).
    match goal with |- context [?a <? ?b] => destruct (Nat.ltb_spec a b) as [Hlt|Hge] end; [exfalso; apply (Nat.lt_irrefl f); eapply Nat.lt_le_trans; [exact Hlt|exact Hf]|]. cbn [rbind]. eauto. }
  assert (Hloop : forall fuel fuel1 r v, nearest_loop ps periodic L fuel fuel1 st x r (0%Z, (-1)%Q) <> Done v).
  { induction fuel as [|fuel IH]; intros fuel1 r v; cbn [nearest_loop]; [discriminate|]. change (is_empty (0%Z, (-1)%Q)) with true. cbn iota.
    destruct (search ps periodic L fuel1 st x (r * (126 # 100))) as [found| |] eqn:Es; cbn [rbind]; [|discriminate|discriminate].
    rewrite (collect_none found (search_nonneg _ _ _ _ _ _ _ _ Es)). apply IH. }
  split.
  - intros fuel fuel1 v. unfold nearest_neighbour. destruct (search ps periodic L fuel1 st x rguess) as [found| |] eqn:Es; cbn [rbind]; [|discriminate|discriminate].
    rewrite (collect_none found (search_nonneg _ _ _ _ _ _ _ _ Es)). apply Hloop.
  - assert (HR : forall fuel r, exists F, forall fuel1, F <= fuel1 -> nearest_loop ps periodic L fuel fuel1 st x r (0%Z, (-1)%Q) = Running).
    { induction fuel as [|fuel IH]; intros r; [exists 0; reflexivity|]. destruct (HW (r * (126 # 100))%Q) as (F1 & H1). destruct (IH (r * (126 # 100))%Q) as (F2 & H2). exists (F1 + F2). intros fuel1 Hf.
      cbn [nearest_loop]. change (is_empty (0%Z, (-1)%Q)) with true. cbn iota. destruct (H1 fuel1 ltac:(lia)) as (found & Es). rewrite Es. cbn [rbind].
      rewrite (collect_none found (search_nonneg _ _ _ _ _ _ _ _ Es)). apply H2. lia. }
    intros fuel. destruct (HW rguess) as (F1 & H1). destruct (HR fuel rguess) as (F2 & H2). exists (F1 + F2). intros fuel1 Hf. unfold nearest_neighbour.
    destruct (H1 fuel1 ltac:(lia)) as (found & Es). rewrite Es. cbn [rbind]. rewrite (collect_none found (search_nonneg _ _ _ _ _ _ _ _ Es)). apply H2. lia.
Qed.
Print Assumptions C49_nearest_neighbour_refuted.

(** C49, what holds: what is missing is a start value other than -1. A search with a collector that holds particle [i0] at squared
    distance [d0] ends with the nearest particle of all if any particle in reach is closer than that, and unchanged otherwise. *)
Lemma collect_best found : forall i0 d0, let '(i, d) := fold_left collect found (i0, d0) in
  ((i, d) = (i0, d0) \/ In (i, d) found /\ (d < d0)%Q) /\ (d <= d0)%Q /\ forall p, In p found -> (d <= snd p)%Q.
Proof.
  induction found as [|[k e] found IH]; intros i0 d0; cbn [fold_left]; [split; [left; reflexivity|split; [lra|intros p []]]|].
  unfold collect at 2. cbn [snd]. destruct (Qgtb d0 e) eqn:Eg.
  - apply Qgtb_spec in Eg. specialize (IH k e). destruct (fold_left collect found (k, e)) as [i d]. destruct IH as (H1 & H2 & H3). split; [|split; [lra|]].
    + right. destruct H1 as [H1|[H1 H4]]; [injection H1 as -> ->; split; [left; reflexivity|lra]|split; [right; exact H1|lra]].
    + intros p [<-|Hp]; [exact H2|apply H3; exact Hp].
  - apply Qgtb_false in Eg. specialize (IH i0 d0). destruct (fold_left collect found (i0, d0)) as [i d]. destruct IH as (H1 & H2 & H3). split; [|split; [exact H2|]].
    + destruct H1 as [H1|[H1 H4]]; [left; exact H1|right; split; [right; exact H1|exact H4]].
    + intros p [<-|Hp]; [cbn [snd]; lra|apply H3; exact Hp].
Qed.
Theorem C49_nearest_neighbour_partial : forall (ps : list vec) (res : Q) (rnd : nat -> nat) (periodic : bool) (L : Q) (fuel : nat) st (x : vec) (radius : Q) (i0 : Z) (d0 : Q),
  ps <> [] -> (forall i, rnd i < 8) -> geo_tree ps res rnd fuel = Done st -> (0 <= radius)%Q ->
  (periodic = true -> (0 < L)%Q /\ in_domain L x /\ Forall (in_domain L) ps) ->
  exists F, forall fuel', F <= fuel' -> exists found i d, search ps periodic L fuel' st x radius = Done found /\ fold_left collect found (i0, d0) = (i, d) /\
    let at_distance k r2 := (0 <= k < Z.of_nat (length ps))%Z /\ least_distance2 periodic L (position ps k) x r2 in
    (at_distance i d /\ (d < d0)%Q /\ (d < radius * radius)%Q /\ (forall k r2, at_distance k r2 -> (d <= r2)%Q) \/
     i = i0 /\ d = d0 /\ forall k r2, at_distance k r2 -> (d0 <= r2)%Q \/ (radius * radius <= r2)%Q).
Proof.
  intros ps res rnd periodic L fuel st x radius i0 d0 Hne Hr Est Hrad HP. destruct (C48_search ps res rnd periodic L fuel st x radius Hne Hr Est Hrad HP) as (F & HF).
  exists F. intros fuel' Hf. destruct (HF fuel' Hf) as (found & Es & _ & Hin & Hd). pose proof (collect_best found i0 d0) as HB. destruct (fold_left collect found (i0, d0)) as [i d] eqn:Ef.
  destruct HB as (H1 & H2 & H3). exists found, i, d. split; [exact Es|]. split; [exact Ef|]. cbn zeta.
  assert (Huniq : forall k r2 r2', least_distance2 periodic L (position ps k) x r2 -> least_distance2 periodic L (position ps k) x r2' -> (r2 == r2')%Q).
  { intros k r2 r2' A B. destruct A as [(a0 & a1 & a2 & A0 & A1 & A2 & A3) A4], B as [(b0 & b1 & b2 & B0 & B1 & B2 & B3) B4]. pose proof (A4 b0 b1 b2 B0 B1 B2). pose proof (B4 a0 a1 a2 A0 A1 A2). lra. }
  assert (Hall : forall k r2, (0 <= k < Z.of_nat (length ps))%Z -> least_distance2 periodic L (position ps k) x r2 -> (r2 < radius * radius)%Q -> (d <= r2)%Q).
  { intros k r2 Hk Hl Hlt. assert (Hf2 : In k (map fst found)) by (apply Hin; split; [exact Hk|exists r2; split; [exact Hl|exact Hlt]]).
    apply in_map_iff in Hf2 as ([k' e] & Ek & Hp). cbn [fst] in Ek. subst k'. pose proof (H3 _ Hp) as Hle. cbn [snd] in Hle. pose proof (Huniq k _ _ (Hd k e Hp) Hl). lra. }
  destruct H1 as [H1|[H1 H4]].
  - right. injection H1 as -> ->. split; [reflexivity|]. split; [reflexivity|]. intros k r2 [Hk Hl]. destruct (Qlt_le_dec r2 (radius * radius)) as [Hlt|Hge]; [left; exact (Hall k r2 Hk Hl Hlt)|right; exact Hge].
  - left. assert (Hi : In i (map fst found)) by (apply in_map_iff; exists (i, d); split; [reflexivity|exact H1]). apply Hin in Hi as (Hk & r2 & Hl & Hlt). pose proof (Hd i d H1) as Hld. pose proof (Huniq i _ _ Hl Hld) as Eq2.
    split; [split; [exact Hk|exact Hld]|]. split; [exact H4|]. assert (Hdr : (d < radius * radius)%Q) by lra. split; [exact Hdr|]. intros k e [Hk' Hl']. destruct (Qlt_le_dec e (radius * radius)) as [Hlt'|Hge]; [exact (Hall k e Hk' Hl' Hlt')|lra].
Qed.
Print Assumptions C49_nearest_neighbour_partial.

(** Witnesses: the corners of the cube have a constant address, so random numbers that change are fair to them. *)
Lemma octant_ext c c' x : (forall j, coord j c < coord j x <-> coord j c' < coord j x)%Q -> octant c x = octant c' x.
Proof.
  intros H. unfold octant. f_equal; [f_equal|].
  all: match goal with |- context [Qlt_le_dec (coord ?j _) _] => specialize (H j) end; destruct (Qlt_le_dec _ _), (Qlt_le_dec _ _); try reflexivity; exfalso; lra.
Qed.
Lemma address_corner : forall k c h x, (0 < h)%Q -> (forall j, coord j x == coord j c + h \/ coord j x == coord j c - h)%Q -> address k c h x = octant c x.
Proof.
  induction k as [|k IH]; intros c h x Hh Hx; [reflexivity|]. cbn [address].
  assert (E2 : (h / 2 == h * (1 # 2))%Q) by (unfold Qdiv; change (/ 2)%Q with (1 # 2)%Q; reflexivity).
  assert (Hs : forall j, (coord j x == coord j c + h /\ coord j (subdivide c h x) == coord j c + h / 2 \/ coord j x == coord j c - h /\ coord j (subdivide c h x) == coord j c - h / 2)%Q).
  { intros j. assert (Hj : coord j (subdivide c h x) = (if Qlt_le_dec (coord j c) (coord j x) then coord j c + h / 2 else coord j c - h / 2)%Q).
    { destruct c as [[c0 c1] c2], x as [[x0 x1] x2]. unfold subdivide. destruct j as [|[|j]]; reflexivity. }
    rewrite Hj. specialize (Hx j). destruct (Qlt_le_dec (coord j c) (coord j x)); destruct Hx as [Hx|Hx]; try (exfalso; lra); [left|right]; split; (exact Hx || reflexivity). }
  set (h2 := (h / 2)%Q) in *. clearbody h2. rewrite IH.
  - apply octant_ext. intros j. specialize (Hs j). lra.
  - lra.
  - intros j. specialize (Hs j). lra.
Qed.
Lemma counting_fair ps c h : (0 < h)%Q -> (forall x, In x ps -> forall j, coord j x == coord j c + h \/ coord j x == coord j c - h)%Q -> fair (fun n => n mod 8) ps c h.
Proof.
  intros Hh Hx. split; [intros i; apply Nat.mod_upper_bound; lia|]. intros x Hin d a.
  destruct (Nat.eq_dec (a mod 8) (octant c x)) as [E|E].
  - exists 1. rewrite (address_corner _ c h x Hh (Hx x Hin)). rewrite <- E. intros E'. pose proof (Nat.div_mod a 8 ltac:(lia)). pose proof (Nat.div_mod (a + 1) 8 ltac:(lia)). pose proof (Nat.mod_upper_bound a 8 ltac:(lia)). revert H H0 H1 E'. generalize ((a + 1) / 8) (a / 8) ((a + 1) mod 8) (a mod 8). intros. lia.
  - exists 0. rewrite (address_corner _ c h x Hh (Hx x Hin)). rewrite Nat.add_0_r. exact E.
Qed.
Definition wps : list vec := [(0, 0, 0)%Q; (8, 8, 8)%Q; (8, 0, 8)%Q; (0, 0, 0)%Q; (0, 8, 0)%Q].
Definition wmass (i : Z) : Q := inject_Z (i + 1).
Example C46_witness :
  wps <> [] /\ cube wps = Some ((8 # 2, 8 # 2, 8 # 2)%Q, 8%Q) /\ fair (fun n => n mod 8) wps (8 # 2, 8 # 2, 8 # 2)%Q ((1 # 2) * 8)%Q /\
  (forall i, (0 <= i < Z.of_nat (length wps))%Z -> (0 < wmass i)%Q) /\
  (exists st, grav_tree wps 4 (fun n => n mod 8) wmass 20 = Done st) /\ (exists st, geo_tree wps 4 (fun n => n mod 8) 20 = Done st).
Proof.
  split; [discriminate|]. split; [vm_compute; reflexivity|]. split; [|split; [|split]].
  - apply counting_fair; [reflexivity|]. intros x Hx j. repeat (destruct Hx as [<-|Hx]); [..|destruct Hx]; destruct j as [|[|j]]; cbn [coord]; ((left; reflexivity) || (right; reflexivity)).
  - intros i Hi. unfold wmass, Qlt. cbn. lia.
  - eexists. vm_compute. reflexivity.
  - eexists. vm_compute. reflexivity.
Qed.
(** With a large opening angle the far target sees whole cells, with a vanishing one all particles. *)
Example C47_witness : exists st,
  grav_tree wps 4 (fun n => n mod 8) wmass 20 = Done st /\
  (exists l, walk 5 (grav_opens false 0 (1 # 1) (100, 100, 100)%Q) 20 st 5 = Done l /\ l = [5]%Z) /\
  (exists l, walk 5 (grav_opens false 0 (1 # 1) (7, 7, 7)%Q) 20 st 5 = Done l /\ (length l < 5)%nat /\ l <> [5]%Z) /\
  (exists l, walk 5 (grav_opens false 0 0 (100, 100, 100)%Q) 20 st 5 = Done l /\ length l = 5).
Proof.
  eexists. split; [vm_compute; reflexivity|]. split; [|split].
  - eexists. split; vm_compute; reflexivity.
  - eexists. split; [vm_compute; reflexivity|]. vm_compute. split; [lia|discriminate].
  - eexists. split; vm_compute; reflexivity.
Qed.
(** In a periodic box the search around the origin meets the corners on the other side. *)
Example C48_witness : exists st found,
  geo_tree wps 4 (fun n => n mod 8) 20 = Done st /\ in_domain 9 (0, 0, 0)%Q /\ Forall (in_domain 9) wps /\
  search wps true 9 20 st (0, 0, 0)%Q 2 = Done found /\ (length found = 5)%nat /\
  exists found', search wps false 9 20 st (0, 0, 0)%Q 2 = Done found' /\ (length found' = 2)%nat.
Proof.
  eexists. eexists. split; [vm_compute; reflexivity|]. split; [|split].
  - intros j. destruct j as [|[|j]]; split; vm_compute; discriminate.
  - unfold wps. repeat constructor; destruct j as [|[|j]]; vm_compute; discriminate.
  - split; [vm_compute; reflexivity|]. split; [vm_compute; reflexivity|]. eexists. split; [vm_compute; reflexivity|]. reflexivity.
Qed.
(** Starting from "no particle, at squared distance 1000" the search finds the particle at (8, 0, 8). *)
Example C49_witness : exists st found,
  geo_tree wps 4 (fun n => n mod 8) 20 = Done st /\ search wps false 9 20 st (8, 1, 8)%Q 20 = Done found /\ fst (fold_left collect found ((-1)%Z, (1000 # 1)%Q)) = 2%Z.
Proof. eexists. eexists. split; [vm_compute; reflexivity|]. split; vm_compute; reflexivity. Qed.
