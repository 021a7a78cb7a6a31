(** C43-C45: the linked-list grid. *)
From Coq Require Import List ZArith QArith Qround Qfield Bool Lia Lqa Sorting.Permutation Relations.
From Verif.Model Require Import ListMem Run Mymath Tree LinkedList.
From Verif.Spec Require Import Basic Octree Chains.
From Verif.Proofs Require Import ListMemProofs ListExtra MymathProofs MymathProofs2 TreeInsert TreeResults LinkProofs LinkMerge LinkSearch LinkGroups LinkPara.
Import ListNotations.
Local Open Scope Z_scope.

(** All orders in which the loop over the chains may be carried out. *)
Definition chain_order (ndiv : Z) (order : list Z) : Prop := Permutation order (map Z.of_nat (seq 0 (Z.to_nat (ndiv * ndiv * ndiv)))).
(** A list built by one thread, or by several threads and merged. *)
Definition list_of (ndiv : Z) (ps : list vec) (box : Q) (periodic : bool) (ll : llist) : Prop :=
  build ndiv ps box periodic = Some ll \/
  exists fuel T order, (length ps <= fuel)%nat /\ (0 < T)%nat /\ chain_order ndiv order /\ parallel_build fuel T order ndiv ps box periodic = Done ll.

Definition built (ndiv : Z) (ps : list vec) (box : Q) (periodic : bool) (ll : llist) : Prop :=
  linked ll /\ good ll /\ ll_ps ll = ps /\ ll_ndiv ll = ndiv /\ ll_periodic ll = periodic /\ ll_box ll = box /\
  (forall j, coord j (ll_min ll) = 0)%Q /\ (forall j, coord j (ll_step ll) = (box - 0) / inject_Z ndiv)%Q.
Lemma build_built ndiv ps box periodic : 0 < ndiv -> (0 < box)%Q -> exists ll, build ndiv ps box periodic = Some ll /\ built ndiv ps box periodic ll.
Proof.
  intros Hd Hb. destruct (init_ok ndiv ps box periodic Hd Hb) as (ll0 & Hi & Hg & _ & _ & Ep & Ebx & Em & Es). destruct (build_ok ndiv ps box periodic ll0 Hi Hg) as (ll & Eb & Hl & Hgl & B1 & B2 & B3 & B4 & B5 & B6).
  exists ll. split; [exact Eb|]. split; [exact Hl|]. split; [exact Hgl|]. split; [exact B1|]. split; [exact B2|]. split; [congruence|]. split; [congruence|]. split; intros j; [rewrite B5; apply Em|rewrite B6; apply Es].
Qed.
Lemma list_of_built ndiv ps box periodic ll : 0 < ndiv -> (0 < box)%Q -> list_of ndiv ps box periodic ll -> built ndiv ps box periodic ll.
Proof.
  intros Hd Hb [E|(fuel & T & order & Hf & HT & HO & E)].
  - destruct (build_built ndiv ps box periodic Hd Hb) as (ll' & E' & H). congruence.
  - destruct (parallel_ok fuel T order ndiv ps box periodic HT Hd Hb HO Hf) as (ll' & E' & H). assert (ll' = ll) by congruence. subst ll'. exact H.
Qed.
Lemma coord3 (a : vec) (v : Q) : (forall j, coord j a = v) -> a = (v, v, v).
Proof. intros H. pose proof (H 0%nat) as H0. pose proof (H 1%nat) as H1. pose proof (H 2%nat) as H2. destruct a as [[a0 a1] a2]. cbn [coord] in *. congruence. Qed.
Lemma step_whole ndiv box : 0 < ndiv -> ((box - 0) / inject_Z ndiv * inject_Z ndiv == box)%Q.
Proof. intros Hd. field. intros E. unfold Qeq in E. cbn in E. lia. Qed.

(** C43: building succeeds, and the chain of every cell holds exactly the particles of the cell, each once.  There are
    ndiv^3 cells of the same length on every axis, and no other chain. *)
Definition chains_right (ndiv : Z) (ps : list vec) (box : Q) (periodic : bool) (ll : llist) : Prop :=
  length (ll_hoc ll) = Z.to_nat (ndiv * ndiv * ndiv) /\
  exists w, (w * inject_Z ndiv == box)%Q /\ forall gx gy gz, 0 <= gx < ndiv -> 0 <= gy < ndiv -> 0 <= gz < ndiv ->
    chain_holds periodic box (0, 0, 0)%Q (w, w, w) ndiv ps (ll_hoc ll) (ll_next ll) gx gy gz.
Lemma built_right ndiv ps box periodic ll : 0 < ndiv -> built ndiv ps box periodic ll -> chains_right ndiv ps box periodic ll.
Proof.
  intros Hd (Hl & Hg & E1 & E2 & E3 & E4 & Em & Es). split.
  - destruct Hl as (C & (H & _) & _). cbn [fst] in H. rewrite H. unfold D3. rewrite E2. reflexivity.
  - exists ((box - 0) / inject_Z ndiv)%Q. split; [apply step_whole; exact Hd|]. intros gx gy gz Hx Hy Hz. pose proof (linked_holds ll Hg Hl gx gy gz) as H. rewrite E2 in H. specialize (H Hx Hy Hz). rewrite (coord3 _ _ Em), (coord3 _ _ Es), E1, E3, E4 in H. exact H.
Qed.
Theorem C43_build : forall (ndiv : Z) (ps : list vec) (box : Q) (periodic : bool), 0 < ndiv -> (0 < box)%Q ->
  exists ll, build ndiv ps box periodic = Some ll /\ chains_right ndiv ps box periodic ll.
Proof. intros ndiv ps box periodic Hd Hb. destruct (build_built ndiv ps box periodic Hd Hb) as (ll & E & H). exists ll. split; [exact E|apply built_right; assumption]. Qed.
Print Assumptions C43_build.
(** ... for any number of threads and any order of treating the chains. *)
Theorem C43_parallel_build : forall (fuel T : nat) (order : list Z) (ndiv : Z) (ps : list vec) (box : Q) (periodic : bool),
  0 < ndiv -> (0 < box)%Q -> (0 < T)%nat -> chain_order ndiv order -> (length ps <= fuel)%nat ->
  exists ll, parallel_build fuel T order ndiv ps box periodic = Done ll /\ chains_right ndiv ps box periodic ll.
Proof.
  intros fuel T order ndiv ps box periodic Hd Hb HT HO Hf. destruct (parallel_ok fuel T order ndiv ps box periodic HT Hd Hb HO Hf) as (ll & E & H). exists ll. split; [exact E|]. apply built_right; assumption.
Qed.
Print Assumptions C43_parallel_build.
(** The merged chains have the contents of the chains built by one thread. *)
Theorem C43_parallel_same_chains : forall (ndiv : Z) (ps : list vec) (box : Q) (periodic : bool) (ll ll' : llist),
  0 < ndiv -> (0 < box)%Q -> list_of ndiv ps box periodic ll -> list_of ndiv ps box periodic ll' ->
  forall c, 0 <= c < ndiv * ndiv * ndiv -> exists h h' l l', zget (ll_hoc ll) c = Some h /\ zget (ll_hoc ll') c = Some h' /\
    chained (ll_next ll) h l /\ chained (ll_next ll') h' l' /\ Permutation l l'.
Proof.
  intros ndiv ps box periodic ll ll' Hd Hb H H' c Hc. apply list_of_built in H as (HL & Hg & E1 & E2 & E3 & E4 & Em & Es); [|assumption|assumption]. apply list_of_built in H' as (HL' & Hg' & E1' & E2' & E3' & E4' & Em' & Es'); [|assumption|assumption].
  destruct HL as (C & (_ & _ & HC) & HI). destruct HL' as (C' & (_ & _ & HC') & HI'). unfold D3 in *. rewrite E2 in HC, HI. rewrite E2' in HC', HI'. cbn [fst snd] in *.
  assert (Hr : 0 <= c < Z.of_nat (Z.to_nat (ndiv * ndiv * ndiv))) by lia. destruct (HC c Hr) as (h & Hh & Hf). destruct (HC' c Hr) as (h' & Hh' & Hf'). destruct (HI c Hr) as [ND Hin]. destruct (HI' c Hr) as [ND' Hin'].
  exists h, h', (C c), (C' c). split; [exact Hh|]. split; [exact Hh'|]. split; [exact Hf|]. split; [exact Hf'|]. apply NoDup_Permutation; [exact ND|exact ND'|]. intros i. rewrite Hin, Hin', E1, E1'.
  assert (Ec : forall x, cell_of ll x = cell_of ll' x). { intros x. unfold cell_of, cell1, sub2ind, fix_grid, round_grid, shift_grid. rewrite !Em, !Es, !Em', !Es', E2, E2', E3, E3'. reflexivity. }
  split; intros (x & Ex & Hx); exists x; (split; [exact Ex|]); [rewrite <- Ec|rewrite Ec]; exact Hx.
Qed.
Print Assumptions C43_parallel_same_chains.
(** Without a box size the range of the particles is used; this is right whenever the lengths of the cells come out positive
    (see [C44_auto_range_refuted]). *)
Theorem C43_auto_range : forall (ndiv : Z) (ps : list vec) (periodic : bool) (ll0 : llist), 0 < ndiv -> init ndiv ps 0 periodic = Some ll0 -> (forall j, 0 < coord j (ll_step ll0))%Q ->
  exists ll, build ndiv ps 0 periodic = Some ll /\ forall gx gy gz, 0 <= gx < ndiv -> 0 <= gy < ndiv -> 0 <= gz < ndiv ->
    chain_holds false 0 (ll_min ll0) (ll_step ll0) ndiv ps (ll_hoc ll) (ll_next ll) gx gy gz.
Proof.
  intros ndiv ps periodic ll0 Hd Hi Hs. destruct (init_state _ _ _ _ _ Hi) as (_ & _ & En & _).
  assert (Hp : ll_periodic ll0 = false /\ ll_box ll0 = 0%Q). { unfold init in Hi. cbn in Hi. destruct ps as [|[[x0 x1] x2] r]; [discriminate|]. destruct (fold_left widen3 r _) as [[[? ?] [? ?]] [? ?]]. injection Hi as <-. split; reflexivity. }
  assert (Hg : good ll0). { split; [rewrite En; exact Hd|]. split; [exact Hs|]. intros E. destruct Hp. congruence. }
  destruct (build_ok ndiv ps 0%Q periodic ll0 Hi Hg) as (ll & Eb & Hl & Hgl & B1 & B2 & B3 & B4 & B5 & B6). exists ll. split; [exact Eb|]. intros gx gy gz Hx Hy Hz.
  pose proof (linked_holds ll Hgl Hl gx gy gz) as H. rewrite B2 in H. specialize (H Hx Hy Hz). rewrite B1, B3, B4, B5, B6, (proj1 Hp), (proj2 Hp) in H. exact H.
Qed.
Print Assumptions C43_auto_range.
Lemma widen_keeps y r : (fst r <= snd r)%Q -> forall x, (fst r <= x <= snd r)%Q \/ x = y -> let r' := widen y r in (fst r' <= snd r' /\ fst r' <= x /\ x <= snd r')%Q.
Proof.
  intros Hr x Hx. unfold widen. destruct (Qgtb (fst r) y) eqn:E1; [apply Qgtb_spec in E1|apply Qgtb_false in E1; destruct (Qgtb y (snd r)) eqn:E2; [apply Qgtb_spec in E2|apply Qgtb_false in E2]]; cbn [fst snd]; destruct Hx as [Hx| ->]; repeat split; lra.
Qed.
Definition axis (j : nat) (r : (Q * Q) * (Q * Q) * (Q * Q)) : Q * Q := match j with 0%nat => fst (fst r) | 1%nat => snd (fst r) | _ => snd r end.
Lemma axis_widen j r x : axis j (widen3 r x) = widen (coord j x) (axis j r).
Proof. destruct r as [[r0 r1] r2], x as [[x0 x1] x2], j as [|[|j]]; reflexivity. Qed.
Lemma widen_all j ps : forall r, (fst (axis j r) <= snd (axis j r))%Q -> let r' := axis j (fold_left widen3 ps r) in
  (fst r' <= snd r')%Q /\ (forall x, (fst (axis j r) <= x <= snd (axis j r))%Q -> (fst r' <= x <= snd r')%Q) /\ forall y, In y ps -> (fst r' <= coord j y <= snd r')%Q.
Proof.
  induction ps as [|p ps IH]; intros r Hr; cbn [fold_left]; cbn zeta; [split; [exact Hr|]; split; [auto|intros y []]|].
  pose proof (widen_keeps (coord j p) (axis j r) Hr) as HK. rewrite <- axis_widen in HK. destruct (IH (widen3 r p)) as (H1 & H2 & H3); [apply (HK (coord j p)); right; reflexivity|].
  split; [exact H1|]. split.
  - intros x Hx. apply H2. split; apply (HK x (or_introl Hx)).
  - intros y [<-|Hy]; [|apply H3; exact Hy]. apply H2. split; apply (HK (coord j p)); right; reflexivity.
Qed.
(** The range found without a box size contains all particles after the first, if the first coordinate of the first particle does
    not exceed its second (the range starts with these two on every axis). *)
Theorem C43_range_covers : forall ndiv p ps periodic ll, 0 < ndiv -> init ndiv (p :: ps) 0 periodic = Some ll -> (coord 0 p <= coord 1 p)%Q ->
  forall j y, In y ps -> (coord j (ll_min ll) <= coord j y <= coord j (ll_min ll) + inject_Z ndiv * coord j (ll_step ll))%Q.
Proof.
  intros ndiv [[x0 x1] x2] ps periodic ll Hd Hi Hp j y Hy. cbn [coord] in Hp. unfold init in Hi. cbn [Qeq_bool] in Hi. change (Qeq_bool 0 0) with true in Hi. cbv iota in Hi.
  pose proof (widen_all j ps ((x0, x1), (x0, x1), (x0, x1))) as HW. destruct (fold_left widen3 ps _) as [[[a0 b0] [a1 b1]] [a2 b2]] eqn:Ef. injection Hi as <-. cbn [ll_min ll_step].
  assert (Hn : ~ (inject_Z ndiv == 0)%Q) by (intros E; unfold Qeq in E; cbn in E; lia).
  destruct HW as (_ & _ & HW); [destruct j as [|[|j]]; exact Hp|]. specialize (HW y Hy).
  assert (HC : forall a b : Q, (a + inject_Z ndiv * ((b - a) / inject_Z ndiv) == b)%Q) by (intros a b; field; exact Hn).
  destruct j as [|[|j]]; cbn [axis fst snd coord] in *; rewrite HC; exact HW.
Qed.
Print Assumptions C43_range_covers.
Example C43_range_witness : exists ll, init 2 [(1, 2, 5); (3, 0, 4); (2, 2, 9)]%Q 0 false = Some ll /\ (coord 0 (1, 2, 5) <= coord 1 (1, 2, 5))%Q /\ ll_min ll = (1, 0, 1)%Q.
Proof. eexists. split; [vm_compute; reflexivity|]. split; [vm_compute; discriminate|reflexivity]. Qed.

Definition sample : list vec := [(1, 1, 1); (7, 2, 3); (1, 1, 2); (15 # 2, 15 # 2, 15 # 2)]%Q.
Definition sample_list : llist := match build 2 sample 8 true with Some ll => ll | None => Build_llist 0 false 0 (0, 0, 0)%Q (0, 0, 0)%Q [] [] [] end.
Example C43_witness : build 2 sample 8 true = Some sample_list /\ ll_hoc sample_list = [2; 1; -1; -1; -1; -1; -1; 3] /\ ll_next sample_list = [-1; -1; 0; -1] /\
  (exists ll, parallel_build 4 3 [7; 6; 5; 4; 3; 2; 1; 0] 2 sample 8 true = Done ll /\ ll_hoc ll = [2; 1; -1; -1; -1; -1; -1; 3]) /\ chain_order 2 [7; 6; 5; 4; 3; 2; 1; 0].
Proof.
  split; [vm_compute; reflexivity|]. split; [vm_compute; reflexivity|]. split; [vm_compute; reflexivity|]. split; [eexists; split; [vm_compute; reflexivity|vm_compute; reflexivity]|].
  unfold chain_order. change (map Z.of_nat (seq 0 (Z.to_nat (2 * 2 * 2)))) with [0; 1; 2; 3; 4; 5; 6; 7]. apply (Permutation_rev [7; 6; 5; 4; 3; 2; 1; 0]).
Qed.

(** C44: the searches find exactly the particles they should, with the squared distance; and each of them once, if the
    region does not overlap with itself in the periodic box.  Positions are in the box if it is periodic. *)
Theorem C44_sphere : forall (ndiv : Z) (ps : list vec) (L : Q) (periodic : bool) (ll : llist) (fuel : nat) (r : Q) (x : vec),
  0 < ndiv -> (0 < L)%Q -> list_of ndiv ps L periodic ll -> (length ps <= fuel)%nat -> (0 <= r)%Q ->
  dom periodic L x -> Forall (dom periodic L) ps ->
  exists found, sphere ll L fuel r x = Done found /\ finds (in_ball periodic L x r) ps found /\
    ((periodic = true -> 2 * r + L / inject_Z ndiv <= L)%Q -> NoDup (map fst found)).
Proof.
  intros ndiv ps L periodic ll fuel r x Hd HL HO Hf Hr Dx Dp. apply list_of_built in HO as (Hl & Hg & E1 & E2 & E3 & E4 & _ & Es); [|assumption|assumption].
  destruct (sphere_by ll L fuel r x Hl Hg) as (found & E & HN & HE); [rewrite E4; reflexivity|rewrite E1; exact Hf|exact Hr|]. exists found. split; [exact E|]. rewrite E1, E3 in HE. split.
  - apply (every_finds (dom periodic L) (ball_of periodic L x r)); [apply ball_accepts; auto|exact Dp|exact HE].
  - intros Hn. apply HN. intros Hp j. rewrite E3 in Hp. specialize (Hn Hp). rewrite coord_const, Es, E4. unfold Qdiv in *. lra.
Qed.
Print Assumptions C44_sphere.
Theorem C44_shell : forall (ndiv : Z) (ps : list vec) (L : Q) (periodic : bool) (ll : llist) (fuel : nat) (rmin rmax : Q) (x : vec),
  0 < ndiv -> (0 < L)%Q -> list_of ndiv ps L periodic ll -> (length ps <= fuel)%nat -> (0 <= rmax)%Q ->
  dom periodic L x -> Forall (dom periodic L) ps ->
  exists found, shell ll L fuel rmin rmax x = Done found /\
    ((0 < rmin)%Q -> finds (in_shell periodic L x rmin rmax) ps found) /\ ((rmin <= 0)%Q -> finds (in_ball periodic L x rmax) ps found) /\
    ((periodic = true -> 2 * rmax + L / inject_Z ndiv <= L)%Q -> NoDup (map fst found)).
Proof.
  intros ndiv ps L periodic ll fuel rmin rmax x Hd HL HO Hf Hr Dx Dp. apply list_of_built in HO as (Hl & Hg & E1 & E2 & E3 & E4 & _ & Es); [|assumption|assumption].
  destruct (shell_by ll L fuel rmin rmax x Hl Hg) as (found & E & HN & HE); [rewrite E4; reflexivity|rewrite E1; exact Hf|exact Hr|]. exists found. split; [exact E|]. rewrite E1, E3, E4 in HE.
  split; [|split].
  - intros H. destruct (Qle_bool rmin 0) eqn:E0; [apply Qle_bool_iff in E0; exfalso; lra|]. apply (every_finds (dom periodic L) (shell_of periodic L x rmin rmax)); [apply shell_accepts; auto|exact Dp|exact HE].
  - intros H. destruct (Qle_bool rmin 0) eqn:E0; [|apply Qle_bool_false in E0; exfalso; lra]. apply (every_finds (dom periodic L) (ball_of periodic L x rmax)); [apply ball_accepts; auto|exact Dp|exact HE].
  - intros Hn. apply HN. intros Hp j. rewrite E3 in Hp. specialize (Hn Hp). rewrite coord_const, Es, E4. unfold Qdiv in *. lra.
Qed.
Print Assumptions C44_shell.
Theorem C44_cylinder : forall (ndiv : Z) (ps : list vec) (L : Q) (periodic : bool) (ll : llist) (fuel : nat) (rz rp : Q) (x : vec),
  0 < ndiv -> (0 < L)%Q -> list_of ndiv ps L periodic ll -> (length ps <= fuel)%nat -> (0 <= rz)%Q -> (0 <= rp)%Q ->
  dom periodic L x -> Forall (dom periodic L) ps ->
  exists found, cylinder ll L fuel rz rp x = Done found /\ finds (in_cylinder periodic L x rz rp) ps found /\
    ((periodic = true -> 2 * rz + L / inject_Z ndiv <= L /\ 2 * rp + L / inject_Z ndiv <= L)%Q -> NoDup (map fst found)).
Proof.
  intros ndiv ps L periodic ll fuel rz rp x Hd HL HO Hf Hz Hr Dx Dp. apply list_of_built in HO as (Hl & Hg & E1 & E2 & E3 & E4 & _ & Es); [|assumption|assumption].
  destruct (cylinder_by ll L fuel rz rp x Hl Hg) as (found & E & HN & HE); [rewrite E4; reflexivity|rewrite E1; exact Hf|exact Hz|exact Hr|]. exists found. split; [exact E|]. rewrite E1, E3 in HE. split.
  - apply (every_finds (dom periodic L) (cylinder_of periodic L x rz rp)); [apply cylinder_accepts; auto|exact Dp|exact HE].
  - intros Hn. apply HN. intros Hp j. rewrite E3 in Hp. specialize (Hn Hp). rewrite Es, E4. unfold Qdiv in *. destruct j as [|[|j]]; cbn [coord]; lra.
Qed.
Print Assumptions C44_cylinder.

(** The lists of several threads, each with a sample of the particles, searched in any order: the same result. *)
Lemma para_any T lists lists' ndiv ps L periodic search g N : (0 < T)%nat -> 0 < ndiv -> (0 < L)%Q ->
  build_lattice (Z.of_nat T) (map Z.of_nat (seq 0 T)) ndiv ps L periodic = Some lists -> Permutation lists lists' ->
  (forall ll, linked ll -> good ll -> ll_periodic ll = periodic -> ll_box ll = L -> (forall j, coord j (ll_step ll) = (L - 0) / inject_Z ndiv)%Q -> (length (ll_ps ll) <= length ps)%nat ->
     exists found, search ll = Done found /\ (N -> NoDup (map fst found)) /\ every g (ll_ps ll) found) ->
  exists found, para_search T search lists' = Done found /\ (N -> NoDup (map fst found)) /\ every g ps found.
Proof.
  intros HT Hd HL EB HP HS. assert (Hts : forall t, In t (map Z.of_nat (seq 0 T)) <-> 0 <= t < Z.of_nat T). { intros t. rewrite in_map_iff. split; [intros (k & <- & Hk); apply in_seq in Hk; lia|]. intros Ht. exists (Z.to_nat t). rewrite in_seq. lia. }
  destruct (build_lattice_ok (Z.of_nat T) ndiv ps L periodic (map Z.of_nat (seq 0 T)) ltac:(lia) Hd HL (fun t H => proj1 (Hts t) H)) as (lists0 & EB' & Em & HI). rewrite EB in EB'. injection EB' as <-.
  apply (para_ok T search lists' ps g N HT).
  - apply (Permutation_NoDup (Permutation_map fst HP)). rewrite Em. apply FinFun.Injective_map_NoDup; [intros a b Hab; lia|apply seq_NoDup].
  - intros t. rewrite <- Hts, <- Em. split; apply Permutation_in; [apply Permutation_sym|]; apply Permutation_map; exact HP.
  - intros t ll Hin. apply (Permutation_in _ (Permutation_sym HP)) in Hin. destruct (HI t ll Hin) as (Hl & Hg & E1 & E2 & E3 & E4 & E5). destruct (HS ll Hl Hg E1 E2 E3 E4) as (found & E & HN & HE). exists found. split; [exact E|]. split; [exact HN|].
    intros p v. rewrite (HE p v). split.
    + intros (y & Ey & Eg). exists y. assert (Hp : 0 <= p) by (apply zget_some in Ey; lia). rewrite <- E5 by exact Hp. auto.
    + intros (y & Hp & Ey & Eg). exists y. rewrite E5 by exact Hp. auto.
Qed.
Theorem C44_threads : forall (T : nat) (lists lists' : list (Z * llist)) (ndiv : Z) (ps : list vec) (L : Q) (periodic : bool) (fuel : nat) (rmin rmax rz rp : Q) (x : vec),
  (0 < T)%nat -> 0 < ndiv -> (0 < L)%Q -> (length ps <= fuel)%nat -> (0 < rmin)%Q -> (0 <= rmax)%Q -> (0 <= rz)%Q -> (0 <= rp)%Q -> dom periodic L x -> Forall (dom periodic L) ps ->
  build_lattice (Z.of_nat T) (map Z.of_nat (seq 0 T)) ndiv ps L periodic = Some lists -> Permutation lists lists' ->
  (exists found, para_search T (fun ll => shell ll L fuel (-1) rmax x) lists' = Done found /\ finds (in_ball periodic L x rmax) ps found /\
     ((periodic = true -> 2 * rmax + L / inject_Z ndiv <= L)%Q -> NoDup (map fst found))) /\
  (exists found, para_search T (fun ll => shell ll L fuel rmin rmax x) lists' = Done found /\ finds (in_shell periodic L x rmin rmax) ps found /\
     ((periodic = true -> 2 * rmax + L / inject_Z ndiv <= L)%Q -> NoDup (map fst found))) /\
  (exists found, para_search T (fun ll => cylinder ll L fuel rz rp x) lists' = Done found /\ finds (in_cylinder periodic L x rz rp) ps found /\
     ((periodic = true -> 2 * rz + L / inject_Z ndiv <= L /\ 2 * rp + L / inject_Z ndiv <= L)%Q -> NoDup (map fst found))).
Proof.
  intros T lists lists' ndiv ps L periodic fuel rmin rmax rz rp x HT Hd HL Hf Hm Hr Hz Hp Dx Dp EB HP.
  assert (HS : forall m, exists found, para_search T (fun ll => shell ll L fuel m rmax x) lists' = Done found /\ ((periodic = true -> 2 * rmax + L / inject_Z ndiv <= L)%Q -> NoDup (map fst found)) /\ every (if Qle_bool m 0 then ball_of periodic L x rmax else shell_of periodic L x m rmax) ps found).
  { intros m. apply (para_any T lists lists' ndiv ps L periodic _ _ _ HT Hd HL EB HP). intros ll Hl Hg E1 E2 E3 E4. destruct (shell_by ll L fuel m rmax x Hl Hg) as (found & E & HN & HE); [rewrite E2; reflexivity|lia|exact Hr|].
    exists found. split; [exact E|]. split; [|rewrite E1, E2 in HE; exact HE]. intros Hn. apply HN. intros Hper j. rewrite E1 in Hper. specialize (Hn Hper). rewrite coord_const, E3, E2. unfold Qdiv in *. lra. }
  split; [|split].
  - destruct (HS (-1)%Q) as (found & E & HN & HE). exists found. split; [exact E|]. split; [|exact HN]. apply (every_finds (dom periodic L) (ball_of periodic L x rmax)); [apply ball_accepts; auto|exact Dp|exact HE].
  - destruct (HS rmin) as (found & E & HN & HE). exists found. split; [exact E|]. split; [|exact HN]. destruct (Qle_bool rmin 0) eqn:E0; [apply Qle_bool_iff in E0; exfalso; lra|]. apply (every_finds (dom periodic L) (shell_of periodic L x rmin rmax)); [apply shell_accepts; auto|exact Dp|exact HE].
  - destruct (para_any T lists lists' ndiv ps L periodic (fun ll => cylinder ll L fuel rz rp x) (cylinder_of periodic L x rz rp) (periodic = true -> 2 * rz + L / inject_Z ndiv <= L /\ 2 * rp + L / inject_Z ndiv <= L)%Q HT Hd HL EB HP) as (found & E & HN & HE).
    + intros ll Hl Hg E1 E2 E3 E4. destruct (cylinder_by ll L fuel rz rp x Hl Hg) as (found & E & HN & HE); [rewrite E2; reflexivity|lia|exact Hz|exact Hp|].
      exists found. split; [exact E|]. split; [|rewrite E1 in HE; exact HE]. intros Hn. apply HN. intros Hper j. rewrite E1 in Hper. specialize (Hn Hper). rewrite E3, E2. unfold Qdiv in *. destruct j as [|[|j]]; cbn [coord]; lra.
    + exists found. split; [exact E|]. split; [|exact HN]. apply (every_finds (dom periodic L) (cylinder_of periodic L x rz rp)); [apply cylinder_accepts; auto|exact Dp|exact HE].
Qed.
Print Assumptions C44_threads.
(** ... and the lists of the threads can always be built. *)
Theorem C44_threads_built : forall (T : nat) (ndiv : Z) (ps : list vec) (L : Q) (periodic : bool), (0 < T)%nat -> 0 < ndiv -> (0 < L)%Q ->
  exists lists, build_lattice (Z.of_nat T) (map Z.of_nat (seq 0 T)) ndiv ps L periodic = Some lists /\ length lists = T.
Proof.
  intros T ndiv ps L periodic HT Hd HL. destruct (build_lattice_ok (Z.of_nat T) ndiv ps L periodic (map Z.of_nat (seq 0 T)) ltac:(lia) Hd HL) as (lists & E & Em & _).
  - intros t Hin. apply in_map_iff in Hin as (k & <- & Hk). apply in_seq in Hk. lia.
  - exists lists. split; [exact E|]. rewrite <- (map_length fst), Em, map_length, seq_length. reflexivity.
Qed.
Print Assumptions C44_threads_built.

Example C44_witness : exists found, sphere sample_list 8 4 3 (1 # 2, 1, 2)%Q = Done found /\ map fst found = [1; 2; 0] /\
  list_of 2 sample 8 true sample_list /\ dom true 8 (1 # 2, 1, 2)%Q /\ Forall (dom true 8) sample /\ ~ (2 * 3 + 8 / inject_Z 2 <= 8)%Q /\ (2 * 2 + 8 / inject_Z 2 <= 8)%Q.
Proof.
  eexists. split; [vm_compute; reflexivity|]. split; [reflexivity|]. split; [left; vm_compute; reflexivity|]. split; [intros _ [|[|j]]; cbn; lra|]. split.
  - repeat (constructor; [intros _ [|[|j]]; cbn; lra|]). constructor.
  - split; vm_compute; congruence.
Qed.

(** If the region overlaps with itself in the periodic box, a particle is reported several times: here eight times. *)
Theorem C44_wide_search_refuted : exists found, list_of 2 sample 8 true sample_list /\ sphere sample_list 8 4 5 (1, 1, 1)%Q = Done found /\ count_occ Z.eq_dec (map fst found) 3 = 8%nat.
Proof. eexists. split; [left; vm_compute; reflexivity|]. split; [vm_compute; reflexivity|reflexivity]. Qed.
Print Assumptions C44_wide_search_refuted.
(** The search of a shell is announced as inclusive (src/linkedlist_base.cpp:90); a particle at the outer radius is not found. *)
Theorem C44_shell_inclusive_refuted : exists ll, list_of 2 [(1, 1, 1); (3, 1, 1); (2, 1, 1)]%Q 8 false ll /\ shell ll 8 4 1 2 (1, 1, 1)%Q = Done [].
Proof. eexists. split; [left; vm_compute; reflexivity|vm_compute; reflexivity]. Qed.
Print Assumptions C44_shell_inclusive_refuted.
(** Without a box size, particles may be missed: the range of an axis starts with the first and the second coordinate of
    particle 0 instead of its coordinate on the axis (src/linkedlist_base.cpp:48-50). *)
Theorem C44_auto_range_refuted : exists ndiv ps ll x, build ndiv ps 0 false = Some ll /\ In x ps /\ sphere ll 0 (length ps) 1 x = Done [].
Proof.
  exists 4, [(10, 0, 5)]%Q. eexists. exists (10, 0, 5)%Q. split; [vm_compute; reflexivity|]. split; [left; reflexivity|vm_compute; reflexivity].
Qed.
Print Assumptions C44_auto_range_refuted.

(** C45: with at least 100 particles, the groups found are the connected components of the particles closer than the linking
    length; the tag of a particle is the number of its group, and the sizes are appended to the given list. *)
Lemma near_friends ll L link p q : good ll -> (0 < L)%Q -> L = ll_box ll -> Forall (dom (ll_periodic ll) L) (ll_ps ll) -> near ll L link p q <-> friends (ll_periodic ll) L link (ll_ps ll) p q.
Proof.
  intros Hg HL EL Dp. assert (D : forall p y, zget (ll_ps ll) p = Some y -> dom (ll_periodic ll) L y). { intros k y Ey. pose proof (zget_some _ _ _ Ey). rewrite zget_nat in Ey by lia. apply nth_error_In in Ey. rewrite Forall_forall in Dp. auto. } split.
  - intros H. apply near_sym in H; [|exact Hg|rewrite EL; reflexivity]. destruct H as (y & x & Ey & Ex & H). exists x, y, (norm2 (apart (ll_periodic ll) L x y)). split; [exact Ex|]. split; [exact Ey|]. split; [|exact H]. apply apart_least; [apply (D p); exact Ex|apply (D q); exact Ey|auto].
  - intros (x & y & r2 & Ex & Ey & Hr & Hlt). apply near_sym; [exact Hg|rewrite EL; reflexivity|]. exists y, x. split; [exact Ey|]. split; [exact Ex|].
    pose proof (apart_least (ll_periodic ll) L x y (D p x Ex) (D q y Ey) ltac:(auto)) as HA. pose proof (least_unique _ _ _ _ _ _ Hr HA). lra.
Qed.
Lemma clos_ext (R R' : Z -> Z -> Prop) : (forall i j, R i j -> R' i j) -> forall i j, clos_refl_trans Z R i j -> clos_refl_trans Z R' i j.
Proof. intros H i j HC. induction HC as [p q Hpq|p|p q s _ IH1 _ IH2]; [apply rt_step, H, Hpq|apply rt_refl|apply rt_trans with q; assumption]. Qed.
Lemma components_ext n R R' tags sizes : (forall i j, R i j <-> R' i j) -> components n R tags sizes -> components n R' tags sizes.
Proof.
  intros H (A & B & C & D). split; [exact A|]. split; [|auto]. intros i j ti tj Ei Ej. rewrite (B i j ti tj Ei Ej). split; apply clos_ext; intros a b; apply H.
Qed.
Theorem C45_groups : forall (fuel T : nat) (order : list Z) (ndiv : Z) (L : Q) (periodic : bool) (link : Q) (ps : list vec) (grplen : list Z),
  (100 <= length ps)%nat -> (2 * length ps < fuel)%nat -> (0 < T)%nat -> chain_order ndiv order -> 0 < ndiv -> (0 < L)%Q -> (0 <= link)%Q -> Forall (dom periodic L) ps ->
  exists tags sizes, link_group fuel T order ndiv L periodic link ps grplen = Done (tags, grplen ++ sizes) /\ components (length ps) (friends periodic L link ps) tags sizes.
Proof.
  intros fuel T order ndiv L periodic link ps grplen Hn Hf HT HO Hd HL Hlk Dp. unfold link_group. destruct (parallel_ok fuel T order ndiv ps L periodic HT Hd HL HO ltac:(lia)) as (ll & E & Hl & Hg & E1 & E2 & E3 & E4 & _).
  rewrite E. cbn [rbind]. set (st := Z.quot (Z.of_nat (length ps)) 100). assert (Hst : 0 < st). { unfold st. rewrite Z.quot_div_nonneg by lia. apply Z.div_str_pos. lia. }
  assert (Elen : length (ll_ps ll) = length ps) by (rewrite E1; reflexivity).
  destruct (link_loop_ok ll L link Hl Hg) with (fuel := fuel) (printstep := st) (sizes0 := grplen) (m := length ps) (i := 0%nat) (tags := repeat (-1) (length ps)) (sizes := @nil Z) (progress := st) as (tags & sizes & pr & ER & HG); [rewrite E4; reflexivity|exact Hlk|rewrite Elen; exact Hf|exact Hst|exact Hst|rewrite Elen; reflexivity| |].
  - assert (HR : forall p t, zget (repeat (-1) (length ps)) p = Some t -> t = -1). { intros p t Et. pose proof (zget_some _ _ _ Et). rewrite zget_nat in Et by lia. apply nth_error_In in Et. apply repeat_spec in Et. exact Et. }
    split; [rewrite repeat_length, Elen; reflexivity|]. split; [intros p t Et; apply HR in Et; cbn; lia|]. split; [intros p q t Et Ht; apply HR in Et; lia|]. split; [intros p q t Et _ Ht; apply HR in Et; lia|]. split; [intros g s Es; apply zget_some in Es; cbn [length] in Es; lia|]. intros p Hp. lia.
  - cbn [length] in ER. rewrite app_nil_r in ER. change (Z.of_nat 0) with 0 in ER. rewrite ER. cbn [rbind]. exists tags, sizes. split; [reflexivity|]. apply groups_components in HG. rewrite Elen in HG. revert HG. apply components_ext. intros i j. rewrite (near_friends ll L link i j Hg HL); [rewrite E1, E3; reflexivity|symmetry; exact E4|rewrite E1, E3; exact Dp].
Qed.
Print Assumptions C45_groups.
(** With 1 to 99 particles the program divides by zero when it reports its progress (src/linkedlist.cpp:141). *)
Theorem C45_few_particles_refuted : forall (fuel T : nat) (order : list Z) (ndiv : Z) (L : Q) (periodic : bool) (link : Q) (ps : list vec) (grplen : list Z),
  (0 < length ps < 100)%nat -> (length ps <= fuel)%nat -> (0 < T)%nat -> chain_order ndiv order -> 0 < ndiv -> (0 < L)%Q ->
  link_group fuel T order ndiv L periodic link ps grplen = Crash.
Proof.
  intros fuel T order ndiv L periodic link ps grplen Hn Hf HT HO Hd HL. unfold link_group. destruct (parallel_ok fuel T order ndiv ps L periodic HT Hd HL HO Hf) as (ll & E & _). rewrite E. cbn [rbind].
  replace (Z.quot (Z.of_nat (length ps)) 100) with 0 by (rewrite Z.quot_small; lia). destruct ps as [|x r]; [cbn in Hn; lia|]. reflexivity.
Qed.
Print Assumptions C45_few_particles_refuted.

Definition two_strings : list vec := map (fun k => (inject_Z (Z.of_nat k + (if (k <? 50)%nat then 0 else 10)), 1, 1)%Q) (seq 0 100).
Example C45_witness : (exists tags, link_group 201 3 (map Z.of_nat (seq 0 64)) 4 200 true (3 # 2) two_strings [7] = Done (tags, [7; 50; 50])) /\ chain_order 4 (map Z.of_nat (seq 0 64)) /\ length two_strings = 100%nat /\ Forall (dom true 200) two_strings.
Proof.
  split; [eexists; vm_compute; reflexivity|]. split; [apply Permutation_refl|]. split; [reflexivity|]. unfold two_strings. apply Forall_forall. intros x Hx. apply in_map_iff in Hx as (k & <- & Hk). apply in_seq in Hk.
  intros _ j. assert (H : (0 <= inject_Z (Z.of_nat k + (if (k <? 50)%nat then 0 else 10)) <= 200)%Q) by (destruct (k <? 50)%nat; unfold Qle, inject_Z; cbn [Qnum Qden]; lia). destruct j as [|[|j]]; cbn [coord]; [exact H|lra|lra].
Qed.
