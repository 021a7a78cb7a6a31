(** Properties C53 and C55: energies and reference frames of the unbinding loop. *)
From Coq Require Import List ZArith QArith Bool Lia Lqa Sorting.Permutation.
From Verif.Model Require Import ListMem Mpi Run Mymath Tree Unbind Frames.
From Verif.Spec Require Import Basic Octree Chains Frames.
From Verif.Proofs Require Import ListMemProofs ListExtra MymathProofs MymathProofs2 MpiProofs TreeInsert TreeResults PartitionProofs UnbindProofs LinkPara FrameProofs FrameFinal.
Import ListNotations.
Local Open Scope nat_scope.

Section Config.
  Local Notation entry := (nat * Q)%type.
  Variable body : nat -> particle.
  Variables (periodic : bool) (L : Q).
  Variables (hubble unit soft : Q) (phi : vec -> vec -> Q).
  Variable sorter : sort_site -> list entry -> list entry.
  Variables (min_part : nat) (converged : nat -> nat -> bool) (max_sample : nat) (refine : bool).
  Local Notation turn := (turn body periodic L hubble unit soft phi sorter min_part converged max_sample refine).
  Local Notation loop := (frames_loop body periodic L hubble unit soft phi sorter min_part converged max_sample refine).
  Local Notation energies := (energies body periodic L hubble unit soft phi max_sample).
  Local Notation energy_in := (energy_in body periodic L hubble unit soft phi).

  (** C53, one correction: if the energies refer to the frame [old] and to the first [last] particles, the corrected ones are
      those of a direct evaluation in the new frame with the remaining particles.  Any frames, velocities, masses. *)
  Theorem C53_correction : forall c old f last nb (l : list entry) i p e,
    let ok := fun x => periodic = true -> gathered L c x in
    (periodic = true -> 0 < L)%Q -> ok (fst old) -> ok (fst f) -> ok (p_x (body p)) -> nb <= last <= length l -> i < nb ->
    nth_error l i = Some (p, e) -> energy_in old (map fst (firstn last l)) p e ->
    exists e', nth_error (correct body periodic L hubble unit soft phi old f last nb l) i = Some (p, e') /\
      energy_in f (map fst (firstn nb l)) p e'.
  Proof.
    intros c old f last nb l i p e ok HL Ho Hf Hp Hnb Hi He HE.
    unfold correct. rewrite on_first_nth, He. cbn [option_map fst snd]. destruct (Nat.ltb_spec i nb); [|lia]. eexists. split; [reflexivity|].
    apply (direct_energy body periodic L hubble unit soft phi c HL); [exact Hf|exact Hp|]. rewrite (energy_direct body periodic L hubble unit soft phi c HL _ _ _ _ Ho Hp HE).
    rewrite <- (direct_change body periodic L hubble unit soft phi c HL old f (map fst (firstn nb l)) (map fst (firstn (last - nb) (skipn nb l))) p Hp Ho Hf). apply Qplus_comp; [|reflexivity].
    rewrite <- map_app. replace (firstn nb l ++ firstn (last - nb) (skipn nb l)) with (firstn last l); [reflexivity|].
    rewrite <- (firstn_skipn nb (firstn last l)) at 1. rewrite firstn_firstn, Nat.min_l by lia. f_equal. rewrite skipn_firstn_comm. reflexivity.
  Qed.

  (** C53, with a sample: when more particles are bound than may enter the tree, every energy is that in the potential of the first
      [max_sample] of them, whose masses are multiplied so that they stand for all, without the attraction of a particle to itself. *)
  Theorem C53_sampled : forall c st i p e0 body', (periodic = true -> 0 < L)%Q -> u_corr st = false -> 0 < max_sample < u_nb st -> u_nb st <= length (u_list st) ->
    NoDup (map fst (u_list st)) -> (periodic = true -> gathered L c (fst (u_ref st)) /\ gathered L c (p_x (body p))) -> i < u_nb st -> nth_error (u_list st) i = Some (p, e0) ->
    let sample := map fst (firstn max_sample (u_list st)) in reweighted body body' sample (u_nb st) ->
    exists e, nth_error (energies st) i = Some (p, e) /\ Verif.Spec.Frames.energy_in body' periodic L hubble unit soft phi (u_ref st) sample p e.
  Proof.
    intros c st i p e0 body' HL Hc Hm Hl Hnd Hpl Hi He sample HR. unfold Frames.energies. rewrite Hc. unfold evaluate_all. rewrite on_first_nth, He. cbn [option_map fst snd]. destruct (Nat.ltb_spec i (u_nb st)); [|lia].
    destruct (Nat.ltb_spec 0 max_sample); [|lia]. destruct (Nat.ltb_spec max_sample (u_nb st)); [|lia]. cbn [andb]. fold sample. eexists. split; [reflexivity|].
    assert (Ls : length sample = max_sample) by (unfold sample; rewrite map_length, firstn_length; lia).
    assert (Hf : placed periodic L c (fst (u_ref st))) by (intros Hp; apply Hpl; exact Hp).
    assert (Hx : placed periodic L c (p_x (body' p))) by (intros Hp; rewrite (proj1 (HR p)); apply Hpl; exact Hp).
    apply (direct_energy body' periodic L hubble unit soft phi c HL); [exact Hf|exact Hx|].
    assert (Hin : In p sample <-> i < max_sample).
    { assert (Hp : nth_error (map fst (u_list st)) i = Some p) by (rewrite nth_error_map, He; reflexivity). unfold sample. split.
      - intros HI. apply In_nth_error in HI as [k Hk]. pose proof (nth_error_lt _ _ _ Hk) as Hlt. fold sample in Hlt. rewrite Ls in Hlt. rewrite <- firstn_map, nth_firstn in Hk. destruct (Nat.ltb_spec k max_sample); [|discriminate].
        assert (k = i); [|lia]. apply (proj1 (NoDup_nth_error _) Hnd); [apply nth_error_lt in Hk; exact Hk|congruence].
      - intros HI. rewrite <- firstn_map. apply (nth_error_In _ i). rewrite nth_firstn. destruct (Nat.ltb_spec i max_sample); [exact Hp|lia]. }
    assert (Hz : ~ (inject_Z (Z.of_nat max_sample) == 0)%Q). { change 0%Q with (inject_Z 0). rewrite inject_Z_injective. lia. }
    assert (Hw : forall q, In q sample -> (p_m (body' q) == p_m (body q) * (inject_Z (Z.of_nat (u_nb st)) / inject_Z (Z.of_nat max_sample)))%Q).
    { intros q Hq. destruct (HR q) as (_ & _ & _ & A & _). specialize (A Hq). rewrite Ls in A. unfold Qdiv. rewrite Qmult_assoc, <- A. field. exact Hz. }
    unfold direct, Frames.binding. rewrite !attraction_eq. destruct (HR p) as (E1 & E2 & E3 & _ & E4). unfold placed in *. rewrite E1, E2, E3.
    rewrite (qsum_ext (fun i => p_m (body' i) * 1 * phi (p_x (body' i)) (p_x (body p)))%Q (fun i => p_m (body i) * (inject_Z (Z.of_nat (u_nb st)) / inject_Z (Z.of_nat max_sample)) * phi (p_x (body i)) (p_x (body p)))%Q).
    2:{ intros q Hq. rewrite (Hw q Hq), (proj1 (HR q)). ring. }
    apply Qplus_comp; [|reflexivity]. apply Qplus_comp; [reflexivity|]. apply Qmult_comp; [reflexivity|]. apply Qplus_comp; [|reflexivity].
    destruct (Nat.ltb_spec i max_sample) as [HI|HI]; [rewrite (Hw p (proj2 Hin HI)); reflexivity|]. rewrite E4 by (intros HJ; apply Hin in HJ; lia). reflexivity.
  Qed.

  (** States reached from [st0] by turns that, once correcting, remove fewer than half of the particles. *)
  Inductive follows (st0 : ustate) : ustate -> Prop :=
  | follows_start : follows st0 st0
  | follows_turn : forall st st', follows st0 st -> turn st = Done (inl st') -> (u_corr st = true -> small_change max_sample (u_nb st) (u_nb st') = true) -> follows st0 st'.

  (** C53, the loop: in every turn every energy, whether corrected once, corrected any number of times or evaluated anew, is the
      energy of that particle in the current frame and the potential of the particles still bound. *)
  Theorem C53_exact : forall n c f0 old st,
    (forall site l, Permutation (sorter site l) l) -> (periodic = true -> 0 < L)%Q -> max_sample = 0 \/ n <= max_sample ->
    (forall i, i < n -> (0 < p_m (body i))%Q /\ (periodic = true -> gathered L c (p_x (body i)) /\ in_domain L (p_x (body i)))) ->
    (periodic = true -> gathered L c (fst f0)) -> follows (first_state n f0 old) st ->
    forall i p e, i < u_nb st -> nth_error (energies st) i = Some (p, e) -> energy_in (u_ref st) (map fst (firstn (u_nb st) (u_list st))) p e.
  Proof.
    intros n c f0 old st Hs HL Hm Hb Hf HR.
    assert (Hb1 : forall i, i < n -> (0 < p_m (body i))%Q) by (intros k Hk; apply Hb; exact Hk).
    assert (Hb2 : forall i, i < n -> placed periodic L c (p_x (body i)) /\ (periodic = true -> in_domain L (p_x (body i)))) by (intros k Hk; split; intros Hp; apply (proj2 (Hb k Hk) Hp)).
    assert (HI : inv body periodic L hubble unit soft phi c n st).
    { induction HR as [|st st' HR IH HT Hsm].
      - eapply first_inv; eassumption.
      - eapply turn_inv; eassumption. }
    intros i p e Hi He. destruct (energies_right body periodic L hubble unit soft phi converged max_sample c HL n Hb1 Hb2 Hm st HI i p e Hi He) as [Hp E].
    apply (direct_energy body periodic L hubble unit soft phi c HL); [exact (proj1 (proj2 (proj2 HI)))|apply Hb2; exact Hp|exact E].
  Qed.

  (** The loop with these energies is one of those of C32-C38, whatever the particles [w] there. *)
  Theorem C53_refines : forall (X R : Type) (w : list (Z * X) * R) fuel n f0 old, exists energy inner,
    unbind_loop Qneg Qpos sorter energy inner min_part converged max_sample refine fuel w 0 false (map (fun i => (i, 0%Q)) (seq 0 n)) 0 n =
    rbind (loop fuel (first_state n f0 old)) (fun r => Done (fst r)).
  Proof. intros X R w fuel n f0 old. apply (sim body periodic L hubble unit soft phi sorter min_part converged max_sample refine w fuel (first_state n f0 old) 0). Qed.

  (** C55: a subhalo that survives unbinding has as average velocity the mass-weighted mean velocity, and as average position the
      mass-weighted mean position (of neighbouring images), of exactly its bound particles. *)
  Theorem C55_averages : forall n f0 old fuel l nb f,
    (forall site l, Permutation (sorter site l) l) -> (periodic = true -> 0 < L)%Q -> 1 <= min_part ->
    (forall i, i < n -> (0 < p_m (body i))%Q /\ (periodic = true -> in_domain L (p_x (body i)))) ->
    loop fuel (first_state n f0 old) = Done (Converged l nb, f) ->
    Permutation (map fst l) (seq 0 n) /\ min_part <= nb <= n /\
    mean (fun i => p_m (body i)) (fun i => p_v (body i)) (map fst (firstn nb l)) (snd f) /\
    centre periodic L (fun i => p_m (body i)) (fun i => p_x (body i)) (map fst (firstn nb l)) (fst f).
  Proof.
    intros n f0 old fuel l nb f Hs HL Hmin Hb HF.
    apply (frames_good body periodic L hubble unit soft phi sorter min_part converged max_sample refine n Hs (fun i Hi => proj1 (Hb i Hi)) HL (fun i Hi => proj2 (Hb i Hi)) Hmin fuel (first_state n f0 old) (Converged l nb, f)); [|exact HF].
    split; [cbn [first_state u_list]; rewrite map_map; cbn [fst]; rewrite map_id; reflexivity|]. cbn [first_state u_nb]. lia.
  Qed.
End Config.
Print Assumptions C53_correction.
Print Assumptions C53_sampled.
Print Assumptions C53_exact.
Print Assumptions C53_refines.
Print Assumptions C55_averages.

(** *** A periodic box of side 10 with six particles around its corner, one of them fast and one less so. *)
Definition w_body (i : nat) : particle :=
  let mk a b v := {| p_x := (a, b, 5)%Q; p_v := (v, 0, 0)%Q; p_m := 1%Q; p_u := 0%Q |} in
  nth i [mk (99 # 10) 0 0; mk (1 # 10) 0 0; mk 0 (98 # 10) (1 # 2); mk 0 (2 # 10) (-1 # 2); mk (1 # 5) (1 # 10) (3 # 2); mk (1 # 10) (1 # 10) 6]%Q (mk 0 0 0)%Q.
Definition w_f0 : frame := ((0, 0, 5)%Q, (0, 0, 0)%Q).
Definition w_turn := turn w_body true 10 1 (1 # 2) 1 (fun _ _ => (-1)%Q) (fun _ l => l) 2 (converged_q (9 # 10)) 0 false.
Definition w_next (st : ustate) : ustate := match w_turn st with Done (inl st') => st' | _ => st end.
Definition w_loop := frames_loop w_body true 10 1 (1 # 2) 1 (fun _ _ => (-1)%Q) (fun _ l => l) 2 (converged_q (9 # 10)) 0 false.
Definition w0 : ustate := first_state 6 w_f0 w_f0.
Example C53_witness :
  (forall i, i < 6 -> (0 < p_m (w_body i))%Q /\ (true = true -> gathered 10 (0, 0, 5)%Q (p_x (w_body i)) /\ in_domain 10 (p_x (w_body i)))) /\ gathered 10 (0, 0, 5)%Q (fst w_f0) /\
  follows w_body true 10 1 (1 # 2) 1 (fun _ _ => (-1)%Q) (fun _ l => l) 2 (converged_q (9 # 10)) 0 false w0 (w_next w0) /\ u_corr (w_next w0) = true /\ u_nb (w_next w0) < 6.
Proof.
  assert (G : forall x, (forall j, (0 <= coord j x <= 10) /\ exists k, (- (1 # 8) * 10 <= coord j x + inject_Z k * 10 - coord j (0, 0, 5) <= (1 # 8) * 10))%Q -> gathered 10 (0, 0, 5)%Q x).
  { intros x H j. destruct (H j) as [H1 H2]. split; [lra|exact H2]. }
  split; [|split].
  - intros i Hi. split; [do 6 (destruct i as [|i]; [reflexivity|]); lia|]. intros _. split.
    + apply G. intros j. do 6 (destruct i as [|i]; [destruct j as [|[|j]]; (split; [split; vm_compute; discriminate|first [exists 0%Z; split; vm_compute; discriminate|exists (-1)%Z; split; vm_compute; discriminate]])|]); lia.
    + intros j. do 6 (destruct i as [|i]; [destruct j as [|[|j]]; split; vm_compute; congruence|]); lia.
  - apply G. intros j. destruct j as [|[|j]]; (split; [split; vm_compute; discriminate|exists 0%Z; split; vm_compute; discriminate]).
  - split; [|split; [reflexivity|vm_compute; lia]]. eapply follows_turn; [apply follows_start| |discriminate]. vm_compute. reflexivity.
Qed.
(** Two of the six particles stand for all, with three times their mass. *)
Definition w_heavy (q : nat) : particle := {| p_x := p_x (w_body q); p_v := p_v (w_body q); p_m := (if q <? 2 then 3 else 0)%Q; p_u := p_u (w_body q) |}.
Example C53_sampled_witness : u_corr w0 = false /\ 0 < 2 < u_nb w0 /\ u_nb w0 <= length (u_list w0) /\ NoDup (map fst (u_list w0)) /\
  map fst (firstn 2 (u_list w0)) = [0; 1] /\ reweighted w_body w_heavy [0; 1] (u_nb w0) /\
  nth_error (energies w_body true 10 1 (1 # 2) 1 (fun _ _ => (-1)%Q) 2 w0) 3 <> nth_error (energies w_body true 10 1 (1 # 2) 1 (fun _ _ => (-1)%Q) 0 w0) 3.
Proof.
  split; [reflexivity|]. split; [cbn; lia|]. split; [cbn; lia|]. split; [cbn; repeat constructor; cbn; intuition lia|]. split; [reflexivity|]. split; [|vm_compute; discriminate].
  intros q. repeat (split; [reflexivity|]). split.
  - intros [<-|[<-|[]]]; reflexivity.
  - intros H. destruct q as [|[|q]]; [cbn in H; tauto|cbn in H; tauto|reflexivity].
Qed.
Example C55_witness : exists l f, w_loop 9 w0 = Done (Converged l 5, f).
Proof. eexists. eexists. vm_compute. reflexivity. Qed.

(** The condition on the turns in C53 cannot be dropped (finding): a turn that corrects and removes half or more of the particles
    leaves the old frame of an earlier turn in OldRefPos/OldRefVel, but the next turn corrects again. *)
Definition s_body (i : nat) : particle :=
  {| p_x := (0, 0, 0)%Q; p_v := (nth i [100; 100; 100; 100; 100; -5 # 2; -5 # 2; 5 # 2; 5 # 2; 1 # 2; 1 # 2] 0, 0, 0)%Q; p_m := 1%Q; p_u := 0%Q |}.
Definition s_phi (_ _ : vec) : Q := (-1)%Q.
Theorem C53_stale_frame_refuted : exists st0 st1 st2 i p e,
  let turn := turn s_body false 0 0 (1 # 2) 1 s_phi (fun _ l => l) 2 (converged_q 1) 0 false in
  st0 = first_state 11 ((0, 0, 0)%Q, (0, 0, 0)%Q) ((0, 0, 0)%Q, (0, 0, 0)%Q) /\ turn st0 = Done (inl st1) /\ turn st1 = Done (inl st2) /\
  i < u_nb st2 /\ nth_error (energies s_body false 0 0 (1 # 2) 1 s_phi 0 st2) i = Some (p, e) /\
  ~ energy_in s_body false 0 0 (1 # 2) 1 s_phi (u_ref st2) (map fst (firstn (u_nb st2) (u_list st2))) p e.
Proof.
  set (st0 := first_state 11 ((0, 0, 0)%Q, (0, 0, 0)%Q) ((0, 0, 0)%Q, (0, 0, 0)%Q)).
  let r := eval vm_compute in (turn s_body false 0 0 (1 # 2) 1 s_phi (fun _ l => l) 2 (converged_q 1) 0 false st0) in match r with Done (inl ?st1) =>
    let r2 := eval vm_compute in (turn s_body false 0 0 (1 # 2) 1 s_phi (fun _ l => l) 2 (converged_q 1) 0 false st1) in match r2 with Done (inl ?st2) =>
      let e := eval vm_compute in (nth_error (energies s_body false 0 0 (1 # 2) 1 s_phi 0 st2) 0) in match e with Some (?p, ?e) => exists st0, st1, st2, 0, p, e end end end.
  cbn zeta. split; [reflexivity|]. split; [vm_compute; reflexivity|]. split; [vm_compute; reflexivity|]. split; [vm_compute; lia|]. split; [vm_compute; reflexivity|].
  intros (d0 & d1 & d2 & _ & _ & _ & H). cbn zeta in H. cbv beta in H. assert (HZ : forall a d : Q, (a + 0 * d == a)%Q) by (intros; ring). rewrite !HZ in H. vm_compute in H. discriminate.
Qed.
Print Assumptions C53_stale_frame_refuted.
