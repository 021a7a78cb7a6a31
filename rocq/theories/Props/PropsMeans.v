(** C67 and C68: averages over the particles of a subhalo. *)
From Coq Require Import List ZArith QArith Bool Lia Lqa Sorting.Permutation.
From Verif.Model Require Import Mymath Tree Means.
From Verif.Spec Require Import Basic Octree Chains Means.
From Verif.Proofs Require Import MymathProofs2 TreeResults MeanProofs.
Import ListNotations.
Local Open Scope Q_scope.

(** * C67: average positions and velocities *)
(** Of particles that have images within half a box of each other, AveragePosition (serial or parallel) finds the mass-weighted
    mean of these images, up to a number of boxes. *)
Theorem C67_mean_position : forall (periodic : bool) (L : Q) (parts : list body) (threads : list (list body)) (before : vec) (y : body -> vec),
  parts <> [] -> ~ wsum b_m parts == 0 -> Permutation (concat threads) parts -> in_box periodic L parts -> unfolds periodic L parts y ->
  exists a m, average_position periodic L parts threads before = Some (a, m) /\ m == wsum b_m parts /\
    forall j, exists c, is_mean parts (fun p => coord j (y p)) c /\ at_image periodic L (coord j a) c.
Proof. exact position_ok. Qed.
Print Assumptions C67_mean_position.
(** So it does not matter which particle comes first, nor how the work is divided. *)
Theorem C67_any_order : forall (periodic : bool) (L : Q) (parts parts' : list body) (threads threads' : list (list body)) (before before' : vec) (y : body -> vec) a m a' m',
  ~ wsum b_m parts == 0 -> Permutation (concat threads) parts -> Permutation (concat threads') parts' -> Permutation parts parts' -> in_box periodic L parts -> unfolds periodic L parts y ->
  average_position periodic L parts threads before = Some (a, m) -> average_position periodic L parts' threads' before' = Some (a', m') ->
  m == m' /\ forall j, at_image periodic L (coord j a) (coord j a').
Proof.
  intros periodic L parts parts' ts ts' b b' y a m a' m' HM HP HP' HPP HB HU E E'.
  assert (Hne : parts <> []) by (intros ->; apply HM; reflexivity). assert (Hne' : parts' <> []) by (intros ->; apply Permutation_sym, Permutation_nil in HPP; contradiction).
  destruct (position_ok periodic L parts ts b y Hne HM HP HB HU) as (a1 & m1 & E1 & Hm1 & H1).
  assert (HM' : ~ wsum b_m parts' == 0) by (rewrite <- (wsum_perm b_m _ _ HPP); exact HM). assert (HI : forall p, In p parts' -> In p parts) by (intros p; apply Permutation_in, Permutation_sym, HPP).
  destruct (position_ok periodic L parts' ts' b' y Hne' HM' HP') as (a2 & m2 & E2 & Hm2 & H2).
  { intros Hp. destruct (HB Hp) as [HL Hx]. split; [exact HL|]. intros p j Hp'. apply Hx, HI, Hp'. }
  { unfold unfolds in *. destruct periodic; [destruct HU as [U1 U2]; split|]; intros; auto. }
  rewrite E in E1. injection E1 as <- <-. rewrite E' in E2. injection E2 as <- <-. split; [rewrite Hm1, Hm2; apply wsum_perm, HPP|].
  intros j. destruct (H1 j) as (c & Hc & Hi). destruct (H2 j) as (c' & Hc' & Hi'). apply (mean_perm _ _ _ _ (Permutation_sym HPP)) in Hc'. pose proof (mean_unique _ _ _ _ HM Hc Hc') as Ecc.
  unfold at_image in *. destruct periodic; [|rewrite Hi, Hi'; exact Ecc]. destruct Hi as [k Hk]. destruct Hi' as [k' Hk']. exists (k - k')%Z. unfold Zminus. rewrite inject_Z_plus, inject_Z_opp, Hk, Hk', Ecc. ring.
Qed.
Print Assumptions C67_any_order.
Theorem C67_mean_velocity : forall (parts : list body) (threads : list (list body)) (before : vec), parts <> [] -> ~ wsum b_m parts == 0 -> Permutation (concat threads) parts ->
  exists v m, average_velocity parts threads before = Some (v, m) /\ m == wsum b_m parts /\ forall j, is_mean parts (fun p => coord j (b_v p)) (coord j v).
Proof. exact velocity_ok. Qed.
Print Assumptions C67_mean_velocity.
(** AverageCoordinates: the first particle and the means of the first Nbound. *)
Theorem C67_coordinates : forall (periodic : bool) (L : Q) (parts : list body) (nbound : nat) (mb mbv av avv : vec) (y : body -> vec) (p0 : body),
  (1 <= nbound <= length parts)%nat -> nth_error parts 0 = Some p0 -> let bound := firstn nbound parts in ~ wsum b_m bound == 0 -> in_box periodic L bound -> unfolds periodic L bound y ->
  exists x v, average_coordinates periodic L parts nbound mb mbv av avv = Some (b_x p0, b_v p0, x, v) /\
    forall j, is_mean bound (fun p => coord j (b_v p)) (coord j v) /\ exists c, is_mean bound (fun p => coord j (y p)) c /\ at_image periodic L (coord j x) c.
Proof.
  intros periodic L parts nb mb mbv av avv y p0 Hn Hp0 bound HM HB HU. assert (Hne : bound <> []) by (intros E; apply HM; rewrite E; reflexivity).
  assert (HP : Permutation (concat [bound]) bound) by (cbn [concat]; rewrite app_nil_r; apply Permutation_refl).
  destruct (position_ok periodic L bound [bound] av y Hne HM HP HB HU) as (x & m & E & _ & HX). destruct (velocity_ok bound [bound] avv Hne HM HP) as (v & m' & E' & _ & HV).
  exists x, v. unfold average_coordinates. rewrite (proj2 (Nat.ltb_ge _ _)) by lia. fold bound. destruct parts as [|q r]; [discriminate|]. injection Hp0 as ->. rewrite E, E'. split; [reflexivity|]. intros j. split; [apply HV|apply HX].
Qed.
Print Assumptions C67_coordinates.
(** The core of a host: mean and dispersion of its first particles, at most 20.  The dispersion is the mean squared distance from
    the mean, so its root exists. *)
Theorem C67_core : forall (periodic : bool) (L : Q) (parts : list body) (nbound : nat) (before before' : vec) (y : body -> vec),
  (1 <= nbound <= length parts)%nat -> let core := firstn (Nat.min nbound 20) parts in ~ wsum b_m core == 0 -> in_box periodic L core -> unfolds periodic L core y ->
  exists a s2 c v t2, build_position periodic L parts nbound before = Some (a, s2) /\ build_velocity parts nbound before' = Some (v, t2) /\
    (forall j, is_mean core (fun p => coord j (y p)) (coord j c) /\ at_image periodic L (coord j a) (coord j c) /\ is_mean core (fun p => coord j (b_v p)) (coord j v)) /\
    s2 * wsum b_m core == wsum (fun p => b_m p * gap2 (y p) c) core /\ t2 * wsum b_m core == wsum (fun p => b_m p * gap2 (b_v p) v) core /\
    ((forall p, In p core -> 0 <= b_m p) -> 0 <= s2 /\ 0 <= t2).
Proof.
  intros periodic L parts nb bf bf' y Hn core HM HB HU. change core with (firstn (Nat.min nb core_max) parts) in *.
  destruct (build_position_ok periodic L parts nb bf y Hn HM HB HU) as (a & s2 & c & E & H & HS). destruct (build_velocity_ok parts nb bf' Hn HM) as (v & t2 & E' & H' & HT).
  exists a, s2, c, v, t2. split; [exact E|]. split; [exact E'|]. split; [intros j; destruct (H j); auto|]. split; [exact HS|]. split; [exact HT|]. intros Hm. split; eapply dispersion_nonneg; eassumption.
Qed.
Print Assumptions C67_core.
(** Two particles on both sides of the border, with images 97 - 100 and 1. *)
Definition c67_parts := [mkbody (97, 2, 5) (1, 0, 0) 1; mkbody (1, 2, 7) (4, 0, 3) 2].
Definition c67_y (p : body) : vec := let '(x0, x1, x2) := b_x p in ((if Qle_bool 50 x0 then x0 - 100 else x0), x1, x2).
Example C67_witness : c67_parts <> [] /\ ~ wsum b_m c67_parts == 0 /\ in_box true 100 c67_parts /\ unfolds true 100 c67_parts c67_y /\
  option_map (fun am => (vmap Qred (fst am), Qred (snd am))) (average_position true 100 c67_parts [c67_parts] (0, 0, 0)) = Some ((299 # 3, 2, 19 # 3), 3) /\
  option_map (fun am => (vmap Qred (fst am), Qred (snd am))) (build_position true 100 c67_parts 2 (0, 0, 0)) = Some ((299 # 3, 2, 19 # 3), 40 # 9).
Proof.
  split; [discriminate|]. split; [discriminate|]. split; [|split; [|split; vm_compute; reflexivity]].
  - intros _. split; [reflexivity|]. intros p j [<-|[<-|[]]]; destruct j as [|[|?]]; cbn; split; discriminate.
  - split.
    + intros p j [<-|[<-|[]]]; destruct j as [|[|?]]; cbn; [exists (-1)%Z|exists 0%Z|exists 0%Z|exists 0%Z|exists 0%Z|exists 0%Z]; reflexivity.
    + intros p q j [<-|[<-|[]]] [<-|[<-|[]]]; destruct j as [|[|?]]; cbn; split; reflexivity.
Qed.
(** Without such images the result depends on which particle comes first. *)
Theorem C67_wide_refuted : exists (L : Q) (parts parts' : list body) a m a' m', ~ wsum b_m parts == 0 /\ in_box true L parts /\ Permutation parts parts' /\
  average_position true L parts [parts] (0, 0, 0) = Some (a, m) /\ average_position true L parts' [parts'] (0, 0, 0) = Some (a', m') /\ ~ same_image L (coord 0 a) (coord 0 a').
Proof.
  set (p := fun x => mkbody (x, 0, 0) (0, 0, 0) 1). exists 100, [p 0; p 40; p 80], [p 40; p 0; p 80]. do 4 eexists. split; [discriminate|]. split.
  { intros _. split; [reflexivity|]. intros q j [<-|[<-|[<-|[]]]]; destruct j as [|[|?]]; cbn; split; discriminate. }
  split; [apply perm_swap|]. split; [vm_compute; reflexivity|]. split; [vm_compute; reflexivity|]. intros [k Hk]. cbn [coord] in Hk. unfold Qeq in Hk. cbn [Qnum Qden Qplus Qmult inject_Z] in Hk. lia.
Qed.
Print Assumptions C67_wide_refuted.
(** The mean can lie outside the box: it is not wrapped. *)
Theorem C67_outside_refuted : exists (L : Q) (parts : list body) (y : body -> vec) a m, ~ wsum b_m parts == 0 /\ in_box true L parts /\ unfolds true L parts y /\
  average_position true L parts [parts] (0, 0, 0) = Some (a, m) /\ coord 0 a < 0.
Proof.
  destruct C67_witness as (_ & _ & HB & HU & _). exists 100, [mkbody (1, 2, 7) (4, 0, 3) 2; mkbody (97, 2, 5) (1, 0, 0) 1], c67_y. do 2 eexists. split; [discriminate|].
  assert (HI : forall p, In p [mkbody (1, 2, 7) (4, 0, 3) 2; mkbody (97, 2, 5) (1, 0, 0) 1] -> In p c67_parts) by (intros p [<-|[<-|[]]]; cbn; auto).
  split; [intros _; destruct (HB eq_refl) as [HL Hx]; split; [exact HL|]; intros p j Hp; apply Hx, HI, Hp|]. split; [destruct HU as [U1 U2]; split; intros; auto|]. split; [vm_compute; reflexivity|vm_compute; reflexivity].
Qed.
Print Assumptions C67_outside_refuted.

(** * C68: energies, angular momentum and shape *)
(** AverageKinematics: the potential and kinetic energies add up to the mean of the binding energies; the kinetic energy and the
    angular momentum are those of the velocities relative to the frame with the Hubble flow, for every division of the loop. *)
Theorem C68_kinematics : forall (periodic : bool) (L scale hz : Q) (X V : vec) (parts : list (body * Q)) (threads : list (list (body * Q))),
  (1 < length parts)%nat -> ~ wsum (fun p => b_m (fst p)) parts == 0 -> Permutation (concat threads) parts ->
  (periodic = true -> 0 < L /\ forall p j, In p (map fst parts) -> near_range L (coord j (b_x p)) (coord j X)) ->
  exists (d : body -> vec) pot kin am, offsets periodic L (map fst parts) X d /\ average_kinematics periodic L scale hz X V parts threads = Some (pot, kin, am) /\
    let r := fun j p => scale * coord j (d (fst p)) in let w := fun j p => coord j (b_v (fst p)) - coord j V + hz * r j p in
    let total := fun g : body * Q -> Q => wsum (fun p => b_m (fst p) * g p) parts in let M := wsum (fun p => b_m (fst p)) parts in
    (pot + kin) * M == total snd /\
    kin * M == total (fun p => (1 # 2) * (w 0%nat p * w 0%nat p + w 1%nat p * w 1%nat p + w 2%nat p * w 2%nat p)) /\
    coord 0 am * M == total (fun p => r 1%nat p * w 2%nat p - r 2%nat p * w 1%nat p) /\
    coord 1 am * M == total (fun p => r 2%nat p * w 0%nat p - r 0%nat p * w 2%nat p) /\
    coord 2 am * M == total (fun p => r 0%nat p * w 1%nat p - r 1%nat p * w 0%nat p).
Proof.
  intros periodic L scale hz X V parts ts Hn HM HP HB. destruct (kinematics_ok periodic L scale hz X V parts ts Hn HM HP) as (pot & kin & am & E & H1 & H2 & H3 & H4 & H5).
  exists (fun p => apart periodic L (b_x p) X), pot, kin, am. split; [apply apart_offsets, HB|]. split; [exact E|]. cbv zeta. split; [exact H1|]. split; [rewrite H2; apply wsum_ext; intros; ring|].
  split; [rewrite H3|split; [rewrite H4|rewrite H5]]; apply wsum_ext; intros; ring.
Qed.
Print Assumptions C68_kinematics.
(** CalculateShape: along every direction, the tensor of inertia is the mean squared offset from the most bound particle, and the
    weighted one the mean squared cosine; so both are positive semi-definite. *)
Theorem C68_shape : forall (periodic : bool) (L : Q) (parts : list body) (nbound : nat) (threads : list (list body)) (c : vec) (mbound : Q),
  (1 < nbound <= length parts)%nat -> 0 < mbound -> let others := skipn 1 (firstn nbound parts) in Permutation (concat threads) others ->
  (periodic = true -> 0 < L /\ forall p j, In p others -> near_range L (coord j (b_x p)) (coord j c)) ->
  (forall p, In p others -> ~ forall j, at_image periodic L (coord j (b_x p)) (coord j c)) ->
  exists (d : body -> vec) t w, offsets periodic L others c d /\ calculate_shape periodic L parts nbound threads c mbound = Some (t, w) /\ forall u,
    quad t u * mbound == wsum (fun p => b_m p * (along u (d p) * along u (d p))) others /\
    quad w u * mbound == wsum (fun p => b_m p * (along u (d p) * along u (d p) / along (d p) (d p))) others /\
    ((forall p, In p others -> 0 <= b_m p) -> 0 <= quad t u /\ 0 <= quad w u).
Proof.
  intros periodic L parts nb ts c mb Hn Hb others HP HB HC. set (d := fun p => apart periodic L (b_x p) c).
  assert (HN : forall p, In p others -> ~ norm2 (d p) == 0). { intros p Hp H0. apply (HC p Hp). apply at_centre; [exact H0|]. intros Hper. destruct (HB Hper) as [HL HR]. auto. }
  assert (Hmb : ~ mb == 0) by lra.
  exists d. eexists. eexists. split; [apply apart_offsets, HB|]. split.
  - unfold calculate_shape. rewrite (proj2 (Nat.leb_gt _ _)), (proj2 (Nat.ltb_ge _ _)) by lia. cbn [orb].
    destruct (Qeq_bool mb 0) eqn:E0; [apply Qeq_bool_eq in E0; contradiction|]. cbn [orb].
    destruct (existsb (fun p => Qeq_bool (norm2 (apart periodic L (b_x p) c)) 0) (concat ts)) eqn:EX; [|reflexivity].
    apply existsb_exists in EX. destruct EX as (p & Hp & Ez). apply Qeq_bool_eq in Ez. exfalso. apply (HN p); [apply (Permutation_in _ HP), Hp|exact Ez].
  - intros u.
    assert (G1 : quad (tensor_of periodic L ts (fun p _ q => q * b_m p) c mb) u * mb == wsum (fun p => b_m p * (along u (d p) * along u (d p))) others).
    { apply (tensor_quad periodic L ts others _ b_m c mb u HP Hmb). intros p q _. reflexivity. }
    assert (G2 : quad (tensor_of periodic L ts (fun p dd q => q / (norm2 dd / b_m p)) c mb) u * mb == wsum (fun p => b_m p * (along u (d p) * along u (d p) / along (d p) (d p))) others).
    { rewrite (tensor_quad periodic L ts others _ (fun p => b_m p / norm2 (d p)) c mb u HP Hmb).
      - apply wsum_ext. intros p Hp. assert (EA : along (d p) (d p) == norm2 (d p)) by (rewrite norm2_coord; reflexivity). rewrite EA. fold (d p). field. apply HN, Hp.
      - intros p q Hp. fold (d p). destruct (Qeq_dec (b_m p) 0) as [E0|E0]; [|field; split; [apply HN, Hp|exact E0]]. rewrite E0. unfold Qdiv. change (/ 0) with 0. rewrite Qmult_0_r. change (/ 0) with 0. ring. }
    split; [exact G1|]. split; [exact G2|]. intros Hm. split.
    + assert (H0 : 0 <= wsum (fun p => b_m p * (along u (d p) * along u (d p))) others) by (apply wsum_nonneg; intros p Hp; apply Qmult_le_0_compat; [apply Hm, Hp|apply sq_nonneg]). rewrite <- G1 in H0. nra.
    + assert (H0 : 0 <= wsum (fun p => b_m p * (along u (d p) * along u (d p) / along (d p) (d p))) others).
      { apply wsum_nonneg. intros p Hp. apply Qmult_le_0_compat; [apply Hm, Hp|]. apply Qle_shift_div_l; [|rewrite Qmult_0_l; apply sq_nonneg].
        assert (EA : along (d p) (d p) == norm2 (d p)) by (rewrite norm2_coord; reflexivity). rewrite EA. pose proof (HN p Hp) as HZ. destruct (Qlt_le_dec 0 (norm2 (d p))) as [H|H]; [exact H|].
        exfalso. apply HZ. rewrite norm2_coord in *. pose proof (sq_nonneg (coord 0 (d p))). pose proof (sq_nonneg (coord 1 (d p))). pose proof (sq_nonneg (coord 2 (d p))). lra. }
      rewrite <- G2 in H0. nra.
Qed.
Print Assumptions C68_shape.
Definition c68_parts := [mkbody (1, 2, 7) (4, 0, 3) 2; mkbody (97, 2, 5) (1, 0, 0) 1; mkbody (3, 5, 7) (0, 1, 0) (1 # 2)].
Example C68_witness : let others := skipn 1 (firstn 3 c68_parts) in let ts := [[mkbody (3, 5, 7) (0, 1, 0) (1 # 2)]; []; [mkbody (97, 2, 5) (1, 0, 0) 1]] in
  Permutation (concat ts) others /\ (forall p j, In p others -> near_range 100 (coord j (b_x p)) (coord j (1, 2, 7))) /\
  (forall p, In p others -> ~ forall j, at_image true 100 (coord j (b_x p)) (coord j (1, 2, 7))) /\
  match calculate_shape true 100 c68_parts 3 ts (1, 2, 7) (7 # 2) with
  | Some ((xx, xy, xz, yy, yz, zz), (wxx, _, _, wyy, _, wzz)) => map Qred [xx; xy; xz; yy; yz; zz; wxx + wyy + wzz] = [36 # 7; 6 # 7; 16 # 7; 9 # 7; 0; 8 # 7; 3 # 7]
  | None => False end /\
  let e := combine c68_parts [-1; -2; -3] in
  option_map (fun r => (Qred (fst (fst r)), Qred (snd (fst r)), vmap Qred (snd r))) (average_kinematics true 100 (1 # 2) 0 (1, 2, 7) (2, 0, 1) e [e]) = Some (-32 # 7, 3, (-3 # 14, -1 # 7, 4 # 7)).
Proof.
  cbv zeta. split; [apply perm_swap|]. split; [|split; [|split; vm_compute; reflexivity]].
  - intros p j [<-|[<-|[]]]; destruct j as [|[|?]]; cbn; split; discriminate.
  - intros p [<-|[<-|[]]] H.
    + destruct (H 2%nat) as [k Hk]. cbn [coord b_x] in Hk. unfold Qeq in Hk. cbn [Qnum Qden Qplus Qmult inject_Z] in Hk. lia.
    + destruct (H 0%nat) as [k Hk]. cbn [coord b_x] in Hk. unfold Qeq in Hk. cbn [Qnum Qden Qplus Qmult inject_Z] in Hk. lia.
Qed.
(** A second bound particle at the position of the most bound one makes the tensors undefined (0/0). *)
Theorem C68_coincident_refuted : forall (periodic : bool) (L : Q) (parts : list body) (nbound : nat) (threads : list (list body)) (c : vec) (mbound : Q) p,
  (1 < nbound <= length parts)%nat -> (periodic = true -> 0 < L) -> Permutation (concat threads) (skipn 1 (firstn nbound parts)) -> In p (skipn 1 (firstn nbound parts)) -> (forall j, coord j (b_x p) == coord j c) ->
  calculate_shape periodic L parts nbound threads c mbound = None.
Proof.
  intros periodic L parts nb ts c mb p Hn HL HP Hp Hc. unfold calculate_shape. rewrite (proj2 (Nat.leb_gt _ _)), (proj2 (Nat.ltb_ge _ _)) by lia. cbn [orb].
  destruct (Qeq_bool mb 0); [reflexivity|]. cbn [orb]. replace (existsb _ _) with true; [reflexivity|]. symmetry. apply existsb_exists. exists p. split; [apply (Permutation_in _ (Permutation_sym HP)), Hp|]. apply Qeq_eq_bool, centre_apart; assumption.
Qed.
Print Assumptions C68_coincident_refuted.
