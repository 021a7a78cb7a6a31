(** C66: the numbers and masses of bound particles by type. *)
From Coq Require Import List ZArith QArith Bool Lia Sorting.Permutation.
From Verif.Model Require Import Run ListMem Counts Subhalo Catalogue Program.
From Verif.Spec Require Import Counts Program Ownership.
From Verif.Proofs Require Import ListMemProofs MpiProofs ListExtra CountProofs.
From Verif.Props Require Import PropsProgram PropsOwnership.
Import ListNotations.
Local Open Scope nat_scope.

(** * C66: counts by type are complete and do not depend on the threads *)
(** CountParticles finds, for every type, the number and the mass of the bound particles of that type; the numbers add up to
    Nbound, and Mbound is the mass of all bound particles. *)
Theorem C66_counts : forall (parts : list particle) (nbound : nat), nbound <= length parts -> typed (firstn nbound parts) ->
  exists c m, count_particles parts nbound = Some (c, m) /\ tallies_of (firstn nbound parts) c /\ list_sum (fst c) = nbound /\ (m == total_mass (firstn nbound parts))%Q.
Proof.
  intros parts nb Hn HT. destruct (tally_all _ HT [] no_tallies no_tallies_ok) as (c & E & H). cbn [app] in H. destruct (tallies_sum _ _ HT H) as [S1 S2]. rewrite firstn_length, Nat.min_l in S1 by exact Hn.
  exists c, (fold_left Qplus (snd c) 0%Q). unfold count_particles. rewrite (proj2 (Nat.ltb_ge _ _) Hn), E. auto.
Qed.
Print Assumptions C66_counts.

(** CountParticleTypes finds the same, in both of its branches, for every division of the loop among threads and every order of
    these in the critical section, if none of the bound particles is a consumed one. *)
Theorem C66_types : forall (parts : list particle) (nbound : nat) (threads : list (list nat)), nbound <= length parts -> typed (firstn nbound parts) ->
  (forall p, In p (firstn nbound parts) -> q_id p <> (-1)%Z) -> Permutation (concat threads) (seq 0 nbound) ->
  exists c, count_types parts nbound threads = Some c /\ tallies_of (firstn nbound parts) c.
Proof.
  intros parts nb ts Hn HT Hid HP. unfold count_types. destruct (100 <? nb).
  - destruct (parallel_ok parts ts) as (c & E & H).
    + intros i Hi. apply (Permutation_in _ HP), in_seq in Hi. destruct (nth_error parts i) as [p|] eqn:Ep; [|apply nth_error_None in Ep; lia]. exists p. split; [reflexivity|]. unfold typed in HT. rewrite Forall_forall in HT. apply HT.
      apply nth_error_In with (n := i). rewrite nth_firstn, (proj2 (Nat.ltb_lt _ _)) by lia. exact Ep.
    + exists c. split; [exact E|]. eapply tallies_perm; [|exact H]. eapply perm_trans; [apply picked_perm, HP|]. rewrite (picked_seq parts nb 0 nb Hn eq_refl). apply Permutation_refl.
  - destruct (tally_all _ HT [] no_tallies no_tallies_ok) as (c & E & H). exists c. split; [|exact H]. unfold count_serial. rewrite (proj2 (Nat.ltb_ge _ _) Hn), serial_skip by exact Hid. exact E.
Qed.
Print Assumptions C66_types.
(** The two functions agree, and so do two runs with different threads. *)
Theorem C66_agree : forall (parts : list particle) (nbound : nat) (threads : list (list nat)) c m c', typed (firstn nbound parts) ->
  (forall p, In p (firstn nbound parts) -> q_id p <> (-1)%Z) -> Permutation (concat threads) (seq 0 nbound) ->
  count_particles parts nbound = Some (c, m) -> count_types parts nbound threads = Some c' -> fst c = fst c' /\ Forall2 Qeq (snd c) (snd c').
Proof.
  intros parts nb ts c m c' HT Hid HP E1 E2. assert (Hn : nb <= length parts). { unfold count_particles in E1. destruct (Nat.ltb_spec (length parts) nb); [discriminate|assumption]. }
  destruct (C66_counts parts nb Hn HT) as (d & k & F1 & H1 & _). destruct (C66_types parts nb ts Hn HT Hid HP) as (d' & F2 & H2). assert (d = c) by congruence. assert (d' = c') by congruence. subst. eapply tallies_unique; eassumption.
Qed.
Print Assumptions C66_agree.
Example C66_witness : let parts := [mkpart 7 4 (3 # 2); mkpart 3 1 2; mkpart 9 1 (1 # 2); mkpart 8 0 1] in
  typed (firstn 3 parts) /\ (forall p, In p (firstn 3 parts) -> q_id p <> (-1)%Z) /\ Permutation (concat [[2; 0]; []; [1]]) (seq 0 3) /\
  option_map (fun cm => (fst (fst cm), Qred (snd cm))) (count_particles parts 3) = Some ([0; 2; 0; 0; 1; 0], 4%Q) /\
  option_map (fun c => (fst c, map Qred (snd c))) (count_types parts 3 []) = Some ([0; 2; 0; 0; 1; 0], [0; 5 # 2; 0; 0; 3 # 2; 0]%Q) /\
  option_map (fun c => (fst c, map Qred (snd c))) (count_parallel parts [[2; 0]; []; [1]]) = Some ([0; 2; 0; 0; 1; 0], [0; 5 # 2; 0; 0; 3 # 2; 0]%Q).
Proof.
  cbn zeta. split; [repeat constructor; cbn; lia|]. split. { intros p [<-|[<-|[<-|[]]]]; discriminate. }
  split. { change (Permutation ([2] ++ [0; 1]) ([0; 1] ++ [2])). apply Permutation_app_comm. }
  split; [|split]; vm_compute; reflexivity.
Qed.

(** With consumed particles the number of particles decides whether they are counted. *)
Theorem C66_consumed_refuted : forall p, q_id p = (-1)%Z -> q_type p < type_max -> forall threads, Permutation (concat threads) (seq 0 101) ->
  exists c c', count_types (repeat p 100) 100 [] = Some c /\ list_sum (fst c) = 0 /\ count_types (repeat p 101) 101 threads = Some c' /\ list_sum (fst c') = 101.
Proof.
  intros p Hp Ht ts HP. exists no_tallies. unfold count_types. change (100 <? 100) with false. change (100 <? 101) with true. cbn match.
  assert (HT : typed (repeat p 101)) by (apply Forall_forall; intros q Hq; apply repeat_spec in Hq; subst q; exact Ht).
  destruct (parallel_ok (repeat p 101) ts) as (c & E & H).
  { intros i Hi. apply (Permutation_in _ HP), in_seq in Hi. exists p. split; [|exact Ht]. apply nth_error_repeat. lia. }
  exists c. split; [|split; [reflexivity|split; [exact E|]]].
  - unfold count_serial. rewrite repeat_length. change (100 <? 100) with false. cbn match. rewrite firstn_all2 by (rewrite repeat_length; lia).
    generalize 100. intros k. induction k as [|k IH]; [reflexivity|]. cbn [repeat for_each]. rewrite Hp. exact IH.
  - assert (H' : tallies_of (repeat p 101) c). { eapply tallies_perm; [|exact H]. eapply perm_trans; [apply picked_perm, HP|]. rewrite (picked_seq (repeat p 101) 101 0 101); [apply Permutation_refl|rewrite repeat_length; lia|reflexivity]. }
    destruct (tallies_sum _ _ HT H') as [-> _]. apply repeat_length.
Qed.
Print Assumptions C66_consumed_refuted.

(** Where the counts and the reported particles disagree.  Groups 1..4 and 5..9 merge in snapshot 1, where only 1 and 2 of the
    first subhalo are bound; in snapshot 2 particle 1 is gone, so that one bound particle is left, and 3 and 4 are bound. *)
Definition c66_v := c62 false 2
  (fun snap w _ l i => match nth_error l i with
    | Some e => match nth_error (fst w) (fst e) with
                | Some p => if (length (fst w) <=? 4) && (((snap =? 1)%Z && existsb (Z.eqb (fst p)) [3; 4]%Z) || ((snap =? 2)%Z && (fst p =? 2)%Z)) then 1%Z else (fst p - 100)%Z
                | None => 1%Z end
    | None => 1%Z end)
  (fun _ _ _ => false) (fun p => inject_Z (fst p)) c62_ids c62_gr.
(** When particles vanish so that Nbound falls to 1, RecursiveUnbind restores the order the particles had before unbinding, but
    not Nbound: the first Nbound particles then are not the bound ones, and Mbound is not their mass. *)
Theorem C66_restored_order_refuted : exists (g : setup Z nat Z Z) (n : nat) (d0 d : disk Z nat) cat s,
  sane g /\ valid_input g 1 n (g_min_snapshot g) /\ (forall snap, tidy_groups g snap) /\ hbt g 1 n (g_min_snapshot g) d0 = Done (tt, d, cat) /\
  In s (concat cat) /\ 1 < s_nbound s /\ ~ (s_mass s == fold_right (fun p q => (g_pmass g p + q)%Q) 0%Q (firstn (s_nbound s) (s_parts s)))%Q.
Proof.
  exists c66_v, 3%nat, c61_blank. assert (HG : sane c66_v) by (apply c62_sane; lia). destruct (c62_valid true false 2 (g_energy c66_v) (g_near c66_v) (fun p => inject_Z (fst p)) c62_ids c62_gr) as [HV HT].
  - intros p Hp. unfold Qle. cbn. lia.
  - intros snap. unfold c62_ids, c62_gr. destruct (snap =? 0)%Z, (snap =? 2)%Z; reflexivity.
  - intros snap id Hid. unfold c62_ids in Hid. destruct (snap =? 2)%Z; cbn in Hid; lia.
  - destruct (C61_whole_runs Z nat Z Z c66_v 1 3 c61_blank HG HV) as (cs & d & Eh & _). change (g_min_snapshot c66_v) with 0%Z in *.
    assert (Es : match hbt c66_v 1 3 0 c61_blank with Done (_, _, c) => match concat c with [s; _] => (s_nbound s, Qred (s_mass s), Qred (fold_right (fun p q => (g_pmass c66_v p + q)%Q) 0%Q (firstn (s_nbound s) (s_parts s)))) = (2, 7%Q, 5%Q) | _ => False end | _ => False end) by (vm_compute; reflexivity).
    rewrite Eh in Es. destruct (concat (cs 3%nat)) as [|s [|x [|? ?]]] eqn:Ec; try (destruct Es; fail). exists d, (cs 3%nat), s. rewrite Ec. injection Es as E1 E2 E3.
    split; [exact HG|]. split; [exact HV|]. split; [exact HT|]. split; [exact Eh|]. split; [cbn; auto|]. split; [lia|]. intros HQ. apply Qred_complete in HQ. assert (HX : 7%Q = 5%Q) by (etransitivity; [symmetry; exact E2|]; etransitivity; [exact HQ|exact E3]). discriminate.
Qed.
Print Assumptions C66_restored_order_refuted.
