(** Property C20: loading a group catalogue. *)
From Coq Require Import List ZArith Bool Arith Lia.
From Verif.Model Require Import ListMem Mpi Groups.
From Verif.Spec Require Import Groups.
From Verif.Proofs Require Import ListMemProofs ListExtra MpiProofs GroupProofs.
Import ListNotations.

(** C20: for every number of processes up to the number of particles, every list of halo lengths and every division of the ids
    into files with the same total, loading succeeds, and the halos of all processes, in order, are the halos of the catalogue,
    each once, numbered from 0, each with exactly its own (masked) ids; only halos without particles at the end of the catalogue
    are left out. *)
Theorem C20_each_halo_once : forall (mask : Z -> Z) (W : nat) (lens : list nat) (files : list (list Z)),
  nsum lens = length (concat files) -> 0 < W -> W <= length (concat files) \/ length (concat files) = 0 ->
  exists out K, load_groups mask W lens files = Some out /\ length out = W /\
    concat out = firstn K (numbered (cut lens (map mask (concat files)))) /\ Forall (fun h => h = []) (skipn K (cut lens (map mask (concat files)))).
Proof.
  intros mask W lens files HS HW HN. rewrite concat_length_nsum in *. unfold load_groups. rewrite HS, Nat.eqb_refl. set (N := nsum (map (@length Z) files)) in *. destruct (Nat.eq_dec N 0) as [E0|E0].
  - exists (repeat [] W), 0. split; [|split; [apply repeat_length|split]].
    + assert (HA : forall w b, assign_tasks w N (displacements lens ++ [N]) (displacements (map (@length Z) files)) b = Some (repeat no_task w)). { induction w as [|w IH]; intros b; [reflexivity|]. cbn [assign_tasks]. unfold assign_task. rewrite E0. cbn [Nat.eqb]. rewrite <- E0, IH. reflexivity. }
      rewrite HA. clear. induction W as [|w IH]; [reflexivity|]. cbn [repeat mapM]. rewrite IH. reflexivity.
    + clear. induction W as [|w IH]; [reflexivity|]. exact IH.
    + cbn [skipn]. assert (HI : map mask (concat files) = []). { apply length_zero_iff_nil. rewrite map_length, concat_length_nsum. exact E0. } rewrite HI. clear. induction lens as [|n t IH]; cbn; [constructor|]. rewrite firstn_nil, skipn_nil. constructor; [reflexivity|exact IH].
  - assert (Hat : at_halo lens files 0). { split; [|lia]. destruct (lower_bound (offs_from 0 lens) 0) eqn:E; [reflexivity|]. destruct lens as [|y l]; cbn in E; discriminate. }
    destruct (assign_all mask lens files HS ltac:(fold N; lia) W 0 Hat) as (ts & out & HT & HM & HL & HC); [right; fold N; lia|lia|]. fold N in HT, HC. rewrite HT. exists out, (lower_bound (offs_from 0 lens) N). split; [exact HM|]. split; [exact HL|].
    assert (Elb : lower_bound (offs_from 0 lens) 0 = 0) by (destruct lens as [|y l]; reflexivity). rewrite Elb, Nat.sub_0_r in HC. cbn [skipn] in HC. set (K := lower_bound (offs_from 0 lens) N) in *. destruct (lb_spec lens N 0) as (L1 & L2 & L3). cbn zeta in *. fold K in L1, L2, L3.
    assert (Hsplit : cut lens (map mask (concat files)) = cut (firstn K lens) (map mask (concat files)) ++ cut (skipn K lens) (skipn (off lens K) (map mask (concat files)))). { rewrite <- (firstn_skipn K lens) at 1. apply cut_app. }
    assert (HLk : length (cut (firstn K lens) (map mask (concat files))) = K) by (rewrite cut_length, firstn_length; lia). split.
    + rewrite HC. unfold numbered. rewrite Hsplit, app_length, HLk, seq_app, combine_app2 by (rewrite seq_length; lia). rewrite firstn_app, combine_length, seq_length, HLk, Nat.min_id, Nat.sub_diag. cbn [firstn]. rewrite app_nil_r, (firstn_all2 (combine (seq 0 K) (cut (firstn K lens) (map mask (concat files))))); [reflexivity|]. rewrite combine_length, seq_length, HLk. lia.
    + rewrite Hsplit, skipn_app, HLk, Nat.sub_diag. cbn [skipn]. rewrite skipn_all2 by lia. cbn [app].
      assert (Hz : nsum (skipn K lens) = 0). { assert (E : nsum lens = off lens K + nsum (skipn K lens)) by (rewrite <- (firstn_skipn K lens) at 1; apply nsum_app). destruct (Nat.eq_dec K (length lens)) as [Ek|Ek]; [rewrite Ek, skipn_all; reflexivity|]. specialize (L3 ltac:(lia)). lia. }
      generalize (skipn (off lens K) (map mask (concat files))). revert Hz. generalize (skipn K lens). clear. induction l as [|n t IH]; intros Hz ids; cbn; [constructor|]. cbn in Hz. assert (n = 0) by lia. subst n. constructor; [reflexivity|]. apply IH. lia.
Qed.
Print Assumptions C20_each_halo_once.

(** A catalogue whose lengths do not add up to the number of ids is rejected (by the assert). *)
Theorem C20_mismatch_rejected : forall (mask : Z -> Z) (W : nat) (lens : list nat) (files : list (list Z)),
  nsum lens <> length (concat files) -> load_groups mask W lens files = None.
Proof. intros mask W lens files H. rewrite concat_length_nsum in H. unfold load_groups. destruct (Nat.eqb_spec (nsum lens) (nsum (map (@length Z) files))); [contradiction|reflexivity]. Qed.
Print Assumptions C20_mismatch_rejected.

(** Seven ids in four files (one empty), halos of lengths 0, 3, 0, 4, 0; three processes. *)
Example C20_witness : load_groups (fun x => x) 3 [0; 3; 0; 4; 0] [[11; 12]; []; [13; 14; 15; 16]; [17]]%Z =
  Some [[(0, []); (1, [11; 12; 13]%Z)]; [(2, []); (3, [14; 15; 16; 17]%Z)]; []].
Proof. vm_compute. reflexivity. Qed.
(** Finding: with more processes than particles the first task reads FileOffsets[-1]. *)
Theorem C20_few_particles_refuted : forall (mask : Z -> Z) (W : nat) (lens : list nat) (files : list (list Z)),
  nsum lens = length (concat files) -> 0 < length (concat files) < W -> load_groups mask W lens files = None.
Proof.
  intros mask W lens files HS HN. rewrite concat_length_nsum in *. unfold load_groups. rewrite HS, Nat.eqb_refl. set (N := nsum (map (@length Z) files)) in *. destruct W as [|w]; [lia|]. cbn [assign_tasks]. unfold assign_task. destruct (Nat.eqb_spec N 0); [lia|].
  rewrite Nat.sub_0_r, Nat.add_0_l, (Nat.div_small N (S w)) by lia. rewrite removelast_last, displacements_eq.
  assert (Elb : forall l, lower_bound l 0 = 0) by (intros [|y l]; reflexivity). rewrite !Elb. destruct (nth_error (offs_from 0 lens ++ [N]) 0) as [e|] eqn:E; [|reflexivity]. assert (e = 0). { destruct lens as [|y l]; [cbn in HS; lia|]. cbn in E. congruence. } subst e. rewrite Elb. destruct (upper_bound _ _); reflexivity.
Qed.
Print Assumptions C20_few_particles_refuted.
