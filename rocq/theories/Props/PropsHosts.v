(** Property C22: finding the hosts of all subhalos and moving them there. *)
From Coq Require Import List ZArith QArith Bool Lia Sorting.Permutation.
From Verif.Model Require Import ListMem Mpi Hash Subhalo Hosts.
From Verif.Spec Require Import Members Hosts.
From Verif.Proofs Require Import ListMemProofs ListExtra MpiProofs CentralProofs2 HostProofs.
From Verif.Props Require Import PropsMembers.
Import ListNotations.
Local Open Scope nat_scope.

(** C22: for every number of processes, every distribution of halos, particles and subhalos over them and every chunk size,
    provided each most bound particle is known to some process: AssignHosts succeeds; all subhalos together are the same as
    before, none lost, none twice, no field changed but the host; each is at the process of the halo that contains its most bound
    particle, with that halo's number, or, when no halo of any process contains it, at the process that holds that particle,
    with host -1; subhalos without particles stay where they were, in order, with host -1. *)
Theorem C22_hosts : forall (X R : Type) (procs : list proc) (max_chunk : nat) (subs : list (list (sub X R))),
  procs <> [] -> Forall ready procs -> length subs = length procs -> (forall l s, In l subs -> In s l -> known procs s) ->
  exists out, assign_hosts procs max_chunk subs = Some out /\ length out = length procs /\
    Permutation (map data (concat out)) (map data (concat subs)) /\
    (forall r l s, nth_error out r = Some l -> In s l -> right_place procs r s) /\
    (forall r l l', nth_error subs r = Some l -> nth_error out r = Some l' ->
       filter (fun s => length (s_parts s) =? 0) l' = map (set_host (-1)) (filter (fun s => length (s_parts s) =? 0) l)).
Proof.
  intros X R procs mc subs Hne HR HL HK. exists (map (final procs subs) (seq 0 (length procs))). split; [apply assign_ok; assumption|]. split; [rewrite map_length, seq_length; reflexivity|]. split; [apply final_data; assumption|].
  assert (HN : forall r l, nth_error (map (final procs subs) (seq 0 (length procs))) r = Some l -> l = final procs subs r). { intros r l H. rewrite nth_error_map, nth_seq in H. destruct (r <? length procs); [|discriminate]. cbn in H. congruence. }
  split.
  - intros r l s Hr Hs. apply HN in Hr. subst l. eapply final_place; eauto.
  - intros r l l' Hl Hr. apply HN in Hr. subst l'. apply final_empty; assumption.
Qed.
Print Assumptions C22_hosts.

(** And then the member tables can be built on every process. *)
Theorem C22_tables : forall (X R : Type) (procs : list proc) (max_chunk : nat) (sort : list (sub X R) -> list nat -> list nat) (subs : list (list (sub X R))),
  procs <> [] -> Forall ready procs -> length subs = length procs -> (forall l s, In l subs -> In s l -> known procs s) -> (forall l, sorts_by_mass l (sort l)) ->
  exists out tables, assign_hosts procs max_chunk subs = Some out /\ assign_hosts_tables procs max_chunk sort subs = Some (combine out tables) /\ length tables = length procs /\
    forall r p l t, nth_error procs r = Some p -> nth_error out r = Some l -> nth_error tables r = Some t ->
      length t = S (length (pr_halos p)) /\
      forall g m i, nth_error t g = Some m -> (In i m <-> exists s, nth_error l i = Some s /\ s_host s = (Z.of_nat g - 1)%Z).
Proof.
  intros X R procs mc sort subs Hne HR HL HK HS. destruct (C22_hosts X R procs mc subs Hne HR HL HK) as (out & HO & HLo & _ & HP & _).
  assert (HT : forall r p l, nth_error procs r = Some p -> nth_error out r = Some l -> exists t, build_table (sort l) true (length (pr_halos p)) l = Some t /\ length t = S (length (pr_halos p)) /\
      forall g m i, nth_error t g = Some m -> (In i m <-> exists s, nth_error l i = Some s /\ s_host s = (Z.of_nat g - 1)%Z)).
  { intros r p l Hp Hl. destruct (table_props (sort l) (length (pr_halos p)) l) with (incl := true) as (t & HB & HLt & HG).
    - apply Forall_forall. intros s Hs. specialize (HP r l s Hl Hs). unfold right_place in HP. destruct (s_parts s) as [|q rest]; [lia|]. destruct HP as [(h & (p' & l' & Hp' & Hh & _) & ->)|(_ & _ & ->)]; [|lia]. assert (p' = p) by congruence. subst p'. apply nth_error_lt in Hh. lia.
    - apply HS.
    - exists t. split; [exact HB|]. split; [exact HLt|]. intros g m i Hm. rewrite (proj1 (HG g m Hm) i). split; [intros (s & A & B & _); eauto|intros (s & A & B); exists s; auto]. }
  set (f := fun ps : proc * list (sub X R) => match build_table (sort (snd ps)) true (length (pr_halos (fst ps))) (snd ps) with Some t => t | None => [] end).
  exists out, (map f (combine procs out)). split; [exact HO|]. split; [|split].
  - unfold assign_hosts_tables. rewrite HO. rewrite (mapM_some _ (fun ps => (snd ps, f ps))).
    + f_equal. revert HLo. clear. revert out. induction procs as [|p ps IH]; intros [|l out] HL; try discriminate; [reflexivity|]. cbn [combine map snd]. f_equal. apply IH. cbn in HL. lia.
    + intros [p l] Hin. apply in_nth_iff in Hin as [r Hr]. apply combine_nth_error_inv in Hr as [Hp Hl]. destruct (HT r p l Hp Hl) as (t & HB & _). unfold f. cbn [fst snd]. rewrite HB. reflexivity.
  - rewrite map_length, combine_length, HLo. apply Nat.min_id.
  - intros r p l t Hp Hl Ht. rewrite nth_error_map, (combine_nth_error _ _ _ _ _ Hp Hl) in Ht. cbn in Ht. injection Ht as <-. destruct (HT r p l Hp Hl) as (t & HB & H1 & H2). unfold f. cbn [fst snd]. rewrite HB. auto.
Qed.
Print Assumptions C22_tables.

(** Three processes: halos {10,11}, {12} and {20}; particles of the field 13, 21, 30; subhalos far from their hosts, one empty,
    one in the field elsewhere; chunks of one subhalo and of all. *)
Definition w_proc (halos : list (list Z)) (ids : list Z) (ht : list (Z * Z)) (pt : ptable) : proc := {| pr_halos := halos; pr_ids := ids; pr_htable := ht; pr_ptable := pt |}.
Ltac solve_perm := solve [apply Permutation_refl | cbn; apply NoDup_Permutation; [repeat (constructor; [cbn; intros H; decompose [or] H; try tauto; congruence|]); constructor .. | intros x; cbn; tauto]].
Ltac solve_ready := split; [split; (split; [solve_perm|repeat constructor; cbn; unfold key_le; cbn; lia])|split; [|split]]; cbn;
  repeat (constructor; [try lia; cbn; intros H; decompose [or] H; try tauto; lia|]); repeat constructor; try lia.
Definition w_procs : list proc :=
  [w_proc [[10; 11]; [12]]%Z [13; 10; 11; 12]%Z [(10, 0); (11, 0); (12, 1)]%Z (PMapped [(10, 1); (11, 2); (12, 3); (13, 0)]%Z);
   w_proc [[20]]%Z [20; 21]%Z [(20, 0)]%Z (PMapped [(20, 0); (21, 1)]%Z);
   w_proc [] [30]%Z [] (PMapped [(30, 0)]%Z)].
Definition w_hsubs : list (list (sub Z nat)) :=
  [[mk 3 3 5 [(20, 0); (11, 0)]%Z; mk 2 2 7 [(30, 1)]%Z; mk 1 1 0 [(11, 2)]%Z];
   [mk 4 4 3 [(12, 0)]%Z; mk 0 0 3 []];
   [mk 6 6 0 [(21, 0)]%Z; mk 7 7 0 [(10, 0); (21, 0)]%Z; mk 8 8 0 [(30, 9)]%Z]].
Example C22_witness : w_procs <> [] /\ Forall ready w_procs /\ length w_hsubs = length w_procs /\ (forall l s, In l w_hsubs -> In s l -> known w_procs s) /\
  assign_hosts w_procs 2 w_hsubs = Some
    [[mk 1 1 0 [(11, 2)]%Z; mk 4 4 1 [(12, 0)]%Z; mk 7 7 0 [(10, 0); (21, 0)]%Z];
     [mk 0 0 (-1) []; mk 3 3 0 [(20, 0); (11, 0)]%Z; mk 6 6 (-1) [(21, 0)]%Z];
     [mk 2 2 (-1) [(30, 1)]%Z; mk 8 8 (-1) [(30, 9)]%Z]].
Proof.
  split; [discriminate|]. split; [|split; [reflexivity|split; [|vm_compute; reflexivity]]].
  - repeat (apply Forall_cons; [solve_ready|]). constructor.
  - intros l s Hl Hs. cbn in Hl.
    repeat (destruct Hl as [<-|Hl]); try destruct Hl; cbn in Hs; repeat (destruct Hs as [<-|Hs]); try destruct Hs; cbn; trivial.
    + exists 1. right. exists (w_proc [[20]]%Z [20; 21]%Z [(20, 0)]%Z (PMapped [(20, 0); (21, 1)]%Z)). split; [reflexivity|cbn; auto].
    + exists 2. right. eexists. split; [reflexivity|cbn; auto].
    + exists 0. left. exists 0. do 2 eexists. split; [reflexivity|]. split; [reflexivity|cbn; auto].
    + exists 0. left. exists 1. do 2 eexists. split; [reflexivity|]. split; [reflexivity|cbn; auto].
    + exists 1. right. eexists. split; [reflexivity|cbn; auto].
    + exists 0. left. exists 0. do 2 eexists. split; [reflexivity|]. split; [reflexivity|cbn; auto].
    + exists 2. right. eexists. split; [reflexivity|cbn; auto].
Qed.

(** Finding: a subhalo whose most bound particle no process knows (it left the snapshot) is sent to process 0 with host -2, and
    the member table of process 0 is then written out of bounds. *)
Theorem C22_unknown_particle_refuted : exists (procs : list proc) (subs : list (list (sub Z nat))), procs <> [] /\ Forall ready procs /\ length subs = length procs /\
  (exists out s, assign_hosts procs 100 subs = Some (([s]) :: out) /\ s_host s = (-2)%Z) /\ assign_hosts_tables procs 100 mass_sort subs = None.
Proof.
  exists [w_proc [[1]]%Z [1]%Z [(1, 0)]%Z (PMapped [(1, 0)]%Z); w_proc [] [2]%Z [] (PMapped [(2, 0)]%Z)], [[]; [mk 3 3 0 [(7, 0)]%Z]].
  split; [discriminate|]. split; [|split; [reflexivity|split; [|vm_compute; reflexivity]]].
  - repeat (apply Forall_cons; [solve_ready|]). constructor.
  - do 2 eexists. split; vm_compute; reflexivity.
Qed.
Print Assumptions C22_unknown_particle_refuted.
