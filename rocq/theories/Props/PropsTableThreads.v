(** C89: the parallel loops that fill an index table, merge linked lists, join nests and promote particles are safe however their
    turns overlap in time (see Spec/Races.v for [safe_loop]). *)
From Coq Require Import List ZArith QArith Bool Lia Sorting.Permutation.
From Verif.Model Require Import ListMem Run Mymath Hash LinkedList Subhalo Nest Threads TableThreads.
From Verif.Model Require Purge.
From Verif.Spec Require Import Races Lookup Forest Nesting Chains.
From Verif.Spec Require Purge.
From Verif.Proofs Require Import ListMemProofs ListExtra HashProofs NestProofs LocalizeProofs MymathProofs LinkProofs LinkMerge LinkSearch GlueProofs TableLoops TableLoops2.
From Verif.Props Require Import PropsThreads PropsLink.
From Verif.Props Require PropsPurge.
Import ListNotations.
Local Open Scope Z_scope.

(** A flat table is filled by two loops, whatever was in the allocated block before; the outcome answers every query (C09). *)
Theorem C89_flat_fill : forall null keys, keys <> [] -> NoDup (map fst keys) ->
  exists t, flat_fill null keys keys = Some t /\
    (forall junk, length junk = Z.to_nat (fl_span t) -> safe_loop Z.eqb race (clear_turns null (Z.to_nat (fl_span t))) (zget junk) (zget (repeat null (Z.to_nat (fl_span t))))) /\
    safe_loop Z.eqb race (fill_turns (fl_min t) keys) (zget (repeat null (Z.to_nat (fl_span t)))) (zget (fl_index t)) /\
    forall key, exists r, flat_get null t key = Some r /\ lookup_result null keys key r.
Proof.
  intros null keys Hne ND. destruct (flat_lookup null keys keys 0 (Permutation_refl _) ND) as (t & r0 & Et & _). exists t. split; [exact Et|]. split; [intros junk HL; apply clear_loop; exact HL|]. split.
  - unfold flat_fill in Et. destruct keys as [|[k0 v0] rest]; [congruence|]. set (keys := (k0, v0) :: rest) in *.
    destruct (for_each keys _ _) as [block|] eqn:E in Et; [|discriminate]. injection Et as <-. cbn [fl_min fl_span fl_index]. apply fill_loop; [exact ND|exact E].
  - intros key. destruct (flat_lookup null keys keys key (Permutation_refl _) ND) as (t' & r & Et' & Hr). assert (t' = t) by congruence. subst t'. exists r. exact Hr.
Qed.
Print Assumptions C89_flat_fill.
(** The keys have to be distinct: two particles with the same id are written to the same element at the same time. *)
Theorem C89_same_id_race : forall kmin keys i j a b start final, i <> j -> nth_error keys i = Some a -> nth_error keys j = Some b -> fst a = fst b ->
  ~ safe_loop Z.eqb race (fill_turns kmin keys) start final.
Proof.
  intros kmin keys i j a b start final Hij Ha Hb E [N HN]. destruct (HN 0%nat (fill_turns kmin keys) start ltac:(constructor)) as (_ & _ & Hr & _). apply Hr.
  exists (fst a - kmin), (Some (snd a)), (Some (snd b)). split; [|left; discriminate]. unfold fill_turns. exists i, j. do 2 eexists. split; [exact Hij|]. rewrite !nth_error_map, Ha, Hb. split; [reflexivity|]. split; [reflexivity|]. split; [constructor|]. rewrite E. constructor.
Qed.
Print Assumptions C89_same_id_race.

(** The chains of the threads are joined to the chains of the whole list. *)
Theorem C89_merge_lists : forall fuel T order ndiv ps box periodic, 0 < ndiv -> (0 < box)%Q -> (0 < T)%nat -> chain_order ndiv order -> (length ps <= fuel)%nat ->
  exists parts empty ll, build_blocks (Z.of_nat T) (map Z.of_nat (seq 0 T)) ndiv ps box periodic = Some parts /\ init ndiv ps box periodic = Some empty /\
    parallel_build fuel T order ndiv ps box periodic = Done ll /\ linked ll /\
    safe_loop slot_eqb race (chain_turns fuel parts (Z.to_nat (ndiv * ndiv * ndiv))) (slots parts (ll_hoc empty, ll_next empty)) (slots parts (ll_hoc ll, ll_next ll)).
Proof.
  intros fuel T order ndiv ps box periodic Hd Hb HT HO Hf. destruct (parallel_ok fuel T order ndiv ps box periodic HT Hd Hb HO Hf) as (ll & Ell & Hlink & _).
  destruct (init_ok ndiv ps box periodic Hd Hb) as (ll0 & Hi & Hg & Eps & En & Ep & Ebx & Em & Es).
  destruct (assign_tasks_correct T (Z.of_nat (length ps)) HT ltac:(lia)) as (ivs & Eiv & _ & Htile & _).
  destruct (blocks_ok ndiv ps box periodic ll0 Hd Hb Hi (Z.of_nat T) (map Z.of_nat (seq 0 T)) ivs 0) as (parts & Eparts & HP); [rewrite map_map; exact Eiv|lia|exact Htile|].
  exists parts, ll0, ll. split; [exact Eparts|]. split; [exact Hi|]. split; [exact Ell|]. split; [exact Hlink|].
  destruct (init_state _ _ _ _ _ Hi) as (S1 & S2 & _ & _). unfold parallel_build in Ell. destruct (Qle_bool box 0); [discriminate|]. rewrite Eparts, Hi in Ell. cbn [of_opt rbind] in Ell.
  destruct (run_each order _ _) as [st| |] eqn:Est in Ell; try discriminate. cbn [rbind] in Ell. injection Ell as <-.
  assert (HD : D3 ll0 = Z.to_nat (ndiv * ndiv * ndiv)) by (unfold D3; rewrite En; reflexivity). rewrite <- HD. destruct st as [hoc next]. cbn [with_chains ll_hoc ll_next fst snd].
  eapply chain_loop with (order := order); [rewrite Eps; exact HP|rewrite Eps; exact Hf|rewrite S1, repeat_length, HD; reflexivity|rewrite S2, repeat_length, Eps; reflexivity|rewrite HD; exact HO|exact Est].
Qed.
Print Assumptions C89_merge_lists.

(** The groups share no member, so that the particles of several groups are promoted at the same time. *)
Theorem C89_purge : forall {P V : Type} (p_id : P -> Z) (p_pos p_vel : P -> V) groups (subs : list (Purge.sub P V)), Spec.Purge.members_ok groups subs ->
  exists out, Purge.purge p_id p_pos p_vel groups subs = Some out /\ safe_loop Z.eqb race (purge_turns p_id p_pos p_vel groups) (zget subs) (zget out).
Proof. intros P V p_id p_pos p_vel groups subs. apply purge_loop. Qed.
Print Assumptions C89_purge.

(** The heads of all halos are joined to the nests of their centrals and taken out again; what happens in between may change everything
    but the nests.  The sizes are stored in an array that holds anything before. *)
Theorem C89_glue : forall {X R : Type} groups heads (subs : list (sub X R)) junk, NoDup (concat groups) -> (forall m, In m (concat groups) -> (m < length subs)%nat) ->
  Forall2 (fun g h : list nat => g = [] \/ h <> []) groups heads -> length junk = length groups ->
  exists glued sizes, glue groups heads subs = Some (glued, sizes) /\ safe_loop spot_eqb race (glue_turns groups heads) (spots subs junk) (spots glued sizes) /\
    forall worked : list (sub X R), map s_nest worked = map s_nest glued ->
      exists out, unglue groups sizes worked = Some out /\ safe_loop spot_eqb race (unglue_turns groups) (spots worked sizes) (spots out sizes) /\ map s_nest out = map s_nest subs.
Proof.
  intros X R groups heads subs junk ND Hlt HF HJ.
  assert (NDc : NoDup (centrals groups)).
  { clear - ND. induction groups as [|g gr IH]; [constructor|]. cbn in ND. pose proof (NoDup_app_remove_l _ _ ND) as ND2. specialize (IH ND2). unfold centrals in *. cbn [map concat]. destruct g as [|c r]; [exact IH|]. cbn. constructor; [|exact IH].
    intros Hc. apply (centrals_in gr) in Hc as (k & rest & Hk). eapply NoDup_app_disjoint; [exact ND|left; reflexivity|]. apply in_concat. exists (c :: rest). split; [eapply nth_error_In, Hk|left; reflexivity]. }
  assert (HL : length heads = length groups) by (symmetry; exact (F2_length _ _ _ HF)).
  assert (Hok : forall k c rest, nth_error groups k = Some (c :: rest) -> (c < length subs)%nat /\ nth_error heads k <> Some []).
  { intros k c rest Hk. split; [apply Hlt, in_concat; exists (c :: rest); split; [eapply nth_error_In, Hk|left; reflexivity]|]. intros Hh. destruct (F2_nth _ _ _ HF k _ _ Hk Hh); congruence. }
  destruct (glue_loop groups heads subs junk NDc HL HJ Hok) as (g & sz & E & HS). exists g, sz. split; [exact E|]. split; [exact HS|].
  intros worked HW. assert (HF2 : Forall2 (fun a b : sub X R => s_nest a = s_nest b) g worked).
  { clear - HW. revert worked HW. induction g as [|a g IH]; intros [|b w] H; try discriminate; constructor; cbn in H; [congruence|apply IH; congruence]. }
  destruct (glue_unglue groups heads subs g worked sz NDc HL Hok E HF2) as (out & Eu & HLo & Hout).
  destruct (glue_spec groups heads subs NDc HL Hok) as (g' & sz' & E' & L1 & L2 & L3 & L4). rewrite E in E'. injection E' as <- <-. pose proof (F2_length _ _ _ HF2) as HLw.
  destruct (unglue_loop groups sz worked NDc L2) as (out' & Eu' & HS').
  - intros k c rest Hk. destruct (Hok k c rest Hk). lia.
  - intros k c rest n w Hk Hn Hw. destruct (Hok k c rest Hk) as [Hc Hh]. destruct (nth_error_in_range subs c Hc) as [s Hs]. destruct (nth_error_in_range heads k) as [[|h0 others] Hh']; [rewrite HL; eapply nth_error_lt; eauto|congruence|].
    destruct (L4 k c rest h0 others s Hk Hh' Hs) as [A B]. rewrite <- (F2_nth _ _ _ HF2 c _ _ A Hw). cbn. rewrite app_length. assert (n = length (s_nest s)) by congruence. lia.
  - assert (out' = out) by congruence. subst out'. exists out. split; [exact Eu|]. split; [exact HS'|]. apply nth_error_ext. intros i. rewrite !nth_error_map.
    destruct (lt_dec i (length subs)) as [Hi|Hi].
    + destruct (nth_error_in_range subs i Hi) as [s Hs]. destruct (nth_error_in_range worked i ltac:(lia)) as [w Hw]. rewrite (Hout i w s Hw Hs), Hs. reflexivity.
    + rewrite !(proj2 (nth_error_None _ _)) by lia. reflexivity.
Qed.
Print Assumptions C89_glue.

(** The hypotheses can be met; a schedule that mixes the turns, and where it ends. *)
Example C89_flat_witness : NoDup (map fst [(7, 0); (3, 1); (5, 2)]) /\
  (match flat_fill (-1) [(7, 0); (3, 1); (5, 2)] [(7, 0); (3, 1); (5, 2)], exec_at Z.eqb [2; 0; 1]%nat (fill_turns 3 [(7, 0); (3, 1); (5, 2)], zget (repeat (-1) 5)) with
   | Some t, Some (ps, s) => (fl_min t, fl_index t, map next ps, map s [0; 1; 2; 3; 4; 5]) = (3, [1; -1; 2; -1; 0], repeat None 3, map Some [1; -1; 2; -1; 0] ++ [None])
   | _, _ => False
   end).
Proof. split; [|vm_compute; reflexivity]. cbn. repeat constructor; cbn; lia. Qed.
Example C89_merge_witness : chain_order 2 [7; 6; 5; 4; 3; 2; 1; 0] /\
  (match build_blocks 3 [0; 1; 2] 2 sample 8 true with
   | Some parts => match exec_at slot_eqb ([0; 1; 7; 0; 1; 7; 1; 7] ++ repeat 0 9 ++ repeat 1 4 ++ [7; 7; 7; 7] ++ flat_map (fun c => [c; c; c]) [2; 3; 4; 5; 6])%nat (chain_turns 4 parts 8, slots parts (repeat (-1) 8, repeat 0 4)) with
                   | Some (ps, s) => map s (map Head [0; 1; 2; 3; 4; 5; 6; 7] ++ map Next [0; 1; 2; 3]) = map Some [2; 1; -1; -1; -1; -1; -1; 3; -1; -1; 0; -1] /\ map next ps = repeat None 8
                   | None => False
                   end
   | None => False
   end).
Proof. split; [|vm_compute]. { unfold chain_order. change (map Z.of_nat (seq 0 (Z.to_nat (2 * 2 * 2)))) with [0; 1; 2; 3; 4; 5; 6; 7]. apply (Permutation_rev [7; 6; 5; 4; 3; 2; 1; 0]). } repeat split. Qed.
Example C89_purge_witness : Spec.Purge.members_ok PropsPurge.ex_groups PropsPurge.ex_subs /\
  (match exec_at Z.eqb [2; 1; 1; 1; 2; 1; 2; 1; 1]%nat (purge_turns fst snd snd PropsPurge.ex_groups, zget PropsPurge.ex_subs) with
   | Some (ps, s) => (map next ps, Some (map s [0; 1; 2]%Z)) = (repeat None 3, option_map (map Some) PropsPurge.ex_purged)
   | None => False
   end).
Proof. split; [apply PropsPurge.C71_witness|vm_compute; reflexivity]. Qed.
Definition nested (l : list Z) : sub Z Z := set_nest l (new_sub 0).
Example C89_glue_witness : NoDup (concat [[0; 1; 2]; []; [3; 4]]%nat) /\
  (let groups := [[0; 1; 2]; []; [3; 4]]%nat in let heads := [[0; 2]; []; [3]]%nat in let subs := [nested [1]; nested []; nested []; nested [4]; nested []] in
   match exec_at spot_eqb [2; 0; 0; 2; 1; 0; 2; 0; 2]%nat (glue_turns groups heads, spots subs [9; 9; 9]%nat) with
   | Some (ps, s) => map s (map Body [0; 1; 2; 3; 4] ++ map Size [0; 1; 2])%nat = map Some (map MSub [nested [1; 2]; nested []; nested []; nested [4]; nested []] ++ map MSize [1; 0; 1]%nat) /\ map next ps = repeat None 3
   | None => False
   end).
Proof. split; [cbn; repeat constructor; cbn; lia|vm_compute; split; reflexivity]. Qed.
