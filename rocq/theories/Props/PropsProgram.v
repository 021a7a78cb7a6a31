(** The whole program: C61. *)
From Coq Require Import List ZArith QArith Bool Lia Sorting.Sorted Sorting.Permutation.
From Verif.Model Require Import Run ListMem Mpi Hash Subhalo Catalogue Unbind Program.
From Verif.Spec Require Import Members Nesting Query Unbinding Catalogue Program.
From Verif.Proofs Require Import MpiProofs HashProofs CatalogueProofs RestartProofs RefineProofs ProgramLoop.
From Verif.Props Require Import PropsApostle PropsMembers PropsNest.
Import ListNotations.
Local Open Scope nat_scope.

(** C61: on valid input, for every number of processes and snapshots, every schedule of the threads and every outcome of the
    numerical functions, the program ends without crash.  There is a sequence of catalogues, beginning with the empty one:
    every catalogue is sound at its snapshot and follows from its predecessor, the last is the one in memory at the end, and
    the files of every snapshot can be loaded by any number of processes, which yields that snapshot's catalogue. *)
Theorem C61_whole_runs : forall (X R S E : Type) (g : setup X R S E) (W n : nat) (d0 : disk X R),
  sane g -> let start := g_min_snapshot g in valid_input g W n start ->
  exists (cat : nat -> list (list (sub X R))) (d : disk X R),
    hbt g W n start d0 = Done (tt, d, cat n) /\ cat 0 = repeat [] W /\
    (forall k, k < n -> sound g W (start + Z.of_nat k) (cat (Datatypes.S k)) /\ evolves g (start + Z.of_nat k) (cat k) (cat (Datatypes.S k))) /\
    (forall k dep W', k < n -> 1 <= W' -> exists out, load (g_snapid g) (g_junk g) (g_min_snapshot g) d (start + Z.of_nat k) dep W' = Loaded out /\
      length out = W' /\
      Forall2 (fun s s' => same_but_particles (match dep with SubTable => [] | SubParticles => firstn (s_nbound s) (ids_of s) | SrcParticles => ids_of s end) s s')
        (concat (cat (Datatypes.S k))) (concat out)).
Proof.
  intros X R S E g W n d0 Hg start [V1 V2 V3 V4]. destruct (loop_ok g Hg W V1 n start (repeat [] W) V2 (state_empty W _) V3) as (cs & raw & L1 & L0 & L2 & L3 & L4).
  - intros _ s p Hs. assert (E0 : concat (repeat (@nil (sub X R)) W) = []) by (clear; induction W; [reflexivity|assumption]). rewrite E0 in Hs. destruct Hs.
  - exact V4.
  - destruct (L1 d0) as (d & D1 & D2 & D3). exists cs, d. split; [|split; [exact L2|split]].
    + unfold hbt, program, load. fold start. replace (Z.ltb (start - 1) start) with true by (symmetry; apply Z.ltb_lt; lia). exact D1.
    + intros k Hk. split; apply L4; exact Hk.
    + intros k dep W' Hk HW'. destruct (L0 k Hk) as (Lc & Ec). destruct (stored_load g W V1 (start + Z.of_nat k) (raw k) d dep W' Lc HW' ltac:(lia) (D2 k Hk)) as (out & O1 & O2 & O3). exists out. split; [exact O1|]. split; [exact O2|]. rewrite Ec. exact O3.
Qed.
Print Assumptions C61_whole_runs.

(** C61: a run of the first [n] snapshots, followed by a restart from its files, ends with the same catalogue and the same
    later files as the uninterrupted run.  The disk of the restart is any disk with the files of the last snapshot before. *)
Theorem C61_restarted_runs : forall (X R S E : Type) (g : setup X R S E) (W n m : nat) (d0 d1 dr : disk X R) c1,
  sane g -> let start := g_min_snapshot g in valid_input g W (n + Datatypes.S m) start -> 1 <= n ->
  hbt g W n start d0 = Done (tt, d1, c1) ->
  (forall j, j < W -> d_sub dr (start + Z.of_nat n - 1) j = d_sub d1 (start + Z.of_nat n - 1) j /\ d_src dr (start + Z.of_nat n - 1) j = d_src d1 (start + Z.of_nat n - 1) j) ->
  exists cat d d2, hbt g W (n + Datatypes.S m) start d0 = Done (tt, d, cat) /\ hbt g W (Datatypes.S m) (start + Z.of_nat n) dr = Done (tt, d2, cat) /\
    forall snap j, (start + Z.of_nat n <= snap <= start + Z.of_nat n + Z.of_nat m)%Z -> j < W -> d_sub d2 snap j = d_sub d snap j /\ d_src d2 snap j = d_src d snap j.
Proof.
  intros X R S E g W n m d0 d1 dr c1 Hg start [V1 V2 V3 V4] Hn Erun Hfiles. destruct (loop_ok g Hg W V1 n start (repeat [] W) V2 (state_empty W _)) as (cs & raw & L1 & L0 & L2 & L3 & L4).
  { intros snap Hs. apply V3. lia. } { intros _ s p Hs. assert (E0 : concat (repeat (@nil (sub X R)) W) = []) by (clear; induction W; [reflexivity|assumption]). rewrite E0 in Hs. destruct Hs. } { intros snap p Hs. apply V4. lia. }
  assert (Eload : forall d : disk X R, load (g_snapid g) (g_junk g) start d (start - 1) SrcParticles W = Loaded (repeat [] W)). { intros d. unfold load. replace (Z.ltb (start - 1) start) with true by (symmetry; apply Z.ltb_lt; lia). reflexivity. }
  destruct (L1 d0) as (d1' & D1 & D2 & D3). unfold hbt, program in Erun. fold start in Erun. rewrite Eload in Erun. fold (loop g) in Erun. rewrite D1 in Erun. injection Erun as <- <-.
  assert (En : n = Datatypes.S (n - 1)) by lia. assert (Hk : n - 1 < n) by lia. destruct (L4 (n - 1) Hk) as (S1 & S2 & _). pose proof (D2 (n - 1) Hk) as Hst. destruct (L0 (n - 1) Hk) as (Lc & Ec). set (c := raw (n - 1)) in *. rewrite <- En in S1, S2, Ec. replace (start + Z.of_nat (n - 1))%Z with (start + Z.of_nat n - 1)%Z in * by lia.
  assert (Hst' : stored g (start + Z.of_nat n - 1) c dr).
  { destruct Hst as [_ Hst]. split; [intros; split; reflexivity|]. intros k subs Hk'. destruct (Hst k subs Hk') as [G1 G2]. assert (k < W) by (rewrite <- Lc; apply nth_error_Some; congruence). destruct (Hfiles (0 + k)) as [G3 G4]; [cbn; lia|]. rewrite G3, G4. auto. }
  destruct (stored_alike g W V1 (start + Z.of_nat n - 1) c dr Lc ltac:(fold start; lia) Hst') as (out & O1 & O2). rewrite <- Ec in O2.
  destruct (one_ok g Hg W V1 (start + Z.of_nat n) (cs n)) as (c2 & C1 & C2 & C3 & C4 & C5 & C6 & _).
  { lia. } { apply V3. lia. } { exact S1. } { intros s p Hs Hp. replace (start + Z.of_nat n)%Z with (start + Z.of_nat n - 1 + 1)%Z by lia. apply V4; [lia|]. eapply (sd_particles _ _ _ _ S2); eauto. }
  destruct (loop_ok g Hg W V1 m (start + Z.of_nat n + 1) (map (map (duplicate nothing (g_mbid g))) c2)) as (cs2 & raw2 & M1 & M0 & M2 & M3 & M4).
  { lia. } { replace (start + Z.of_nat n + 1 - 1)%Z with (start + Z.of_nat n)%Z by lia. exact C4. } { intros snap Hs. apply V3. lia. } { intros Hm s p Hs Hp. apply V4; [lia|]. eapply (sd_particles _ _ _ _ C5); eauto. } { intros snap p Hs. apply V4. lia. }
  destruct (C1 d1' (cs n) (alike_refl (cs n))) as (da & A1 & A2 & A3). destruct (C1 dr out O2) as (db & B1 & B2 & B3). destruct (M1 da) as (da' & P1 & P2 & P3). destruct (M1 db) as (db' & Q1 & Q2 & Q3).
  exists (cs2 m), da', db'. split; [|split].
  - unfold hbt, program. fold start. rewrite Eload. fold (loop g). rewrite loop_split, D1. cbn [rbind]. unfold loop in *. cbn [main_loop]. unfold one in A1. rewrite A1. cbn [rbind]. exact P1.
  - unfold hbt, program. replace (start + Z.of_nat n - 1)%Z with (start + Z.of_nat n - 1)%Z by lia. rewrite O1. cbn [main_loop]. unfold one in B1. rewrite B1. cbn [rbind]. exact Q1.
  - intros snap j Hs Hj. destruct (Z.eq_dec snap (start + Z.of_nat n)) as [->|Hne].
    + destruct (P3 (start + Z.of_nat n)%Z j ltac:(lia)) as [-> ->]. destruct (Q3 (start + Z.of_nat n)%Z j ltac:(lia)) as [-> ->]. destruct (ListMemProofs.nth_error_in_range c2 j) as [subs Hsubs]; [lia|].
      destruct A2 as [_ A2], B2 as [_ B2]. destruct (A2 j subs Hsubs) as [F1 F2], (B2 j subs Hsubs) as [F3 F4]. cbn [Nat.add] in *. rewrite F1, F2, F3, F4. auto.
    + assert (Hi : Z.to_nat (snap - start - Z.of_nat n - 1) < m) by lia. destruct (P2 _ Hi) as [_ Ha], (Q2 _ Hi) as [_ Hb], (M0 _ Hi) as [Lr _].
      replace (start + Z.of_nat n + 1 + Z.of_nat (Z.to_nat (snap - start - Z.of_nat n - 1)))%Z with snap in * by lia. destruct (ListMemProofs.nth_error_in_range (raw2 (Z.to_nat (snap - start - Z.of_nat n - 1))) j) as [subs Hsubs]; [lia|].
      destruct (Ha j subs Hsubs) as [F1 F2], (Hb j subs Hsubs) as [F3 F4]. cbn [Nat.add] in *. rewrite F1, F2, F3, F4. auto.
Qed.
Print Assumptions C61_restarted_runs.

(** Three snapshots on two processes.  Snapshot 0 has two groups; in snapshot 1 they have merged; in snapshot 2 the particle 0,
    to which the heavier subhalo is tied, is outside all groups, and a new group appears.  The threads take the elements of
    their loops in reverse order. *)
Local Open Scope Z_scope.
Definition c61_loaded (snap : Z) : list (list (Z * Z)) :=
  let p id := (id, 100 * snap + id) in [map p [5; 0; 10; 3; 8; 1]; map p [2; 9; 4; 7; 6]].
Definition c61_groups (snap : Z) : list (list (list (Z * Z) * Z)) :=
  let h id l := (map (fun i => (i, 0)) l, id) in
  if snap =? 0 then [[h 500 [0; 1; 2; 3]]; [h 501 [4; 5; 6]]]
  else if snap =? 1 then [[]; [h 510 [0; 1; 2; 3; 4; 5; 6]]]
  else [[h 520 [8; 9; 10]]; [h 521 [4; 1; 2; 3; 5; 6; 7]]].
Definition c61 : setup Z nat Z Z := mksetup Z nat Z Z 3 3 false false false false true false (4 # 5) (converged_q (99 # 100)) (allowed_q 3) 10 2 0 0
  (isort fst) (isort (fun p => fst (fst p))) (isort fst) (isort (fun p => Z.of_nat (snd p))) key_sort mass_sort (fun _ => isort snd)
  (fun _ _ _ l => rev l) (fun _ _ l => rev l) (fun N d => if Nat.eqb d 1 then N else 1%nat) (fun s => (inject_Z (6 * (s mod 2)), inject_Z (6 * (s mod 2)), inject_Z (6 * (s mod 2)))) (fun _ s => s) (fun s => s)
  (fun _ _ _ => 1%Q) (fun _ r => r) 0%nat (fun e => e <? 0) (fun e => 0 <? e) 0
  (fun _ w _ _ i => match nth_error (fst w) i with Some p => fst p - 100 | None => 1 end) (fun _ _ _ i => Z.of_nat i)
  (fun _ _ _ r => r) (fun _ l => l) (fun _ _ _ => false) (fun _ => 1%Q) (fun s => s_rest s) (fun p _ => Z.to_nat (fst p)) (fun _ s => s_rest s)
  (fun _ r => r) (fun s => s) (fun _ _ _ => 0) c61_loaded c61_groups.
Definition c61_blank : disk Z nat := mkdisk (fun _ _ => None) (fun _ _ => None).
Definition c61_see (n : nat) :=
  match hbt c61 2 n 0 c61_blank with
  | Done (_, _, c) => Some (map (map (fun s => (s_track s, s_birth s, s_host s, s_rank s, s_nest s, map fst (s_parts s)))) c)
  | _ => None
  end.
Lemma c61_sane : sane c61.
Proof.
  assert (HS : forall A (key : A -> Z) l, Permutation (isort key l) l /\ StronglySorted Z.le (map key (isort key l))).
  { intros A key l. destruct (isort_sorts key l) as [HP HO]. split; [exact HP|]. clear HP. induction HO as [|x m HO IH HF]; cbn; constructor; [exact IH|]. rewrite Forall_forall in *. intros y Hy. apply in_map_iff in Hy as (z & <- & Hz). apply HF. exact Hz. }
  constructor; cbn.
  - lia.
  - intros l. apply (HS _ fst).
  - intros l. apply (HS _ (fun p : Z * Z * nat => fst (fst p))).
  - intros l. apply (HS _ fst).
  - intros l. destruct (HS _ (fun p : nat * nat => Z.of_nat (snd p)) l) as [HP HO]. split; [exact HP|]. revert HO. generalize (isort (fun p : nat * nat => Z.of_nat (snd p)) l). clear. intros m. induction m as [|x m IH]; cbn; intros HO; constructor.
    + apply IH. inversion HO; assumption.
    + inversion HO as [|? ? _ HF]. rewrite Forall_forall in *. intros y Hy. apply in_map_iff in Hy as (z & <- & Hz). apply Nat2Z.inj_le. apply HF. apply in_map_iff. exists z. split; [reflexivity|exact Hz].
  - intros l. apply key_sort_fill.
  - apply mass_sort_ok.
  - exists Z.ltb. intros site l. destruct (isort_sorts (@snd nat Z) l) as [HP HO]. split; [exact HP|]. unfold ascending. clear HP. induction HO as [|x m HO IH HF]; constructor; [exact IH|]. rewrite Forall_forall in *. intros y Hy. apply Z.ltb_ge. apply HF. exact Hy.
  - intros. symmetry. apply Permutation_rev.
  - intros. symmetry. apply Permutation_rev.
  - split; [intros N d HN _; destruct (Nat.eqb d 1); lia|reflexivity].
  - reflexivity.
  - reflexivity.
  - intros e. rewrite Z.ltb_lt, Z.ltb_ge. lia.
  - reflexivity.
  - discriminate.
  - apply (converged_q_ok (99 # 100)). discriminate.
  - apply (allowed_q_ok 3). discriminate.
  - lia.
Qed.
Lemma c61_within snap id : 0 <= id <= 10 -> within c61 snap id.
Proof. intros H. exists (0, 100 * snap + 0), (10, 100 * snap + 10). split; [right; left; reflexivity|]. split; [right; right; left; reflexivity|]. exact H. Qed.
Lemma c61_valid : valid_input c61 2 3 0.
Proof.
  assert (Hids : forall snap p, In p (particles c61 snap) -> 0 <= fst p <= 10).
  { intros snap p Hp. cbn in Hp. repeat (destruct Hp as [<-|Hp]; [cbn; lia|]). destruct Hp. }
  constructor; [lia|lia| |intros snap p _ Hp; apply c61_within; apply (Hids snap); exact Hp].
  intros snap Hs. constructor.
  - reflexivity.
  - cbn. unfold c61_groups. destruct (snap =? 0), (snap =? 1); reflexivity.
  - cbn. lia.
  - assert (E0 : map fst (particles c61 snap) = [5; 0; 10; 3; 8; 1; 2; 9; 4; 7; 6]) by reflexivity. rewrite E0. repeat (apply NoDup_cons; [cbn; lia|]). apply NoDup_nil.
  - intros p Hp. apply (Hids snap p Hp).
  - discriminate.
  - intros h p Hh Hp. apply c61_within. unfold groups in Hh. cbn in Hh. unfold c61_groups in Hh. destruct (snap =? 0), (snap =? 1); cbn in Hh; repeat (destruct Hh as [<-|Hh]; [cbn in Hp; repeat (destruct Hp as [<-|Hp]; [cbn; lia|]); destruct Hp|]); destruct Hh.
Qed.
Example C61_witness : sane c61 /\ valid_input c61 2 3 0 /\ map c61_see [1; 2; 3]%nat =
  [Some [[(0, 0, 500, 0, [], [0; 1; 2; 3])]; [(1, 0, 501, 0, [], [4; 5; 6])]];
   Some [[(0, 0, 510, 0, [1], [0; 1; 2; 3]); (1, 0, 510, 1, [], [4; 5; 6])]; []];
   Some [[(0, 0, -1, 0, [], [0; 1; 2; 3]); (2, 2, 520, 0, [], [8; 9; 10])]; [(1, 0, 521, 0, [], [1; 2; 3; 4; 5; 6; 7])]]].
Proof. split; [exact c61_sane|]. split; [exact c61_valid|]. vm_compute. reflexivity. Qed.
