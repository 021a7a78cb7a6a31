(** Properties of saved catalogues and of restarts: C41, C51. *)
From Coq Require Import List ZArith QArith Bool Lia Sorting.Sorted Sorting.Permutation.
From Verif.Spec Require Import Basic Catalogue Query.
From Verif.Model Require Import Run Mpi Hash Subhalo ParticleExchange Catalogue.
From Verif.Proofs Require Import MpiProofs CatalogueProofs RestartProofs.
Import ListNotations.
Local Open Scope nat_scope.

(** C41: whatever was on disk before, saving from any number of processes succeeds and changes in memory only the copy of the id
    of the most bound particle; loading on any number of processes then gives exactly these subhalos, in file order, with all
    members, all nests and, for each reading depth, the ids asked for. *)
Theorem C41_reload : forall (X R : Type) (null : Z) (mbid : Z -> R -> R) (snapid : Z -> Z) (junk : nat -> nat -> nat -> X) (min_snapshot : Z)
  (d : disk X R) (snap : Z) (cat : list (list (sub X R))),
  1 <= length cat -> bound_inside cat -> (min_snapshot <= snap)%Z ->
  exists d' cat', save null mbid snapid d snap cat = Some (d', cat') /\
    cat' = map (map (fun s => set_rest (mbid (hd null (ids_of s)) (s_rest s)) s)) cat /\
    forall (dep : depth) (W : nat), 1 <= W ->
      exists out, load snapid junk min_snapshot d' snap dep W = Loaded out /\ length out = W /\
        Forall2 (fun s s' => same_but_particles
                   (match dep with SubTable => [] | SubParticles => firstn (s_nbound s) (ids_of s) | SrcParticles => ids_of s end) s s')
          (concat cat') (concat out).
Proof.
  intros X R null mbid snapid junk mi d snap cat H1 Hb Hm. destruct (save_eq null mbid snapid junk mi d snap cat Hb) as (d' & E & HH).
  exists d', (map (map (duplicate null mbid)) cat). split; [exact E|]. split.
  - apply map_ext. intros c. apply map_ext. intros s. unfold duplicate, ids_of. destruct (s_parts s); reflexivity.
  - intros dep W HW. destruct (load_eq null mbid snapid junk mi dep snap d d' cat W HW H1 Hm HH) as (ivs & out & _ & EL & _ & HL & EC).
    exists out. split; [exact EL|]. split; [exact HL|]. rewrite EC. pose proof (files_same null mbid snapid junk mi dep cat 0) as HF. cbn [Nat.add] in HF.
    assert (G : forall l l' : list (sub X R), Forall2 (fun s s' => same_but_particles (wanted dep s) (duplicate null mbid s) s') l l' ->
      Forall2 (fun s s' => same_but_particles (match dep with SubTable => [] | SubParticles => firstn (s_nbound s) (ids_of s) | SrcParticles => ids_of s end) s s') (map (duplicate null mbid) l) l').
    { intros l l'. induction 1 as [|s s' l l' Hs Hl IH]; cbn [map]; constructor; [|exact IH]. destruct dep, s; exact Hs. }
    rewrite <- concat_map. apply G. exact HF.
Qed.
Print Assumptions C41_reload.

(** C41, with the number of processes unchanged: every process gets its own subhalos back. *)
Theorem C41_same_processes : forall (X R : Type) (null : Z) (mbid : Z -> R -> R) (snapid : Z -> Z) (junk : nat -> nat -> nat -> X) (min_snapshot : Z)
  (d d' : disk X R) (snap : Z) (cat cat' : list (list (sub X R))),
  1 <= length cat -> bound_inside cat -> (min_snapshot <= snap)%Z -> save null mbid snapid d snap cat = Some (d', cat') ->
  exists out, load snapid junk min_snapshot d' snap SrcParticles (length cat) = Loaded out /\
    Forall2 (Forall2 (fun s s' => same_but_particles (ids_of s) s s')) cat' out.
Proof.
  intros X R null mbid snapid junk mi d d' snap cat cat' H1 Hb Hm E. destruct (save_eq null mbid snapid junk mi d snap cat Hb) as (d1 & E1 & HH).
  assert (d1 = d') by congruence. assert (cat' = map (map (duplicate null mbid)) cat) by congruence. subst d1 cat'. clear E E1.
  exists (map (file_subs null mbid junk SrcParticles cat) (seq 0 (length cat))). split; [exact (load_same_ranks null mbid snapid junk mi SrcParticles snap d d' cat H1 Hm HH)|].
  pose proof (ranks_same null mbid snapid junk mi SrcParticles cat) as HR. cbn [wanted] in HR.
  revert HR. generalize (map (file_subs null mbid junk SrcParticles cat) (seq 0 (length cat))). clear. intros out HR.
  induction HR as [|c c' r r' Hc Hr IH]; cbn [map]; constructor.
  - clear -Hc. induction Hc as [|s s' l l' Hs Hl IH]; cbn [map]; constructor; [|exact IH]. destruct s; exact Hs.
  - apply IH.
Qed.
Print Assumptions C41_same_processes.

(** C41, what a save does not touch: the files of other snapshots, and files beyond the number of processes. *)
Theorem C41_other_files : forall (X R : Type) (null : Z) (mbid : Z -> R -> R) (snapid : Z -> Z)
  (d d' : disk X R) (snap : Z) (cat cat' : list (list (sub X R))), save null mbid snapid d snap cat = Some (d', cat') ->
  forall s j, s <> snap \/ length cat <= j -> d_sub d' s j = d_sub d s j /\ d_src d' s j = d_src d s j.
Proof.
  intros X R null mbid snapid d d' snap cat cat' E s j Hs.
  assert (HF : forall cat (d : disk X R) i nf tot (d1 : disk X R) c1, save_from null mbid snapid d snap i nf tot cat = Some (d1, c1) ->
      s <> snap \/ j < i \/ i + length cat <= j -> d_sub d1 s j = d_sub d s j /\ d_src d1 s j = d_src d s j).
  { clear. induction cat as [|c r IH]; intros d i nf tot d1 c1 E Hs; cbn [save_from] in E; [injection E as <- _; split; reflexivity|].
      unfold write_file in E. destruct (fill_buffer c 0 []) as [ps b]. destruct (mapM _ (combine c ps)) as [bd|]; [|discriminate]. destruct (mapM _ (combine c ps)) as [al|]; [|discriminate].
      destruct (save_from _ _ _ _ _ (S i) _ _ r) as [[d2 c2]|] eqn:E2; [|discriminate]. injection E as <- _. cbn [length] in Hs.
      destruct (IH _ _ _ _ _ _ E2 ltac:(lia)) as [G1 G2]. rewrite G1, G2. cbn [d_sub d_src]. rewrite !put_other by lia. split; reflexivity. }
  apply (HF _ _ _ _ _ _ _ E). cbn in *. lia.
Qed.
Print Assumptions C41_other_files.

(** C41, the check: whatever is on disk, a load that ends normally has read as many subhalos as file 0 announces, and so many are
    stored in the announced files.  Any other number of stored subhalos is an error. *)
Theorem C41_mismatch_reported : forall (X R : Type) (snapid : Z -> Z) (junk : nat -> nat -> nat -> X) (min_snapshot : Z)
  (d : disk X R) (snap : Z) (dep : depth) (W : nat) (f0 : sub_file X R) (fs : list (sub_file X R)),
  1 <= W -> (min_snapshot <= snap)%Z -> d_sub d snap 0 = Some f0 -> (0 <= f_nfiles f0)%Z ->
  mapM (d_sub d snap) (seq 0 (Z.to_nat (f_nfiles f0))) = Some fs ->
  Z.of_nat (nsum (map (fun f => length (f_subs f)) fs)) <> f_total f0 ->
  forall cat, load snapid junk min_snapshot d snap dep W <> Loaded cat.
Proof.
  intros X R snapid junk mi d snap dep W f0 fs HW Hm E0 Hn EM Hne cat E.
  destruct (load_count (fun _ r => r) snapid junk mi dep d snap W cat HW Hm ltac:(intros f Ef; congruence) E) as (f1 & fs1 & G1 & G2 & _ & G3).
  assert (f1 = f0) by congruence. subst f1. assert (fs1 = fs) by congruence. subst fs1. contradiction.
Qed.
Print Assumptions C41_mismatch_reported.

(** ** Concrete catalogues *)
Local Open Scope Z_scope.
Definition c41_sub (track : Z) (nb : nat) (parts : list (Z * Z)) (nest : list Z) : sub Z Z :=
  mksub track nb (inject_Z track) 0 0 0 0%Q (-1) (-1) (-1) (-1) (-1) (-1) parts nest 0.
Definition c41_cat : list (list (sub Z Z)) :=
  [[c41_sub 0 2 [(5, 50); (7, 70); (6, 60)] [1]; c41_sub 1 0 [(9, 90)] []]; []; [c41_sub 2 1 [(3, 30); (8, 80)] [4; 3]]].
Definition c41_blank : disk Z Z := mkdisk (fun _ _ => None) (fun _ _ => None).
Definition c41_mb (id : Z) (_ : Z) : Z := id.
Definition c41_junk (i j k : nat) : Z := -7.
(** Three processes save, two load. *)
Example C41_witness :
  bound_inside c41_cat /\
  match save (-1) c41_mb (fun s => s + 100) c41_blank 4 c41_cat with
  | Some (d, _) => match load (fun s => s + 100) c41_junk 0 d 4 SrcParticles 2 with
                   | Loaded out => map (map (fun s => (s_track s, s_nbound s, s_nest s, s_rest s, s_parts s))) out =
                       [[(0, 2%nat, [1], 5, [(5, -7); (7, -7); (6, -7)]); (1, 0%nat, [], 9, [(9, -7)])]; [(2, 1%nat, [4; 3], 3, [(3, -7); (8, -7)])]]
                   | _ => False
                   end
  | None => False
  end.
Proof.
  split; [|vm_compute; reflexivity].
  intros c s Hc Hs. cbn in Hc. repeat (destruct Hc as [<-|Hc]; [cbn in Hs; repeat (destruct Hs as [<-|Hs]; [cbn; lia|]); destruct Hs|]). destruct Hc.
Qed.
(** A file that lost a subhalo is noticed. *)
Example C41_mismatch_witness :
  match save (-1) c41_mb (fun s => s + 100) c41_blank 4 c41_cat with
  | Some (d, _) => match d_sub d 4 2%nat with
                   | Some f => load (fun s => s + 100) c41_junk 0
                                 (mkdisk (put (d_sub d) 4 2 (mksubfile (f_nfiles f) (f_snapid f) (f_total f) [] [] [])) (d_src d)) 4 SubTable 2 = Mismatch
                   | None => False
                   end
  | None => False
  end.
Proof. vm_compute. reflexivity. Qed.
(** Finding: only the number is checked.  When a snapshot is saved again and the program dies after the first file, the mixture of
    old and new files loads without an error whenever the numbers agree. *)
Theorem C41_torn_save_refuted : exists (d : disk Z Z) (d' d'' : disk Z Z) (old new : list (list (sub Z Z))) old' new' c,
  save (-1) c41_mb (fun s => s) d 4 old = Some (d', old') /\ write_file (-1) c41_mb (fun s => s) d' 4 0 2 2 (hd [] new) = Some (d'', new') /\
  load (fun s => s) c41_junk 0 d'' 4 SubTable 2 = Loaded c /\ map (map s_track) c <> map (map s_track) old /\ map (map s_track) c <> map (map s_track) new.
Proof.
  exists c41_blank. eexists. eexists. exists [[c41_sub 0 0 [] []]; [c41_sub 1 0 [] []]], [[c41_sub 1 0 [] []]; [c41_sub 0 0 [] []]]. do 3 eexists.
  split; [vm_compute; reflexivity|]. split; [vm_compute; reflexivity|]. split; [vm_compute; reflexivity|]. split; vm_compute; discriminate.
Qed.
Print Assumptions C41_torn_save_refuted.
Local Open Scope nat_scope.

(** C51: take a run of any length that completed snapshot [b = start + n], whose catalogue has all ids inside the ranges of the next
    particle snapshot.  Let it be interrupted there, with the files of snapshot [b] intact and anything in the files of later
    snapshots.  The run restarted from [b + 1] ends in the same way as the uninterrupted one, with the same catalogue in
    memory and the same files for all snapshots from [b + 1] on.  [rest], the processing after the update, is any function of
    the updated catalogue that keeps the number of processes and does not depend on the hidden state. *)
Theorem C51_restart : forall (X R H : Type) (null : Z) (mbid : Z -> R -> R) (snapid : Z -> Z) (junk : nat -> nat -> nat -> X) (min_snapshot : Z) chunk
  (sort_local : list (Z * X * nat) -> list (Z * X * nat)) (sort_roam : list (Z * (X * nat)) -> list (Z * (X * nat)))
  (ranges : Z -> list Z) (snaps : Z -> list (snap_proc X)) (derive : sub X R -> sub X R)
  (rest : Z -> H -> list (list (sub X R)) -> run (H * list (list (sub X R)))),
  (null < 0)%Z -> 1 <= chunk ->
  (forall l, Permutation (sort_local l) l) -> (forall l, StronglySorted Z.le (map (fun p => fst (fst p)) (sort_local l))) ->
  (forall l, Permutation (sort_roam l) l) -> (forall l, StronglySorted Z.le (map fst (sort_roam l))) ->
  (forall snap h h' c, same_outcome (fun a b => snd a = snd b) (rest snap h c) (rest snap h' c)) ->
  (forall snap h c h' c', length (snaps snap) = length c -> rest snap h c = Done (h', c') -> length c' = length c) ->
  let run_from := program null mbid snapid junk min_snapshot chunk sort_local sort_roam ranges snaps derive rest in
  forall W n m start h h' d0 d_restart h_b d_b cat,
  1 <= W -> (forall snap, (start + Z.of_nat n < snap <= start + Z.of_nat n + 1 + Z.of_nat m)%Z -> length (snaps snap) = W) -> (min_snapshot <= start + Z.of_nat n)%Z ->
  run_from W (S n) start h d0 = Done (h_b, d_b, cat) ->
  length cat = W -> bound_inside cat -> readable null ranges snaps (start + Z.of_nat (S n)) cat ->
  (forall j, j < W -> d_sub d_b (start + Z.of_nat n) j = d_sub d_restart (start + Z.of_nat n) j /\ d_src d_b (start + Z.of_nat n) j = d_src d_restart (start + Z.of_nat n) j) ->
  same_outcome (fun st st' => snd st = snd st' /\
      forall s j, (start + Z.of_nat n < s <= start + Z.of_nat n + 1 + Z.of_nat m)%Z -> j < W ->
        d_sub (snd (fst st)) s j = d_sub (snd (fst st')) s j /\ d_src (snd (fst st)) s j = d_src (snd (fst st')) s j)
    (run_from W (S n + S m) start h d0)
    (run_from W (S m) (start + Z.of_nat (S n))%Z h' d_restart).
Proof.
  intros X R H null mbid snapid junk mi chunk sl sr ranges snaps derive rest Hn Hc H1 H2 H3 H4 HR1 HR2 run_from W n m start h h' d0 dr hb db cat HW HS Hmin HP HL Hb HRd Hd.
  pose proof (restart_correct null mbid snapid junk mi chunk sl sr ranges snaps derive rest Hn Hc H1 H2 H3 H4 HR1 HR2 W n m start h h' d0 dr hb db cat HW HS Hmin HP HL Hb HRd Hd) as G.
  fold run_from in G. destruct (run_from W (S n + S m) start h d0) as [a| |], (run_from W (S m) _ h' dr) as [b| |]; cbn in G |- *; try exact G.
  destruct G as (E1 & _ & E3). split; [exact E1|]. intros s j Hs Hj. apply E3. right. split; assumption.
Qed.
Print Assumptions C51_restart.

(** ** A concrete run of two processes *)
Local Open Scope Z_scope.
Fixpoint insert_at {A} (f : A -> Z) (x : A) (l : list A) : list A :=
  match l with [] => [x] | y :: r => if f x <=? f y then x :: y :: r else y :: insert_at f x r end.
Definition sort_at {A} (f : A -> Z) (l : list A) : list A := fold_right (insert_at f) [] l.
(** Particle [id] has attribute [10 * id + snap] in snapshot [snap]. *)
Definition c51_snaps (snap : Z) : list (snap_proc Z) :=
  [mksnap [(3, 30 + snap); (5, 50 + snap)] true [(3, 0); (5, 1)] (mkflat 0 0 0 []);
   mksnap [(9, 90 + snap); (8, 80 + snap)] false [] (mkflat 2 8 9 [1; 0])].
Definition c51_ranges (_ : Z) : list Z := [3; 6; 10].
(** After the update: the first process seeds a subhalo in snapshot 0, and every subhalo sums the attributes of its particles. *)
Definition c51_rest (snap h : Z) (c : list (list (sub Z Z))) : run (Z * list (list (sub Z Z))) :=
  Done (h + 1, map (map (fun s => set_nbound (length (s_parts s)) (set_nest (map snd (s_parts s)) s)))
    (match c with
     | c0 :: r => if snap =? 0 then (c0 ++ [c41_sub 0 2 [(9, 1); (4, 1); (3, 1)] []]) :: r else c
     | [] => []
     end)).
Definition c51_run := program (-1) c41_mb (fun s => s) c41_junk 0 2 (sort_at (fun p => fst (fst p))) (sort_at fst) c51_ranges c51_snaps (fun s => s) c51_rest.
(** Particle 4 of the seed is missing from snapshot 1. *)
Example C51_witness :
  match c51_run 2 1 0 0 c41_blank with
  | Done (h, d, cat) =>
      length cat = 2%nat /\ bound_inside cat /\ readable (-1) c51_ranges c51_snaps 1 cat /\
      map (map (fun s => (s_parts s, s_nest s))) cat = [[([(9, 1); (4, 1); (3, 1)], [1; 1; 1])]; []] /\
      match c51_run 2 1 1 99 d, c51_run 2 2 0 0 c41_blank with
      | Done (_, _, c), Done (_, _, c') => c = c' /\ map (map (fun s => (s_parts s, s_nest s))) c = [[([(9, 91); (3, 31)], [91; 31])]; []]
      | _, _ => False
      end
  | _ => False
  end.
Proof.
  destruct (c51_run 2 1 0 0 c41_blank) as [[[h d] cat]| |] eqn:E; vm_compute in E; try discriminate. injection E as <- <- <-.
  split; [reflexivity|]. split; [|split; [|split; [reflexivity|vm_compute; split; reflexivity]]].
  - intros c s Hc Hs. cbn in Hc. repeat (destruct Hc as [<-|Hc]; [cbn in Hs; repeat (destruct Hs as [<-|Hs]; [cbn; lia|]); destruct Hs|]). destruct Hc.
  - split; [reflexivity|]. split; [|split; [|split; [|split]]].
    + split; [reflexivity|]. split; [repeat constructor; lia|].
      intros [|[|[|i]]] l lo hi x Hl Hlo Hhi Hx; cbn in *; try discriminate; injection Hl as <-; injection Hlo as <-; injection Hhi as <-;
        destruct Hx as [<-|[<-|[<-|[<-|[]]]]]; cbn; split; intros Hz; intuition (try discriminate; lia).
    + cbn. repeat (apply NoDup_cons; [cbn; lia|]). apply NoDup_nil.
    + repeat constructor; unfold table_ok; cbn.
      * unfold key_le; cbn; lia.
      * exists [(9, 0); (8, 1)]. split; [apply Permutation_refl|reflexivity].
    + cbn. lia.
    + exists 3, 10. split; [reflexivity|]. split; [reflexivity|]. intros c s id Hc Hs Hid. cbn in Hc.
      repeat (destruct Hc as [<-|Hc]; [cbn in Hs; repeat (destruct Hs as [<-|Hs]; [cbn in Hid; lia|]); destruct Hs|]). destruct Hc.
Qed.
(** Finding: with an id below the first range of the next snapshot (C17_ids_below_the_ranges_keep_their_record) the restarted run
    differs from the uninterrupted one: it works with whatever was in memory in place of the stale attributes. *)
Definition c51_rest_low (snap h : Z) (c : list (list (sub Z Z))) : run (Z * list (list (sub Z Z))) :=
  Done (h + 1, map (map (fun s => set_nbound (length (s_parts s)) (set_nest (map snd (s_parts s)) s)))
    (match c with
     | c0 :: r => if snap =? 0 then (c0 ++ [c41_sub 0 2 [(9, 1); (2, 1)] []]) :: r else c
     | [] => []
     end)).
Definition c51_run_low := program (-1) c41_mb (fun s => s) c41_junk 0 2 (sort_at (fun p => fst (fst p))) (sort_at fst) c51_ranges c51_snaps (fun s => s) c51_rest_low.
Theorem C51_low_id_refuted : exists h d cat st st', c51_run_low 2 1 0 0 c41_blank = Done (h, d, cat) /\ bound_inside cat /\
  c51_run_low 2 1 1 0 d = Done st /\ c51_run_low 2 2 0 0 c41_blank = Done st' /\ map (map s_nest) (snd st) <> map (map s_nest) (snd st').
Proof.
  do 5 eexists. split; [vm_compute; reflexivity|]. split; [|split; [vm_compute; reflexivity|split; [vm_compute; reflexivity|vm_compute; discriminate]]].
  intros c s Hc Hs. cbn in Hc. repeat (destruct Hc as [<-|Hc]; [cbn in Hs; repeat (destruct Hs as [<-|Hs]; [cbn; lia|]); destruct Hs|]). destruct Hc.
Qed.
Print Assumptions C51_low_id_refuted.
