(** C64: loading Gadget snapshots. *)
From Coq Require Import List ZArith NArith Bool Lia.
From Verif.Model Require Import Mymath Mpi Gadget.
From Verif.Spec Require Import Basic Gadget.
From Verif.Proofs Require Import MymathProofs2 GadgetProofs GadgetFile GadgetLoad.
Import ListNotations.
Local Open Scope Z_scope.

(** * C64: a Gadget snapshot is loaded completely and exactly *)
(** Whatever the byte order, the widths of floating-point numbers and ids, the naming of the files, the number of processes,
    the types present and the build options: if the files follow the format, have the blocks the reader assumes, and the
    first file is not empty, then the processes together hold exactly the particles of the files in order, each with its
    own position, velocity, id, mass, energy and type. *)
Theorem C64_gadget_loaded : forall (R : Type) (real : list N -> R) (is_zero box_matches : list N -> bool) (wrap : R -> R) (speed : list N -> R -> R)
    (periodic has_id rank_style id_unsigned dm_only thermal : bool) (hbtint_size : Z) (disk : name -> option (list N)) (swap : bool) (w wi : nat)
    (c0 : content) (cr : list content) (W : nat),
  let cs := c0 :: cr in
  laid_out disk (map (encode is_zero has_id thermal swap wi) cs) ->
  Forall (valid_content has_id id_unsigned w wi) cs -> Forall (has_blocks is_zero dm_only thermal) cs ->
  w = 4%nat \/ w = 8%nat -> (has_id = true -> Z.of_nat wi <= hbtint_size /\ rank_style = false) ->
  particles_of c0 <> [] -> c_files c0 = Z.of_nat (length cs) -> box_matches (c_box c0) = true -> (0 < W)%nat ->
  exists res, load real is_zero box_matches wrap speed periodic has_id rank_style id_unsigned dm_only thermal hbtint_size disk W = Some res /\
    length res = W /\ concat res = all_loaded real is_zero wrap speed periodic has_id dm_only thermal (c_time c0) cs.
Proof.
  intros R real is_zero box_matches wrap speed periodic has_id rank_style id_unsigned dm_only thermal hbtint_size disk swap w wi c0 cr W cs HL HV HB Hw Hi Hne Hf Hbox HW.
  eapply (load_ok real is_zero box_matches wrap speed periodic has_id rank_style id_unsigned dm_only thermal hbtint_size disk swap w wi cs HL HV c0 cr eq_refl); assumption.
Qed.
Print Assumptions C64_gadget_loaded.

(** The first file may not be empty: block sizes are found by dividing by its number of particles. *)
Theorem C64_empty_first_file_refuted : forall (R : Type) (real : list N -> R) (is_zero box_matches : list N -> bool) (wrap : R -> R) (speed : list N -> R -> R)
    (periodic has_id rank_style id_unsigned dm_only thermal : bool) (hbtint_size : Z) (disk : name -> option (list N)) (swap : bool) (w wi : nat)
    (c0 : content) (cr : list content) (W : nat),
  let cs := c0 :: cr in
  laid_out disk (map (encode is_zero has_id thermal swap wi) cs) -> Forall (valid_content has_id id_unsigned w wi) cs -> particles_of c0 = [] ->
  load real is_zero box_matches wrap speed periodic has_id rank_style id_unsigned dm_only thermal hbtint_size disk W = None.
Proof.
  intros R real is_zero box_matches wrap speed periodic has_id rank_style id_unsigned dm_only thermal hbtint_size disk swap w wi c0 cr W cs HL HV He.
  destruct (open_header is_zero has_id id_unsigned thermal disk swap w wi c0 _ 0 HL eq_refl (Forall_inv HV)) as [O1 O2].
  unfold load, load_header. change 0 with (Z.of_nat 0) at 1. rewrite O1, O2. cbn [header_of h_box h_npart]. rewrite sum_counts. change (concat (c_types c0)) with (particles_of c0). rewrite He.
  destruct (box_matches (c_box c0)); [|reflexivity]. cbn [negb]. destruct (skip_fortran_block swap _) as [[b f]|]; reflexivity.
Qed.
Print Assumptions C64_empty_first_file_refuted.

(** Two files with gas, dark matter and stars; dark matter has its mass in the header. *)
Definition number (k : N) : list N := [k; 1; 2; 3]%N.
Definition star (k : N) (id : Z) : stored_particle := mksp (number k, number (k + 1), number (k + 2)) (number (k + 3), number (k + 4), number (k + 5)) id (number (k + 6)) (number (k + 7)).
Definition nought : list N := repeat 0%N 8.
Definition unity : list N := [0; 0; 0; 0; 0; 0; 240; 63]%N.
Definition half : list N := [0; 0; 0; 0; 0; 0; 224; 63]%N.
Definition snap_with (mass : list N) (gas dm stars : list stored_particle) : content :=
  mkcontent [gas; dm; []; []; stars; []] [nought; mass; nought; nought; nought; nought] [4; 3; 0; 0; 2 ^ 32 - 1; 0] half half 0 0 0 2 unity half half half (repeat 7%N 96) [1; 2; 3]%N.
Definition snap_file := snap_with unity.
Definition file_a : content := snap_file [star 10 5] [star 20 (-7)] [].
Definition file_b : content := snap_file [star 30 (2 ^ 31 - 1); star 40 0] [star 50 9; star 60 11] [star 70 12].
Definition zero_bytes (b : list N) : bool := forallb (N.eqb 0) b.
Definition plain (files : list (list N)) (n : name) : option (list N) := match n with Plain i => if i <? 0 then None else nth_error files (Z.to_nat i) | _ => None end.
Lemma plain_out files : laid_out (plain files) files.
Proof. right. split; [reflexivity|]. right. left. split; [reflexivity|]. intros i. unfold plain. rewrite Nat2Z.id. destruct (Z.ltb_spec (Z.of_nat i) 0); [lia|reflexivity]. Qed.
Lemma number_word k : (k < 256)%N -> word 4 (number k).
Proof. intros Hk. split; [reflexivity|]. repeat constructor; unfold is_byte; lia. Qed.
Lemma star_valid k id : (k + 8 < 256)%N -> - 2 ^ 31 <= id < 2 ^ 31 -> valid_particle true false 4 4 (star k id).
Proof.
  intros Hk Hi. unfold valid_particle, star. cbn [s_pos s_vel s_mass s_energy s_id xyz]. split; [repeat (constructor; [apply number_word; lia|]); constructor|]. split; [repeat (constructor; [apply number_word; lia|]); constructor|].
  split; [apply number_word; lia|]. split; [apply number_word; lia|]. intros _. split; [left; reflexivity|]. exact Hi.
Qed.
Lemma snap_valid mass gas dm stars : word 8 mass -> Forall (valid_particle true false 4 4) (gas ++ dm ++ stars) -> (length gas + length dm + length stars < 100)%nat -> valid_content true false 4 4 (snap_with mass gas dm stars).
Proof.
  intros HM HF Hn. unfold valid_content, snap_with, particles_of, fits_int. cbn [c_types c_table c_totals c_time c_redshift c_box c_omega_m c_omega_l c_hubble c_sfr c_feedback c_cooling c_files c_fill concat app].
  assert (HB : forall l, forallb (fun b => (b <? 256)%N) l = true -> Forall is_byte l). { intros l Hl. rewrite forallb_forall in Hl. apply Forall_forall. intros b Hb. specialize (Hl b Hb). unfold is_byte. apply N.ltb_lt in Hl. exact Hl. }
  split; [reflexivity|]. split; [constructor; [|constructor; [exact HM|]]; repeat constructor; apply HB; reflexivity|]. split; [reflexivity|]. split; [reflexivity|]. split; [repeat constructor; lia|]. split; [repeat constructor; apply HB; reflexivity|].
  split; [repeat constructor; lia|]. split; [split; [reflexivity|apply HB; reflexivity]|]. rewrite app_nil_r. split; [exact HF|]. split; [rewrite !app_length; lia|]. repeat constructor; intros H; try lia; congruence.
Qed.
Ltac files_valid := apply snap_valid; [split; [reflexivity|repeat constructor; unfold is_byte; lia]|repeat (constructor; [apply star_valid; lia|]); constructor|cbn; lia].
Example C64_witness : forall swap dm_only thermal,
  let disk := plain (map (encode zero_bytes true thermal swap 4) [file_a; file_b]) in
  (laid_out disk (map (encode zero_bytes true thermal swap 4) [file_a; file_b]) /\ Forall (valid_content true false 4 4) [file_a; file_b] /\
   Forall (has_blocks zero_bytes dm_only thermal) [file_a; file_b] /\ particles_of file_a <> [] /\ c_files file_a = 2) /\
  load (fun b => b) zero_bytes (fun _ => true) (fun x => 0%N :: x) (fun t x => firstn 1 t ++ x) true true false false dm_only thermal 8 disk 2 =
    Some (let dm k id := mkparticle (Some (0%N :: number k, 0%N :: number (k + 1), 0%N :: number (k + 2))) (Some (0%N :: number (k + 3), 0%N :: number (k + 4), 0%N :: number (k + 5))) (Some id) (Some unity) None (if dm_only then None else Some 1%nat) in
          let other t k id := mkparticle (Some (0%N :: number k, 0%N :: number (k + 1), 0%N :: number (k + 2))) (Some (0%N :: number (k + 3), 0%N :: number (k + 4), 0%N :: number (k + 5))) (Some id) (Some (number (k + 6)))
            (if thermal && Nat.eqb t 0 then Some (number (k + 7)) else None) (Some t) in
          if dm_only then [[dm 20%N (-7)]; [dm 50%N 9; dm 60%N 11]]
          else [[other 0%nat 10%N 5; dm 20%N (-7)]; [other 0%nat 30%N (2 ^ 31 - 1); other 0%nat 40%N 0; dm 50%N 9; dm 60%N 11; other 4%nat 70%N 12]]).
Proof.
  intros swap dm_only thermal disk. split.
  - split; [apply plain_out|]. split; [|split; [|split; [discriminate|reflexivity]]].
    + constructor; [|constructor; [|constructor]]; files_valid.
    + constructor; [|constructor; [|constructor]]; split; try discriminate; intros; discriminate.
  - unfold disk. destruct swap, dm_only, thermal; vm_compute; reflexivity.
Qed.

(** Internal energies are read from every file, even if there is no gas in it and hence no block of energies: the reader
    takes what follows for the block; here nothing follows. *)
Theorem C64_no_gas_refuted : exists cs : list content,
  let disk := plain (map (encode zero_bytes true true false 4) cs) in
  laid_out disk (map (encode zero_bytes true true false 4) cs) /\ Forall (valid_content true false 4 4) cs /\
  length cs = 2%nat /\ Forall (fun c => c_files c = 2 /\ particles_of c <> []) cs /\
  load (fun b => b) zero_bytes (fun _ => true) (fun x => x) (fun t x => x) true true false false false true 8 disk 2 = None.
Proof.
  exists [snap_file [] [star 20 1] []; file_b]. split; [apply plain_out|]. split; [|split; [reflexivity|split; [repeat constructor; discriminate|vm_compute; reflexivity]]].
  constructor; [|constructor; [|constructor]]; files_valid.
Qed.
Print Assumptions C64_no_gas_refuted.

(** With DM_ONLY and masses of dark matter in the blocks, the mass block is read from every file, even if no particle in it
    has a mass of its own and hence there is no mass block. *)
Theorem C64_no_masses_refuted : exists cs : list content,
  let disk := plain (map (encode zero_bytes true false false 4) cs) in
  laid_out disk (map (encode zero_bytes true false false 4) cs) /\ Forall (valid_content true false 4 4) cs /\
  length cs = 2%nat /\ Forall (fun c => c_files c = 2) cs /\ Forall (fun c => particles_of c <> []) (firstn 1 cs) /\
  load (fun b => b) zero_bytes (fun _ => true) (fun x => x) (fun t x => x) true true false false true false 8 disk 2 = None /\
  exists res, load (fun b => b) zero_bytes (fun _ => true) (fun x => x) (fun t x => x) true true false false false false 8 disk 2 = Some res.
Proof.
  exists [snap_with nought [] [star 20 1] []; snap_with nought [] [] []]. split; [apply plain_out|]. split; [|split; [reflexivity|split; [repeat constructor|split; [repeat constructor; discriminate|split; [vm_compute; reflexivity|eexists; vm_compute; reflexivity]]]]].
  constructor; [|constructor; [|constructor]]; files_valid.
Qed.
Print Assumptions C64_no_masses_refuted.
(** A valid snapshot whose first file is empty. *)
Example C64_empty_witness : let cs := [snap_file [] [] []; file_b] in
  laid_out (plain (map (encode zero_bytes true false true 4) cs)) (map (encode zero_bytes true false true 4) cs) /\ Forall (valid_content true false 4 4) cs /\
  particles_of (snap_file [] [] []) = [] /\ length (particles_of file_b) = 5%nat.
Proof. split; [apply plain_out|]. split; [|split; reflexivity]. constructor; [|constructor; [|constructor]]; files_valid. Qed.
