(** C65: reading Gadget group files. *)
From Coq Require Import List ZArith NArith Bool Lia Arith.
From Verif.Model Require Import Mymath ListMem Mpi Gadget GroupFiles.
From Verif.Spec Require Import Basic Gadget Groups GroupFiles.
From Verif.Proofs Require Import GadgetProofs GroupFileProofs.
From Verif.Props Require PropsGroups.
Import ListNotations.
Local Open Scope Z_scope.

(** * C65: a group catalogue is loaded exactly from its files *)
(** For both versions of the format, ids of 4 or 8 bytes, any byte order, naming convention, division into files and number of
    processes up to the number of particles: if the files follow the format, the processes together hold the groups of the files
    in order, each once and with exactly its own ids after the mask; only groups without particles at the end are left out.
    The offsets in the files and what follows them do not matter.  (65536 files or more are left out: for some of those counts
    the byte order cannot be told from the count.) *)
Theorem C65_group_files_loaded : forall (disk : convention -> kind -> Z -> option (list N)) (pattern_count : convention -> Z) (v3 wide : bool) (id_mask : Z)
    (swap : bool) (c : convention) (gs : list group_file) (W : nat),
  stored_as disk pattern_count v3 wide swap c gs -> Forall (valid_group_file v3 wide) gs -> (in_parts c = true -> (1 < length gs)%nat) -> 0 < Z.of_nat (length gs) < 2 ^ 16 ->
  let lens := concat (map g_lens gs) in
  let ids := concat (map g_ids gs) in
  nsum lens = length ids -> (0 < W)%nat -> (W <= length ids \/ length ids = 0)%nat ->
  exists out K, load disk pattern_count v3 wide id_mask false W = Some out /\ length out = W /\
    concat out = firstn K (numbered (cut lens (map (masked wide id_mask) ids))) /\ Forall (fun h => h = []) (skipn K (cut lens (map (masked wide id_mask) ids))).
Proof.
  intros disk pattern_count v3 wide id_mask swap c gs W HS HV Hm Hn lens ids Hl HW HN.
  destruct (PropsGroups.C20_each_halo_once (masked wide id_mask) W lens (map g_ids gs) Hl HW HN) as (out & K & E & R). exists out, K. split; [|exact R].
  eapply load_bytes; try eassumption; [intros ->; cbn in Hn; lia|lia].
Qed.
Print Assumptions C65_group_files_loaded.

(** A single file under a name with index cannot be read: the index is missing when the name is printed. *)
Theorem C65_single_numbered_refuted : forall (disk : convention -> kind -> Z -> option (list N)) (pattern_count : convention -> Z) (v3 wide : bool) (id_mask : Z)
    (swap : bool) (c : convention) (g : group_file) (W : nat),
  stored_as disk pattern_count v3 wide swap c [g] -> in_parts c = true -> load disk pattern_count v3 wide id_mask false W = None.
Proof.
  intros disk pattern_count v3 wide id_mask swap c g W HS Hc. unfold load. destruct (find_layout disk pattern_count v3) as [y|] eqn:Ey; [|reflexivity].
  assert (E : y_count y = 1 /\ is_numbered (y_conv y) = true).
  { unfold find_layout in Ey. destruct (find _ _) as [c'|] eqn:Ef; [|discriminate]. destruct (byte_order _ _ _ _) as [s|]; [|discriminate]. injection Ey as <-. cbn [y_count y_conv].
    assert (c' = c). { destruct HS as (H1 & H2 & _). destruct (H2 0%nat g eq_refl) as [D1 _]. change (Z.of_nat 0) with 0 in D1. assert (Hx : exists_tab disk c = true) by (unfold exists_tab; rewrite D1; reflexivity).
      assert (Hb : forall c'', In c'' (before c) -> exists_tab disk c'' = false) by (intros c'' Hc''; unfold exists_tab; rewrite (H1 c'' Hc''); reflexivity).
      destruct c; cbn [before In] in Hb; cbn [find] in Ef; repeat (rewrite Hb in Ef by tauto); rewrite Hx in Ef; congruence. }
    subst c'. change (is_numbered c) with (in_parts c). rewrite Hc. destruct HS as (_ & _ & H3). rewrite Hc in H3. split; [exact H3|reflexivity]. }
  destruct E as [E1 E2]. rewrite E1. change (range 0 1) with [0]. cbn [mapM]. unfold read_tab, open_group. rewrite E1, E2. reflexivity.
Qed.
Print Assumptions C65_single_numbered_refuted.

(** Four groups in two files with both versions, widths and byte orders; the offsets in the files are wrong. *)
Definition catalogue_a (v3 : bool) : group_file := mkgf [2; 0]%nat [99; -5] [5; 1023] 4 7 1 3 [1; 2; 3]%N (repeat 9%N (if v3 then 28 else 16)).
Definition catalogue_b (v3 : bool) : group_file := mkgf [1; 0]%nat [0; 2] [-3] 4 7 1 3 [] (repeat 0%N (if v3 then 28 else 16)).
Definition files_of (v3 wide swap : bool) (c : convention) (gs : list group_file) (c' : convention) (k : kind) (i : Z) : option (list N) :=
  let same := match c, c' with SubNumbered, SubNumbered | GroupNumbered, GroupNumbered | SnapdirNumbered, SnapdirNumbered | SubSingle, SubSingle | GroupSingle, GroupSingle => true | _, _ => false end in
  if same && (0 <=? i) then option_map (match k with Tab => tab_bytes v3 swap (length gs) (of_subhalos c) | Ids => ids_bytes wide swap end) (nth_error gs (Z.to_nat i)) else None.
Lemma files_stored v3 wide swap c gs : (in_parts c = false -> length gs = 1%nat) -> stored_as (files_of v3 wide swap c gs) (fun _ => Z.of_nat (length gs)) v3 wide swap c gs.
Proof.
  intros H1. split; [|split].
  - intros c' Hc'. unfold files_of. destruct c; cbn [before In] in Hc'; repeat (destruct Hc' as [<- | Hc']; [reflexivity|]); destruct Hc'.
  - intros i g E. unfold files_of. assert (Hi : (0 <=? Z.of_nat i) = true) by (apply Z.leb_le; lia). rewrite Hi, Nat2Z.id, E. destruct c; split; reflexivity.
  - destruct (in_parts c); [reflexivity|apply H1; reflexivity].
Qed.
Lemma catalogues_valid v3 wide : Forall (valid_group_file v3 wide) [catalogue_a v3; catalogue_b v3].
Proof.
  repeat constructor; unfold int_range; cbn [catalogue_a catalogue_b g_lens g_ids g_offsets g_tot_groups g_nsub g_tot_sub length]; try lia; try (destruct wide; lia); destruct v3; reflexivity.
Qed.
Example C65_witness : forall v3 wide swap,
  let gs := [catalogue_a v3; catalogue_b v3] in
  let disk := files_of v3 wide swap SnapdirNumbered gs in
  (stored_as disk (fun _ => 2) v3 wide swap SnapdirNumbered gs /\ Forall (valid_group_file v3 wide) gs /\ nsum (concat (map g_lens gs)) = length (concat (map g_ids gs))) /\
  load disk (fun _ => 2) v3 wide 0 false 2 = Some [[(0%nat, [5; 1023])]; [(1%nat, []); (2%nat, [-3])]] /\
  load disk (fun _ => 2) v3 wide 15 false 3 = Some [[(0%nat, [5; 15])]; []; [(1%nat, []); (2%nat, [13])]] /\
  load (files_of v3 wide swap SubSingle [catalogue_a v3]) (fun _ => 2) v3 wide 0 false 1 = Some [[(0%nat, [5; 1023])]].
Proof.
  intros v3 wide swap gs disk. split; [split; [apply (files_stored v3 wide swap SnapdirNumbered); discriminate|split; [apply catalogues_valid|reflexivity]]|].
  unfold disk, gs. destruct v3, wide, swap; vm_compute; repeat split; reflexivity.
Qed.
Example C65_single_numbered_witness : stored_as (files_of true false true GroupNumbered [catalogue_a true]) (fun _ => 1) true false true GroupNumbered [catalogue_a true] /\ is_numbered GroupNumbered = true.
Proof. split; [apply (files_stored true false true GroupNumbered); discriminate|reflexivity]. Qed.

(** Ids of 4 bytes in group files are always signed, those in snapshots can be declared unsigned: the same stored id then is
    another number, and the particle of the group is not found in the snapshot. *)
Theorem C65_unsigned_ids_refuted : forall z, 2 ^ 31 <= z < 2 ^ 32 ->
  uint32_of_bytes (bytes_of_int 4 z) = Some z /\ id_of_bytes false (bytes_of_int 4 z) = Some (z - 2 ^ 32).
Proof.
  intros z Hz. split; [apply uint32_ok; lia|]. assert (E : bytes_of_int 4 z = bytes_of_int 4 (z - 2 ^ 32)).
  { unfold bytes_of_int. apply map_ext_in. intros k Hk. apply in_seq in Hk. f_equal. change (2 ^ 32) with 4294967296. replace (z - 4294967296) with (z + (- 2 ^ (24 - 8 * Z.of_nat k)) * 256 * 2 ^ (8 * Z.of_nat k)).
    - rewrite Z.div_add by (apply Z.pow_nonzero; lia). rewrite Z.mod_add by lia. reflexivity.
    - assert (Hk' : k = 0%nat \/ k = 1%nat \/ k = 2%nat \/ k = 3%nat) by lia. destruct Hk' as [-> | [-> | [-> | ->]]]; cbn; lia. }
  unfold id_of_bytes. rewrite E. apply int32_ok. lia.
Qed.
Print Assumptions C65_unsigned_ids_refuted.
(** Loaded from a file: the stored id is 3000000000. *)
Example C65_unsigned_ids_witness : let g := mkgf [1]%nat [0] [3000000000] 1 1 0 0 [] (repeat 0%N 16) in
  load (files_of false false false GroupSingle [g]) (fun _ => 1) false false 0 false 1 = Some [[(0%nat, [-1294967296])]].
Proof. vm_compute. reflexivity. Qed.
