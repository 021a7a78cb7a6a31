(** C69: loading Apostle snapshots and their groups from files. *)
From Coq Require Import List ZArith Bool String Lia QArith.
From Verif.Model Require Import Mymath Mpi FileNames Gadget ApostleFiles.
From Verif.Model Require Apostle.
From Verif.Spec Require Import ApostleFiles Apostle.
From Verif.Proofs Require Import ApostleFileProofs.
From Verif.Proofs Require FileNameProofs.
From Verif.Props Require PropsApostle.
Import ListNotations.
Local Open Scope Z_scope.
Notation length := List.length.
Notation concat := List.concat.

(** * C69: an Apostle snapshot is loaded completely and exactly, and so are its groups *)
(** Whatever the number of files and processes, the types present, the names of the datasets among those known and the build
    options: if the files hold the volumes [v0], [vr], then the processes together have exactly the particles of the files in
    order, each with its own position, velocity, id, mass, energy and type. *)
Theorem C69_snapshot : forall (R : Type) (zero : R) (is_zero box_matches : R -> bool) (wrap speed : R -> R -> R) (periodic : bool) (path : string) (name_list : list string) (id : Z)
    (dm_only thermal : bool) (hbtint_size : Z) (disk : string -> option (hdf R)) (a b c : string) (v0 : volume R) (vr : list (volume R)) (fs : list (hdf R)) (W : nat),
  named name_list id a b c -> stored_at disk path a b c fs -> Forall2 (holds is_zero dm_only thermal) (v0 :: vr) fs -> snapshot_of v0 (v0 :: vr) ->
  box_matches (v_box v0) = true -> Forall (numbers_fit hbtint_size) (v0 :: vr) -> Forall (narrow hbtint_size) fs -> (0 < W)%nat ->
  exists res, load_snapshot zero is_zero box_matches wrap speed periodic path name_list id dm_only thermal hbtint_size disk W = Some res /\
    length res = W /\ concat res = map snd (flat_map (of_volume is_zero wrap speed periodic dm_only thermal v0) (v0 :: vr)).
Proof.
  intros R zero is_zero box_matches wrap speed periodic path name_list id dm_only thermal hbtint_size disk a b c v0 vr fs W HN HS HH Hs Hb Hf Hn HW.
  assert (E0 : exists f0, nth_error fs 0 = Some f0) by (inversion HH; subst; eexists; reflexivity). destruct E0 as [f0 E0].
  eapply load_snapshot_ok; eassumption.
Qed.
Print Assumptions C69_snapshot.

(** The same for the groups: every group with a number in [0, 2^30) that has particles is on exactly one process, once, with
    exactly the particles that carry its number, each with its own properties; no other halo exists. *)
Theorem C69_groups : forall (R X : Type) (zero : R) (is_zero box_matches : R -> bool) (wrap speed : R -> R -> R) (periodic : bool) (path : string) (name_list : list string) (id : Z)
    (dm_only thermal : bool) (hbtint_size : Z) (disk : string -> option (hdf R)) (a b c : string) (v0 : volume R) (vr : list (volume R)) (fs : list (hdf R))
    (average : list (particle R) -> X) position step d0 d1 d2 chunk sort_host sort_info sort_order sort_rank sort_halo (W : nat),
  named name_list id a b c -> stored_at disk path a b c fs -> Forall2 (holds is_zero dm_only thermal) (v0 :: vr) fs -> snapshot_of v0 (v0 :: vr) ->
  box_matches (v_box v0) = true -> Forall (numbers_fit hbtint_size) (v0 :: vr) ->
  0 < d0 -> 0 < d1 -> 0 < d2 -> Z.of_nat W = d0 * d1 * d2 -> (1 <= chunk)%nat ->
  sorts fst sort_host -> sorts (fun x => fst (snd x)) sort_info -> sorts (fun x => Z.of_nat (fst x)) sort_order -> sorts snd sort_rank -> sorts fst sort_halo ->
  let all := flat_map (of_volume is_zero wrap speed periodic dm_only thermal v0) (v0 :: vr) in
  (forall x, In x all -> fst x <= 2 ^ 30) ->
  exists out, load_groups zero is_zero box_matches wrap speed periodic path name_list id dm_only thermal hbtint_size disk average position step (d0, d1, d2) chunk sort_host sort_info sort_order sort_rank sort_halo W = Some out /\
    length out = W /\ assembled (2 ^ 30) all out.
Proof.
  intros R X zero is_zero box_matches wrap speed periodic path name_list id dm_only thermal hbtint_size disk a b c v0 vr fs average position step d0 d1 d2 chunk sort_host sort_info sort_order sort_rank sort_halo W
    HN HS HH Hs Hb Hf H0 H1 H2 HW Hc S1 S2 S3 S4 S5 all Hall.
  assert (E0 : exists f0, nth_error fs 0 = Some f0) by (inversion HH; subst; eexists; reflexivity). destruct E0 as [f0 E0].
  rewrite (load_groups_eq zero is_zero box_matches wrap speed periodic path name_list id dm_only thermal hbtint_size disk a b c v0 vr fs HN HS HH Hs Hb Hf f0 E0) by nia.
  unfold all in *. rewrite flat_map_concat_map in *. apply PropsApostle.C19_assembled; assumption.
Qed.
Print Assumptions C69_groups.

(** Two files with gas, dark matter and stars; dark matter has its mass in the header.  Numbers are integers here; wrapping is
    by the size of the box and velocities are multiplied by the scale factor. *)
Definition kp (k id group : Z) : kept Z := mkkept (k, k + 1, k + 2) (k + 3, k + 4, k + 5) id (k + 6) (k + 7) group.
Definition vol (gas dm stars : list (kept Z)) : volume Z := mkvolume [gas; dm; []; []; stars; []] [0; 9; 0; 0; 0; 0] 3 50 2.
Definition ds (second_names : bool) (size : Z) (ps : list (kept Z)) : option (datasets Z) :=
  match ps with [] => None | _ => Some (let v := map k_vel ps in let m := map k_mass ps in
    if second_names then mkdata (Some (map k_pos ps)) None (Some v) (Some (map k_id ps)) size None (Some m) (Some (map k_energy ps)) (Some (map k_group ps))
    else mkdata (Some (map k_pos ps)) (Some v) None (Some (map k_id ps)) size (Some m) None (Some (map k_energy ps)) (Some (map k_group ps))) end.
Definition as_file (second_names : bool) (size : Z) (v : volume Z) : hdf Z :=
  mkhdf (v_files v) (v_box v) (v_time v) (v_table v) (map (fun ps => Z.of_nat (length ps)) (v_types v)) (fun t => match nth_error (v_types v) t with Some ps => ds second_names size ps | None => None end).
Lemma as_file_holds dm_only thermal second size v : length (v_types v) = 6%nat -> length (v_table v) = 6%nat -> holds (Z.eqb 0) dm_only thermal v (as_file second size v).
Proof.
  intros H1 H2. unfold holds, as_file. cbn [f_NumPart_ThisFile f_MassTable f_Time f_BoxSize f_NumFilesPerSnapshot f_PartType]. repeat (split; [first [assumption|reflexivity]|]).
  intros t ps table Et _ _ Hne. rewrite Et. destruct ps as [|p ps]; [congruence|]. unfold ds. eexists. split; [reflexivity|]. unfold holds_type. destruct second; cbn [d_Coordinates d_Velocities d_Velocity d_ParticleIDs d_Masses d_Mass d_InternalEnergy d_GroupNumber].
  - split; [reflexivity|]. split; [right; split; reflexivity|]. split; [reflexivity|]. split; [intros _; right; split; reflexivity|]. split; reflexivity.
  - split; [reflexivity|]. split; [left; reflexivity|]. split; [reflexivity|]. split; [intros _; left; reflexivity|]. split; reflexivity.
Qed.
Definition vol_a : volume Z := vol [kp 10 5 7] [kp 120 6 2; kp (-130) 7 (-3)] [].
Definition vol_b : volume Z := vol [kp 20 (2 ^ 40) 2] [kp 40 9 7] [kp 60 (-1) 7].
Definition store (files : list (hdf Z)) (s : string) : option (hdf Z) :=
  if String.eqb s "data/snapshot_012/snap_012.0.hdf5" then nth_error files 0 else if String.eqb s "data/snapshot_012/snap_012.1.hdf5" then nth_error files 1 else None.
Lemma store_ok fa fb : stored_at (store [fa; fb]) "data" "snap" "shot" "_012" [fa; fb].
Proof.
  intros [|[|k]]; [reflexivity|reflexivity|]. cbn [nth_error]. rewrite (proj2 (nth_error_None [] k)) by (cbn; lia). unfold store.
  set (s := (_ ++ _)%string). assert (N : forall j, j <> Z.of_nat (S (S k)) -> String.eqb s ("data" ++ "/" ++ ("snap" ++ "shot" ++ "_012") ++ "/" ++ ("snap" ++ "_012") ++ "." ++ decimal j ++ ".hdf5") = false).
  { intros j Hj. apply String.eqb_neq. unfold s. intros E. do 5 apply FileNameProofs.app_inv_l in E. apply FileNameProofs.app_inv_l in E. apply FileNameProofs.app_inv_r, FileNameProofs.decimal_inj in E. congruence. }
  pose proof (N 0 ltac:(lia)) as N0. pose proof (N 1 ltac:(lia)) as N1. cbn [append decimal] in N0, N1. change (decimal 0) with "0"%string in N0. change (decimal 1) with "1"%string in N1. cbn [append] in N0, N1. rewrite N0, N1. reflexivity.
Qed.
Definition modulus (box x : Z) : Z := x mod box.
Example C69_witness : forall dm_only thermal,
  let fs := [as_file false 8 vol_a; as_file true 8 vol_b] in
  (named [] 12 "snap" "shot" "_012" /\ stored_at (store fs) "data" "snap" "shot" "_012" fs /\ Forall2 (holds (Z.eqb 0) dm_only thermal) [vol_a; vol_b] fs /\ snapshot_of vol_a [vol_a; vol_b] /\
   Forall (numbers_fit 8) [vol_a; vol_b] /\ Forall (narrow 8) fs /\ forall x, In x (flat_map (of_volume (Z.eqb 0) modulus Z.mul true dm_only thermal vol_a) [vol_a; vol_b]) -> fst x <= 2 ^ 30) /\
  load_snapshot 0 (Z.eqb 0) (Z.eqb 50) modulus Z.mul true "data" [] 12 false true 8 (store fs) 2 = Some
    [[mkparticle (Some (10, 11, 12)) (Some (39, 42, 45)) (Some 5) (Some 16) (Some 17) (Some 0%nat); mkparticle (Some (20, 21, 22)) (Some (369, 372, 375)) (Some 6) (Some 9) None (Some 1%nat); mkparticle (Some (20, 21, 22)) (Some (-381, -378, -375)) (Some 7) (Some 9) None (Some 1%nat)];
     [mkparticle (Some (20, 21, 22)) (Some (69, 72, 75)) (Some (2 ^ 40)) (Some 26) (Some 27) (Some 0%nat); mkparticle (Some (40, 41, 42)) (Some (129, 132, 135)) (Some 9) (Some 9) None (Some 1%nat); mkparticle (Some (10, 11, 12)) (Some (189, 192, 195)) (Some (-1)) (Some 66) None (Some 4%nat)]] /\
  load_snapshot 0 (Z.eqb 0) (Z.eqb 50) modulus Z.mul true "data" [] 12 true true 8 (store fs) 3 = Some
    [[mkparticle (Some (20, 21, 22)) (Some (369, 372, 375)) (Some 6) (Some 9) None None; mkparticle (Some (20, 21, 22)) (Some (-381, -378, -375)) (Some 7) (Some 9) None None];
     [mkparticle (Some (40, 41, 42)) (Some (129, 132, 135)) (Some 9) (Some 9) None None]; []].
Proof.
  intros dm_only thermal fs. split; [|split; vm_compute; reflexivity].
  split; [repeat split; reflexivity|]. split; [apply store_ok|]. split; [repeat constructor; apply as_file_holds; reflexivity|]. split; [split; [reflexivity|repeat constructor]|].
  split; [repeat constructor; cbn in *; intuition (subst; cbn [k_id k_group kp]; lia)|]. split.
  - repeat constructor; intros t d; unfold as_file; cbn [f_PartType]; destruct (nth_error _ t) as [[|p ps]|]; try discriminate; cbn; intros E; injection E as <-; cbn; lia.
  - intros x. destruct dm_only; cbn; intuition (subst; cbn; lia).
Qed.

(** A file without the group of a type whose particles its header counts: the particles are there, but nothing of them was
    read, and no error is reported. *)
Theorem C69_missing_group_refuted : exists f : hdf Z, nth_error (f_NumPart_ThisFile f) 4 = Some 1 /\ f_PartType f 4%nat = None /\ f_PartType f 1%nat <> None /\
  load_snapshot 0 (Z.eqb 0) (Z.eqb 50) modulus Z.mul true "data" [] 12 false false 8 (fun s => if String.eqb s "data/snapshot_012/snap_012.0.hdf5" then Some f else None) 1 =
  Some [[mkparticle (Some (20, 21, 22)) (Some (69, 72, 75)) (Some 6) (Some 9) None (Some 1%nat); blank]].
Proof.
  exists (mkhdf 1 50 3 [0; 9; 0; 0; 0; 0] [0; 1; 0; 0; 1; 0] (fun t => if Nat.eqb t 1 then ds false 8 [kp 20 6 2] else None)). split; [reflexivity|]. split; [reflexivity|]. split; [discriminate|]. vm_compute. reflexivity.
Qed.
Print Assumptions C69_missing_group_refuted.

(** A missing dataset (here the masses) is replaced by zeros; only a message is printed. *)
Theorem C69_missing_dataset_refuted : exists (f : hdf Z) d, f_PartType f 4%nat = Some d /\ d_Masses d = None /\ d_Mass d = None /\
  load_snapshot 0 (Z.eqb 0) (Z.eqb 50) modulus Z.mul true "data" [] 12 false false 8 (fun s => if String.eqb s "data/snapshot_012/snap_012.0.hdf5" then Some f else None) 1 =
  Some [[mkparticle (Some (20, 21, 22)) (Some (69, 72, 75)) (Some 6) (Some 0) None (Some 4%nat)]].
Proof.
  exists (mkhdf 1 50 3 [0; 9; 0; 0; 0; 0] [0; 0; 0; 0; 1; 0] (fun t => if Nat.eqb t 4 then Some (mkdata (Some [(20, 21, 22)]) (Some [(23, 24, 25)]) None (Some [6]) 8 None None None None) else None)).
  eexists. split; [reflexivity|]. split; [reflexivity|]. split; [reflexivity|]. vm_compute. reflexivity.
Qed.
Print Assumptions C69_missing_dataset_refuted.

(** Ids beyond the range of HBTInt become the same id.  For snapshots the size of a stored id is checked, but 8-byte unsigned
    ids pass with an 8-byte HBTInt; for groups it is not checked at all: here with a 4-byte HBTInt and 8-byte ids. *)
Theorem C69_ids_refuted : exists v : volume Z, NoDup (map k_id (concat (v_types v))) /\ (forall p, In p (concat (v_types v)) -> 0 <= k_id p < 2 ^ 33) /\
  let f := as_file false 8 v in let disk := fun s => if String.eqb s "data/snapshot_012/snap_012.0.hdf5" then Some f else None in
  load_snapshot 0 (Z.eqb 0) (Z.eqb 50) modulus Z.mul true "data" [] 12 false false 4 disk 1 = None /\
  exists p q, load_hosts 0 (Z.eqb 0) (Z.eqb 50) modulus Z.mul true "data" [] 12 false false 4 disk 1 = Some [[p; q]] /\ p_id (fst p) = p_id (fst q).
Proof.
  exists (mkvolume [[]; [kp 20 (2 ^ 32) 1; kp 30 (2 ^ 32 + 1) 1]; []; []; []; []] [0; 9; 0; 0; 0; 0] 3 50 1). split; [repeat constructor; cbn; intuition lia|]. split; [cbn; intuition (subst; cbn [k_id kp]; lia)|].
  split; [vm_compute; reflexivity|]. do 2 eexists. split; [vm_compute; reflexivity|]. reflexivity.
Qed.
Print Assumptions C69_ids_refuted.
Theorem C69_unsigned_ids_refuted : exists v : volume Z, NoDup (map k_id (concat (v_types v))) /\ (forall p, In p (concat (v_types v)) -> 0 <= k_id p < 2 ^ 64) /\
  exists p q, load_snapshot 0 (Z.eqb 0) (Z.eqb 50) modulus Z.mul true "data" [] 12 false false 8 (fun s => if String.eqb s "data/snapshot_012/snap_012.0.hdf5" then Some (as_file false 8 v) else None) 1 = Some [[p; q]] /\ p_id p = p_id q.
Proof.
  exists (mkvolume [[]; [kp 20 (2 ^ 63) 1; kp 30 (2 ^ 63 + 1) 1]; []; []; []; []] [0; 9; 0; 0; 0; 0] 3 50 1). split; [repeat constructor; cbn; intuition lia|]. split; [cbn; intuition (subst; cbn [k_id kp]; lia)|].
  do 2 eexists. split; [vm_compute; reflexivity|]. reflexivity.
Qed.
Print Assumptions C69_unsigned_ids_refuted.
