(** Model of the reading of Apostle (EAGLE) snapshots: the part of src/io/apostle_io.cpp from the HDF5 files to the
    particles of every process, for snapshots and for groups.  What happens to the groups after that is in Model/Apostle.v.
    HDF5 itself is not modelled: a file is what its attributes and datasets hold. *)
From Coq Require Import List ZArith Bool String QArith.
From Verif.Model Require Import Mymath Mpi FileNames Gadget.
From Verif.Model Require Apostle.
Import ListNotations.
Local Open Scope Z_scope.

Local Notation "'let?' p := e 'in' k" := (match e with Some p => k | None => None end) (at level 200, p pattern, right associativity).

(** The datasets of one group "PartTypeN" by their names; [None]: there is no such dataset.  Integers are as stored, [d_id_size]
    is the size of a stored id in bytes (0 if there are no ids: H5Tget_size of an invalid type).  The numbers of datasets of
    floating-point type are those obtained by conversion to HBTReal. *)
Record datasets (R : Type) := mkdata { d_Coordinates : option (list (R * R * R)); d_Velocities : option (list (R * R * R)); d_Velocity : option (list (R * R * R));
  d_ParticleIDs : option (list Z); d_id_size : Z; d_Masses : option (list R); d_Mass : option (list R); d_InternalEnergy : option (list R); d_GroupNumber : option (list Z) }.
Arguments mkdata {R}. Arguments d_Coordinates {R} _. Arguments d_Velocities {R} _. Arguments d_Velocity {R} _. Arguments d_ParticleIDs {R} _. Arguments d_id_size {R} _.
Arguments d_Masses {R} _. Arguments d_Mass {R} _. Arguments d_InternalEnergy {R} _. Arguments d_GroupNumber {R} _.

(** One file: the attributes of "Header" that are used and the groups "PartType0", "PartType1", ... *)
Record hdf (R : Type) := mkhdf { f_NumFilesPerSnapshot : Z; f_BoxSize : R; f_Time : R; f_MassTable : list R; f_NumPart_ThisFile : list Z; f_PartType : nat -> option (datasets R) }.
Arguments mkhdf {R}. Arguments f_NumFilesPerSnapshot {R} _. Arguments f_BoxSize {R} _. Arguments f_Time {R} _. Arguments f_MassTable {R} _. Arguments f_NumPart_ThisFile {R} _. Arguments f_PartType {R} _.

(** src/hdf_wrapper.h:36-53 [ReadDataset] into a vector of [np] elements that are [zero] at first.  If the dataset cannot be
    opened a message is printed and the vector left alone; the whole dataset is read, whatever its size.  [None]: written
    behind the end of the vector. *)
Definition read_dataset {A} (zero : A) (np : nat) (d : option (list A)) : option (list A) :=
  match d with
  | None => Some (repeat zero np)
  | Some l => if (List.length l <=? np)%nat then Some (l ++ repeat zero (np - List.length l)) else None
  end.

(** The conversion of a stored integer to HBTInt by HDF5: out of range values become the nearest one. *)
Definition to_hbtint (size z : Z) : Z := Z.max (- 2 ^ (8 * size - 1)) (Z.min (2 ^ (8 * size - 1) - 1) z).

Section ApostleFiles.
  (** [R] is HBTReal. *)
  Context {R : Type}.
  Variable zero : R.
  (** [Header.mass[itype]==0]; [(HBTReal)Header.BoxSize==HBTConfig.BoxSize]. *)
  Variable is_zero box_matches : R -> bool.
  (** [position_modulus(x, boxsize)], the size first; multiplication by [sqrt(ScaleFactor)], the scale factor first. *)
  Variable wrap speed : R -> R -> R.
  (** PeriodicBoundaryOn, SnapshotPath and SnapshotNameList of the configuration; the number of the snapshot. *)
  Variable periodic : bool.
  Variable snapshot_path : string.
  Variable name_list : list string.
  Variable snapshot_id : Z.
  (** Whether DM_ONLY and HAS_THERMAL_ENERGY are defined; sizeof(HBTInt). *)
  Variables dm_only thermal : bool.
  Variable hbtint_size : Z.
  (** The files by their paths. *)
  Variable disk : string -> option (hdf R).

  (** H5Fopen of the name made by [GetFileName]; [None]: no such file, from which nothing sensible can be read. *)
  Definition open_hdf (ifile : Z) : option (hdf R) :=
    let? name := snapshot_name name_list snapshot_id in
    let? path := apostle_file_name snapshot_path name ifile in
    disk path.

  (** src/io/apostle_io.cpp:95-102 [GetParticleCountInFile].  Attributes of another length are not modelled: [None]. *)
  Definition count_in_file (f : hdf R) : option (list Z) :=
    if (List.length (f_NumPart_ThisFile f) =? type_max)%nat
    then Some (if dm_only then map (fun tn => if negb (fst tn =? type_dm)%nat then 0 else snd tn) (combine (seq 0 type_max) (f_NumPart_ThisFile f)) else f_NumPart_ThisFile f)
    else None.

  (** src/io/apostle_io.cpp:103-124 [CompileFileOffsets]: np_file and offset_file, which are empty at first. *)
  Fixpoint file_offsets (files : list Z) (offset : Z) : option (list Z * list Z) :=
    match files with
    | [] => Some ([], [])
    | i :: r =>
        let? f := open_hdf i in
        let? np_this := count_in_file f in
        let np := fold_left Z.add np_this 0 in
        let? (nps, offs) := file_offsets r (offset + np) in
        Some (np :: nps, offset :: offs)
    end.

  (** ReadSnapshot and ReadGroupParticles have the same text for the fields of Particle_t; [P] is Particle_t or
      ParticleHost_t, [field] the access to these fields. *)
  Section Fields.
    Context {P : Type}.
    Variable field : (particle R -> particle R) -> P -> P.

    (** src/io/apostle_io.cpp:160-231 and 262-333, for the [np] particles of type [t] from index [off] on.  [h]: the header
        of the first file. *)
    Definition read_fields (h : hdf R) (t np off : nat) (d : datasets R) (ps : list P) : option (list P) :=
      let? x := read_dataset (zero, zero, zero) np (d_Coordinates d) in
      let x := if periodic then map (map3 (wrap (f_BoxSize h))) x else x in
      let? ps := assign_at (fun v => field (set_pos v)) off x ps in
      let? v := read_dataset (zero, zero, zero) np (match d_Velocities d with Some l => Some l | None => d_Velocity d end) in
      let? ps := assign_at (fun v => field (set_vel v)) off (map (map3 (speed (f_Time h))) v) ps in
      let? id := read_dataset 0 np (option_map (map (to_hbtint hbtint_size)) (d_ParticleIDs d)) in
      let? ps := assign_at (fun v => field (set_id v)) off id ps in
      let? table := nth_error (f_MassTable h) t in
      let? m := (if is_zero table then read_dataset zero np (match d_Masses d with Some l => Some l | None => d_Mass d end)
                 else Some (repeat table np)) in
      let? ps := assign_at (fun v => field (set_mass v)) off m ps in
      if dm_only then Some ps else
      let? ps := (if thermal && (t =? 0)%nat
                  then let? u := read_dataset zero np (d_InternalEnergy d) in assign_at (fun v => field (set_energy v)) off u ps
                  else Some ps) in
      assign_at (fun v => field (set_type v)) off (repeat t np) ps.
  End Fields.

  (** The loop over the types, src/io/apostle_io.cpp:147-233 and 250-344: types without particles and types without group
      are left out.  [off]: where the particles of this file start.  A negative number of particles is an error. *)
  Fixpoint type_loop {P} (body : nat -> nat -> nat -> datasets R -> list P -> option (list P)) (f : hdf R) (np_this offset_this : list Z) (off : nat) (ts : list nat) (ps : list P) :
    option (list P) :=
    match ts with
    | [] => Some ps
    | t :: r =>
        let? np := nth_error np_this t in
        let? o := nth_error offset_this t in
        if np =? 0 then type_loop body f np_this offset_this off r ps
        else if np <? 0 then None
        else match f_PartType f t with
             | None => type_loop body f np_this offset_this off r ps
             | Some d => let? ps' := body t (Z.to_nat np) (off + Z.to_nat o)%nat d ps in type_loop body f np_this offset_this off r ps'
             end
    end.
  (** src/io/apostle_io.cpp:141-143 and 244-246, then the loop. *)
  Definition each_present {P} (body : nat -> nat -> nat -> datasets R -> list P -> option (list P)) (f : hdf R) (off : nat) (ps : list P) : option (list P) :=
    let? np_this := count_in_file f in
    type_loop body f np_this (fst (compile_offsets np_this)) off (seq 0 type_max) ps.

  (** src/io/apostle_io.cpp:135-236 [ReadSnapshot]; [check_id_size] is lines 126-134. *)
  Definition read_snapshot (h : hdf R) (ifile : Z) (off : nat) (ps : list (particle R)) : option (list (particle R)) :=
    let? f := open_hdf ifile in
    each_present (fun t np off d ps => if d_id_size d <=? hbtint_size then read_fields (fun g => g) h t np off d ps else None) f off ps.

  (** ParticleHost_t (src/io/apostle_io.h:30-33): the particle and HostId, [None] before it is written. *)
  Definition host_particle : Type := particle R * option Z.
  (** src/io/apostle_io.cpp:238-347 [ReadGroupParticles] with FlagReadParticleId (the only value used). *)
  Definition read_group_particles (h : hdf R) (ifile : Z) (off : nat) (ps : list host_particle) : option (list host_particle) :=
    let? f := open_hdf ifile in
    each_present (fun t np off d ps =>
      let? ps := read_fields (fun g p => (g (fst p), snd p)) h t np off d ps in
      let? id := read_dataset 0 np (option_map (map (to_hbtint hbtint_size)) (d_GroupNumber d)) in
      assign_at (fun v (p : host_particle) => (fst p, Some (Apostle.host_of v))) off id ps) f off ps.

  (** src/io/apostle_io.cpp:73-94 [ReadHeader] with file 0; attributes that are not used are left out. *)
  Definition read_header : option (hdf R) :=
    let? f := open_hdf 0 in if box_matches (f_BoxSize f) then Some f else None.

  (** src/io/apostle_io.cpp:385-390 and 438-439: the files of one process; [skip] is nfiles_skip. *)
  Fixpoint file_loop {P} (read : Z -> nat -> list P -> option (list P)) (offset_file : list Z) (skip : Z) (files : list Z) (ps : list P) : option (list P) :=
    match files with
    | [] => Some ps
    | i :: r =>
        let? o := nth_error offset_file (Z.to_nat i) in
        let? o0 := nth_error offset_file (Z.to_nat skip) in
        let? ps' := read i (Z.to_nat (o - o0)) ps in file_loop read offset_file skip r ps'
    end.
  (** src/io/apostle_io.cpp:349-391 [LoadSnapshot] and 405-441 [LoadGroups] up to the sort, on all processes.  The broadcast
      gives every process the header and the offsets; the limit on the number of readers only delays them.  The cosmology is
      not modelled. *)
  Definition load_with {P} (blank : P) (read : hdf R -> Z -> nat -> list P -> option (list P)) (W : nat) : option (list (list P)) :=
    let? h := read_header in
    let? (np_file, offset_file) := file_offsets (range 0 (f_NumFilesPerSnapshot h)) 0 in
    mapM (fun rank =>
      let? (skip, stop) := assign_tasks (Z.of_nat rank) (Z.of_nat W) (f_NumFilesPerSnapshot h) in
      let np := fold_left Z.add (firstn (Z.to_nat (stop - skip)) (skipn (Z.to_nat skip) np_file)) 0 in
      file_loop (read h) offset_file skip (range skip stop) (repeat blank (Z.to_nat np))) (seq 0 W).

  Definition load_snapshot (W : nat) : option (list (list (particle R))) := load_with blank read_snapshot W.
  Definition load_hosts (W : nat) : option (list (list host_particle)) := load_with (blank, None) read_group_particles W.

  (** src/io/apostle_io.cpp:405-503 [LoadGroups] from the files to the halos.  [None] also if a HostId was never written. *)
  Definition load_groups {X} average position step dims chunk sort_host sort_info sort_order sort_rank sort_halo (W : nat) :
    option (list (list (Apostle.halo (particle R)))) :=
    let? hosts := load_hosts W in
    let? read := mapM (mapM (fun p : host_particle => let? h := snd p in Some (h, fst p))) hosts in
    let? all := mapM (Apostle.local_halos (particle R) sort_host) read in
    let? out := Apostle.exchange_halos (particle R) X average position step dims chunk sort_info sort_order sort_rank all in
    Some (map (Apostle.merge_halos (particle R) sort_halo) out).
End ApostleFiles.
