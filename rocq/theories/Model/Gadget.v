(** Model of the reader of Gadget snapshots (src/io/gadget_io.cpp), from the bytes of the files to the particles of every
    process. *)
From Coq Require Import List ZArith NArith Bool.
From Verif.Model Require Import Mymath Mpi.
Import ListNotations.
Local Open Scope Z_scope.

Local Notation "'let?' p := e 'in' k" := (match e with Some p => k | None => None end) (at level 200, p pattern, right associativity).

(** 4-byte unsigned and 8-byte signed integers in memory (little-endian host, two's complement). *)
Definition uint32_of_bytes (b : list N) : option Z :=
  match b with [b0; b1; b2; b3] => Some (Z.of_N (load32 b0 b1 b2 b3)) | _ => None end.
Definition int64_of_bytes (b : list N) : option Z :=
  match b with
  | [b0; b1; b2; b3; b4; b5; b6; b7] =>
      let u := Z.of_N (load32 b0 b1 b2 b3) + 4294967296 * Z.of_N (load32 b4 b5 b6 b7) in
      Some (if u <? 9223372036854775808 then u else u - 18446744073709551616)
  | _ => None
  end.

(** src/datatypes.h:179-188 [TypeDM] and [TypeMax]. *)
Definition type_dm : nat := 1.
Definition type_max : nat := 6.

(** src/io/gadget_io.h:7-25 [GadgetHeader_t]: the fields that are used.  Doubles are kept as their 8 bytes. *)
Record header := mkheader { h_npart : list Z; h_mass : list (list N); h_time : list N; h_total : list Z; h_num_files : Z; h_box : list N }.

(** src/io/gadget_io.cpp:62 [myfread] of an array of integers or doubles. *)
Definition read_ints (dec : list N -> option Z) (n : nat) (swap : bool) (f : file) : option (list Z * file) :=
  let? (b, f') := fread_swap 4 n swap f in
  let? l := mapM dec (members 4 n b) in Some (l, f').
Definition read_doubles (n : nat) (swap : bool) (f : file) : option (list (list N) * file) :=
  let? (b, f') := fread_swap 8 n swap f in Some (members 8 n b, f').
(** One integer or double. *)
Definition read_int (swap : bool) (f : file) : option (Z * file) :=
  let? (l, f') := read_ints int32_of_bytes 1 swap f in match l with [z] => Some (z, f') | _ => None end.
Definition read_double (swap : bool) (f : file) : option (list N * file) :=
  let? (l, f') := read_doubles 1 swap f in match l with [x] => Some (x, f') | _ => None end.

(** src/io/gadget_io.h:5 [SNAPSHOT_HEADER_SIZE]. *)
Definition header_size : Z := 256.

(** src/io/gadget_io.cpp:84-132 [ReadGadgetFileHeader]: byte order, header and the file after it.  [None]: a short read, a
    first marker that is not 256 in either byte order, or a second one that differs ([exit]).
    MAJOR_MERGER_PATCH is not modelled. *)
Definition read_header (f : file) : option (bool * header * file) :=
  let? (b, f) := fread 4 f in
  let? dummy := int32_of_bytes b in
  let? b' := swap_Nbyte 1 4 (store32 (Z.to_N header_size)) in
  let? headersize_byteswap := int32_of_bytes b' in
  let? swap := (if dummy =? header_size then Some false else if dummy =? headersize_byteswap then Some true else None) in
  let? (npart, f) := read_ints int32_of_bytes type_max swap f in
  let? (mass, f) := read_doubles type_max swap f in
  let? (time, f) := read_double swap f in
  let? (_, f) := read_double swap f in
  let? (_, f) := read_int swap f in
  let? (_, f) := read_int swap f in
  let? (total, f) := read_ints uint32_of_bytes type_max swap f in
  let? (_, f) := read_int swap f in
  let? (num_files, f) := read_int swap f in
  let? (box, f) := read_double swap f in
  let? (_, f) := read_double swap f in
  let? (_, f) := read_double swap f in
  let? (_, f) := read_double swap f in
  let f := mkfile (bytes f) (header_size + 4) in
  let? (dummy2, f) := read_int swap f in
  if header_size =? dummy2 then Some (swap, mkheader npart mass time total num_files box, f) else None.

(** The four naming conventions of src/io/gadget_io.cpp:72-76, for the snapshot being read: snapdir_SSS/BASE_SSS.i, BASE_SSS,
    BASE_SSS.i and S/BASE.i. *)
Inductive name := Snapdir (i : Z) | Single | Plain (i : Z) | Ramses (i : Z).

(** src/snapshot.h:51-72 [Particle_t].  A field that is not written yet is [None]. *)
Record particle (R : Type) := mkparticle { p_pos : option (R * R * R); p_vel : option (R * R * R); p_id : option Z; p_mass : option R;
  p_energy : option R; p_type : option nat }.
Arguments mkparticle {R} _ _ _ _ _ _.
Arguments p_pos {R} _. Arguments p_vel {R} _. Arguments p_id {R} _. Arguments p_mass {R} _. Arguments p_energy {R} _. Arguments p_type {R} _.

(** Writes [vals] into the array from index [off] on; [None]: out of bounds. *)
Fixpoint assign_at {V P} (set : V -> P -> P) (off : nat) (vals : list V) (arr : list P) : option (list P) :=
  match off, arr with
  | S k, a :: r => let? r' := assign_at set k vals r in Some (a :: r')
  | S _, [] => match vals with [] => Some [] | _ => None end
  | O, _ =>
      (fix go vals arr := match vals, arr with
       | [], _ => Some arr
       | v :: vs, a :: r => let? r' := go vs r in Some (set v a :: r')
       | _ :: _, [] => None
       end) vals arr
  end.
(** [n] elements from index [off] on; [None]: out of bounds. *)
Definition slice_at {V} (off n : nat) (l : list V) : option (list V) :=
  if (length l <? off + n)%nat then match n with O => Some [] | _ => None end else Some (firstn n (skipn off l)).
(** [data_reshape] of src/mymath.h:254-257: rows of three. *)
Fixpoint triples {V} (l : list V) : list (V * V * V) :=
  match l with x :: y :: z :: r => (x, y, z) :: triples r | _ => [] end.

Section Gadget.
  (** [R] is HBTReal; [real] the value of the bytes of a float or double. *)
  Context {R : Type}.
  Variable real : list N -> R.
  (** [0 == mass] for a double; [(HBTReal)Header.BoxSize == HBTConfig.BoxSize]. *)
  Variable is_zero box_matches : list N -> bool.
  (** [position_modulus(x, BoxSize)]; multiplication by [sqrt(ScaleFactor)]. *)
  Variable wrap : R -> R.
  Variable speed : list N -> R -> R.
  (** PeriodicBoundaryOn, SnapshotHasIdBlock, ParticleIdRankStyle and SnapshotIdUnsigned of the configuration. *)
  Variables periodic has_id rank_style id_unsigned : bool.
  (** Whether DM_ONLY and HAS_THERMAL_ENERGY are defined; sizeof(HBTInt). *)
  Variables dm_only thermal : bool.
  Variable hbtint_size : Z.
  (** The files. *)
  Variable disk : name -> option (list N).

  (** src/mymath.h [file_exist]. *)
  Definition file_exist (n : name) : bool := match disk n with Some _ => true | None => false end.
  (** src/io/gadget_io.cpp:67-83 [GetGadgetFileName]. *)
  Definition file_name (i : Z) : option name :=
    let n := Snapdir i in
    let n := if i =? 0 then if file_exist n then n else Single else n in
    let n := if file_exist n then n else Plain i in
    let n := if file_exist n then n else Ramses i in
    if file_exist n then Some n else None.
  Definition open_file (i : Z) : option file :=
    let? n := file_name i in let? b := disk n in Some (mkfile b 0).

  (** src/io/gadget_io.cpp:134-151 [ReadGadgetNumberOfParticles]. *)
  Definition number_of_particles (i : Z) : option Z :=
    let? f := open_file i in
    let? (_, h, _) := read_header f in
    if dm_only then nth_error (h_npart h) type_dm else Some (fold_left Z.add (h_npart h) 0).

  (** What the root process sends to the others (lines 208-218). *)
  Record info := mkinfo { i_swap : bool; i_header : header; i_real_size : Z; i_int_size : Z; i_numbers : list Z; i_offsets : list Z }.

  (** Integers from [a] up to [b - 1]. *)
  Definition range (a b : Z) : list Z := map (fun k => a + Z.of_nat k) (seq 0 (Z.to_nat (b - a))).

  (** src/io/gadget_io.cpp:153-204 [LoadGadgetHeader] for file 0; [None] includes the division by zero of line 176 and the
      failed assertions. *)
  Definition load_header : option info :=
    let? f := open_file 0 in
    let? (swap, h, f) := read_header f in
    if negb (box_matches (h_box h)) then None else
    let n := fold_left Z.add (h_npart h) 0 in
    let? (blocksize, f) := skip_fortran_block swap f in
    if n =? 0 then None else
    let real_size := Z.quot (Z.quot blocksize n) 3 in
    if negb ((4 =? real_size) || (8 =? real_size)) then None else
    let? (blocksize, f) := skip_fortran_block swap f in
    if negb (blocksize =? real_size * n * 3) then None else
    let? int_size :=
      (if has_id then
         let? (blocksize, f) := skip_fortran_block swap f in
         let s := Z.quot blocksize n in
         if ((4 =? s) || (8 =? s)) && (s <=? hbtint_size) then Some s else None
       else Some 0) in
    let? numbers := mapM number_of_particles (range 0 (h_num_files h)) in
    Some (mkinfo swap h real_size int_size numbers (fst (compile_offsets numbers))).

  (** The setters of the loops. *)
  Definition set_pos (v : R * R * R) (p : particle R) := mkparticle (Some v) (p_vel p) (p_id p) (p_mass p) (p_energy p) (p_type p).
  Definition set_vel (v : R * R * R) (p : particle R) := mkparticle (p_pos p) (Some v) (p_id p) (p_mass p) (p_energy p) (p_type p).
  Definition set_id (v : Z) (p : particle R) := mkparticle (p_pos p) (p_vel p) (Some v) (p_mass p) (p_energy p) (p_type p).
  Definition set_mass (v : R) (p : particle R) := mkparticle (p_pos p) (p_vel p) (p_id p) (Some v) (p_energy p) (p_type p).
  Definition set_energy (v : R) (p : particle R) := mkparticle (p_pos p) (p_vel p) (p_id p) (p_mass p) (Some v) (p_type p).
  Definition set_type (v : nat) (p : particle R) := mkparticle (p_pos p) (p_vel p) (p_id p) (p_mass p) (p_energy p) (Some v).
  Definition map3 (g : R -> R) (v : R * R * R) : R * R * R := let '(x, y, z) := v in (g x, g y, g z).

  (** src/io/gadget_io.cpp:257-263 [ReadXYZBlock]. *)
  Definition read_xyz (w : nat) (swap : bool) (n_read n_skip : nat) (set : R * R * R -> particle R -> particle R) (f : file) (ps : list (particle R)) :
    option (list (particle R) * file) :=
    let? (block, f) := fortran_read w (n_read * 3) (n_skip * 3) swap f in
    let? ps := assign_at set 0 (triples (map real block)) ps in Some (ps, f).
  (** src/io/gadget_io.cpp:251-255 [ReadScalarBlock] for the ids. *)
  Definition read_ids (w : nat) (dec : list N -> option Z) (swap : bool) (n_read n_skip : nat) (f : file) (ps : list (particle R)) :
    option (list (particle R) * file) :=
    let? (block, f) := fortran_read w n_read n_skip swap f in
    let? ids := mapM dec block in
    let? ps := assign_at set_id 0 ids ps in Some (ps, f).

  (** src/io/gadget_io.cpp:385 [MassDataPresent]. *)
  Definition mass_data_present (h : header) (t : nat) : bool :=
    match nth_error (h_mass h) t, nth_error (h_total h) t with
    | Some m, Some k => is_zero m && negb (k =? 0)
    | _, _ => false
    end.
  (** src/io/gadget_io.cpp:268-275: [offset_mass] and [n_read_mass]. *)
  Fixpoint mass_offsets (h : header) (ts : list nat) (n_read_mass : nat) : option (list nat * nat) :=
    match ts with
    | [] => Some ([], n_read_mass)
    | t :: ts =>
        let? n := nth_error (h_npart h) t in
        let present := mass_data_present h t in
        let? (l, tot) := mass_offsets h ts (if present then n_read_mass + Z.to_nat n else n_read_mass)%nat in
        Some ((if present then n_read_mass else 0%nat) :: l, tot)
    end.
  (** A loop over the types. *)
  Fixpoint each_type (body : nat -> list (particle R) -> option (list (particle R))) (ts : list nat) (ps : list (particle R)) : option (list (particle R)) :=
    match ts with [] => Some ps | t :: ts => let? ps := body t ps in each_type body ts ps end.
  (** src/io/gadget_io.cpp:267-292 [ReadMassBlock] with all types. *)
  Definition read_masses (w : nat) (swap : bool) (h : header) (offset : list Z) (f : file) (ps : list (particle R)) : option (list (particle R) * file) :=
    let? (offset_mass, n_read_mass) := mass_offsets h (seq 0 type_max) 0 in
    let? (block, f) := (if (n_read_mass =? 0)%nat then Some ([], f) else fortran_read w n_read_mass 0 swap f) in
    let? ps := each_type (fun t ps =>
      let? n := nth_error (h_npart h) t in
      let? o := nth_error offset t in
      let? om := nth_error offset_mass t in
      let? m := nth_error (h_mass h) t in
      let? vals := (if mass_data_present h t then let? s := slice_at om (Z.to_nat n) block in Some (map real s) else Some (repeat (real m) (Z.to_nat n))) in
      assign_at set_mass (Z.to_nat o) vals ps) (seq 0 type_max) ps in
    Some (ps, f).
  (** src/io/gadget_io.cpp:294-308 [ReadMassBlock] with DM_ONLY. *)
  Definition read_masses_dm (w : nat) (swap : bool) (h : header) (n_read : nat) (f : file) (ps : list (particle R)) : option (list (particle R) * file) :=
    if mass_data_present h type_dm then
      let? (_, offset_mass) := mass_offsets h (seq 0 type_dm) 0 in
      let? (block, f) := fortran_read w n_read offset_mass swap f in
      let? ps := assign_at set_mass 0 (map real block) ps in Some (ps, f)
    else
      let? m := nth_error (h_mass h) type_dm in
      let? ps := assign_at set_mass 0 (repeat (real m) n_read) ps in Some (ps, f).
  (** src/io/gadget_io.cpp:311-315 [ReadEnergyBlock]. *)
  Definition read_energies (w : nat) (swap : bool) (h : header) (f : file) (ps : list (particle R)) : option (list (particle R) * file) :=
    let? n := nth_error (h_npart h) 0 in
    let? (block, f) := fortran_read w (Z.to_nat n) 0 swap f in
    let? ps := assign_at set_energy 0 (map real block) ps in Some (ps, f).

  (** A particle that [resize] adds; the default constructor writes nothing. *)
  Definition blank : particle R := mkparticle None None None None None None.

  (** src/io/gadget_io.cpp:317-415 [ReadGadgetFile]: the particles it appends.  Negative counts are an error.  The block
      sizes and byte order are those of file 0.  [feof] (line 408) cannot be true after complete reads. *)
  Definition read_file (i : info) (ifile : Z) : option (list (particle R)) :=
    let? f := open_file ifile in
    let? (_, h, f) := read_header f in
    if existsb (fun n => n <? 0) (h_npart h) then None else
    let swap := i_swap i in
    let w := if i_real_size i =? 4 then 4%nat else 8%nat in
    let? n_dm := nth_error (h_npart h) type_dm in
    let n_read := Z.to_nat (if dm_only then n_dm else fold_left Z.add (h_npart h) 0) in
    let n_skip := Z.to_nat (if dm_only then fold_left Z.add (firstn type_dm (h_npart h)) 0 else 0) in
    let offset := fst (compile_offsets (h_npart h)) in
    let ps := repeat blank n_read in
    let? (ps, f) := read_xyz w swap n_read n_skip set_pos f ps in
    let? (ps, f) := read_xyz w swap n_read n_skip set_vel f ps in
    let ps := if periodic then map (fun p => match p_pos p with Some x => set_pos (map3 wrap x) p | None => p end) ps else ps in
    let ps := map (fun p => match p_vel p with Some v => set_vel (map3 (speed (h_time (i_header i))) v) p | None => p end) ps in
    let? (ps, f) :=
      (if has_id then
         if rank_style then None
         else if i_int_size i =? 4 then read_ids 4 (if id_unsigned then uint32_of_bytes else int32_of_bytes) swap n_read n_skip f ps
         else read_ids 8 int64_of_bytes swap n_read n_skip f ps
       else
         let? id_now := nth_error (i_offsets i) (Z.to_nat ifile) in
         let? ps := assign_at set_id 0 (map (fun k => id_now + Z.of_nat k) (seq 0 n_read)) ps in Some (ps, f)) in
    let? (ps, f) := (if dm_only then read_masses_dm w swap h n_read f ps else read_masses w swap h offset f ps) in
    if dm_only then Some ps else
    let? (ps, f) := (if thermal then read_energies w swap h f ps else Some (ps, f)) in
    each_type (fun t ps =>
      let? n := nth_error (h_npart h) t in
      let? o := nth_error offset t in
      assign_at set_type (Z.to_nat o) (repeat t (Z.to_nat n)) ps) (seq 0 type_max) ps.

  (** src/io/gadget_io.cpp:206-249 [Load] on [W] processes: the particles of every process.  Simplifications: the broadcast
      gives every process the whole [info] (MPI_GadgetHeader_t leaves out npartTotal[1..5], which are not used from there);
      how the processes take turns does not matter. *)
  Definition load (W : nat) : option (list (list (particle R))) :=
    let? i := load_header in
    mapM (fun rank =>
      let? (b, e) := assign_tasks (Z.of_nat rank) (Z.of_nat W) (h_num_files (i_header i)) in
      let? l := mapM (read_file i) (range b e) in Some (concat l)) (seq 0 W).
End Gadget.
