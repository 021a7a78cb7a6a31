(** Model of the reader of Gadget group catalogues (src/io/gadget_group_io.cpp), from the bytes of the files to the groups of
    every process. *)
From Coq Require Import List ZArith NArith Bool Arith.
From Verif.Model Require Import Mymath ListMem Mpi Gadget.
From Verif.Model Require Groups.
Import ListNotations.
Local Open Scope Z_scope.

Local Notation "'let?' p := e 'in' k" := (match e with Some p => k | None => None end) (at level 200, p pattern, right associativity).

(** The naming conventions of src/io/gadget_group_io.cpp:66-137 in the order in which they are tried, for the snapshot being
    read: groups_SSS/subhalo_KIND_SSS.i, groups_SSS/group_KIND_SSS.i, snapdir_SSS/group_KIND_SSS.i, subhalo_KIND_SSS and
    group_KIND_SSS. *)
Inductive convention := SubNumbered | GroupNumbered | SnapdirNumbered | SubSingle | GroupSingle.
Inductive kind := Tab | Ids.
Definition is_sub (c : convention) : bool := match c with SubNumbered | SubSingle => true | _ => false end.
Definition is_numbered (c : convention) : bool := match c with SubSingle | GroupSingle => false | _ => true end.

(** FileFormat, FileCounts and NeedByteSwap of [GroupFileReader_t]; IsSubFile is [is_sub]. *)
Record layout := mklayout { y_conv : convention; y_count : Z; y_swap : bool }.

(** Conversion to a 32-bit int. *)
Definition to_int32 (z : Z) : Z := (z + 2147483648) mod 4294967296 - 2147483648.

Section GroupFiles.
  (** The files; the index of a single file is 0.  [pattern_count]: the number of names that match the pattern of a convention
      with index (src/mymath.cpp:23-32). *)
  Variable disk : convention -> kind -> Z -> option (list N).
  Variable pattern_count : convention -> Z.
  (** GroupFileFormat: gadget3 instead of gadget2, long instead of int (for any other name [Read] throws, line 285). *)
  Variables v3 wide : bool.
  (** GroupParticleIdMask and ParticleIdRankStyle of the configuration. *)
  Variable id_mask : Z.
  Variable rank_style : bool.

  (** src/io/gadget_group_io.cpp:32-64 [GetGroupFileByteOrder]. *)
  Definition byte_order (c : convention) (count : Z) : option bool :=
    let? b := disk c Tab 0 in
    let? f := fseek_cur (if v3 then 20 else 12) (mkfile b 0) in
    let? (b, _) := fread 4 f in
    let? nfiles := int32_of_bytes b in
    let? s := swap_Nbyte 1 4 (store32 (Z.to_N count)) in
    let? ns := int32_of_bytes s in
    if nfiles =? count then Some false else if nfiles =? ns then Some true else None.
  (** src/io/gadget_group_io.cpp:66-137 [GetFileNameFormat]. *)
  Definition exists_tab (c : convention) : bool := match disk c Tab 0 with Some _ => true | None => false end.
  Definition find_layout : option layout :=
    let? c := find exists_tab [SubNumbered; GroupNumbered; SnapdirNumbered; SubSingle; GroupSingle] in
    let count := if is_numbered c then pattern_count c else 1 in
    let? swap := byte_order c count in Some (mklayout c count swap).

  (** src/io/gadget_group_io.cpp:173-176 and 222-225.  With FileCounts = 1 a format with index is printed without its argument:
      undefined. *)
  Definition open_group (y : layout) (k : kind) (i : Z) : option file :=
    let? b := (if 1 <? y_count y then disk (y_conv y) k (if is_numbered (y_conv y) then i else 0)
               else if is_numbered (y_conv y) then None else disk (y_conv y) k 0) in
    Some (mkfile b 0).
  (** src/io/gadget_group_io.cpp:178-204: Ngroups, Nids and the file after the header.  A negative number of groups or ids is an
      error later. *)
  Definition read_tab (y : layout) (i : Z) : option (nat * nat * file) :=
    let? f := open_group y Tab i in
    let? (ngroups, f) := read_int (y_swap y) f in
    let? (nids, f) :=
      (if v3 then
         let? (_, f) := read_int (y_swap y) f in
         let? (nids, f) := read_int (y_swap y) f in
         let? (_, f) := fread_swap 8 1 (y_swap y) f in Some (nids, f)
       else
         let? (nids, f) := read_int (y_swap y) f in
         let? (_, f) := read_int (y_swap y) f in Some (nids, f)) in
    let? (nfiles, f) := read_int (y_swap y) f in
    let? f := (if is_sub (y_conv y) then let? (_, f) := read_int (y_swap y) f in let? (_, f) := read_int (y_swap y) f in Some f else Some f) in
    if (nfiles =? y_count y) && (0 <=? ngroups) && (0 <=? nids) then Some (Z.to_nat ngroups, Z.to_nat nids, f) else None.
  (** src/io/gadget_group_io.cpp:205-219: the lengths.  The offsets are read but not used (line 387).  A negative length is an
      error later. *)
  Definition read_lens (y : layout) (i : Z) : option (list nat) :=
    let? (ngroups, _, f) := read_tab y i in
    let? (lens, f) := read_ints int32_of_bytes ngroups (y_swap y) f in
    let? (_, _) := read_ints int32_of_bytes ngroups (y_swap y) f in
    if forallb (fun n => 0 <=? n) lens then Some (map Z.to_nat lens) else None.
  (** PIDtype_t: its size, its value and the conversion of the mask. *)
  Definition id_size : nat := if wide then 8 else 4.
  Definition id_of_bytes (b : list N) : option Z := if wide then int64_of_bytes b else int32_of_bytes b.
  Definition mask_id (z : Z) : Z := let m := if wide then id_mask else to_int32 id_mask in if m =? 0 then z else Z.land z m.
  (** src/io/gadget_group_io.cpp:227-273: ids [start, stop) of file [i]; [stop] = None is -1.  [None] includes the failed
      assertion of line 239 and bytes left over.  HBTInt is at least as wide as the ids. *)
  Definition read_ids (y : layout) (i : Z) (start : nat) (stop : option nat) : option (list Z) :=
    let? (_, nids, _) := read_tab y i in
    let? f := open_group y Ids i in
    let? f := fseek_cur (if v3 then 28 else 16) f in
    let e := match stop with None => nids | Some e => e end in
    if (nids <? e)%nat || (e <? start)%nat then None else
    let? f := fseek_cur (Z.of_nat (id_size * start)) f in
    let? (b, f) := fread_swap id_size (e - start) (y_swap y) f in
    let? ids := mapM id_of_bytes (members id_size (e - start) b) in
    let? f := fseek_cur (Z.of_nat (id_size * (nids - e))) f in
    if negb (pos f =? Z.of_nat (length (bytes f))) || rank_style then None else Some (map mask_id ids).

  (** src/io/gadget_group_io.cpp:423-434. *)
  Definition read_particles (y : layout) (t : Groups.task) : option (list Z) :=
    let? l := mapM (fun i => read_ids y (Z.of_nat i) (if (i =? Groups.k_ifile_begin t)%nat then Groups.k_first t else 0)
      (if (i =? Groups.k_ifile_end t - 1)%nat then Some (Groups.k_last t) else None))
      (seq (Groups.k_ifile_begin t) (Groups.k_ifile_end t - Groups.k_ifile_begin t)) in
    Some (concat l).
  (** src/io/gadget_group_io.cpp:402-446, one process. *)
  Definition load_rank (y : layout) (lens : list nat) (t : Groups.task) : option (list (nat * list Z)) :=
    if (Groups.k_halo t + Groups.k_nhalo t <=? length lens)%nat then
      let? buffer := read_particles y t in
      Groups.populate (Groups.k_halo t) (firstn (Groups.k_nhalo t) (skipn (Groups.k_halo t) lens)) buffer
    else None.
  (** src/io/gadget_group_io.cpp:358-457 [Load] on [W] processes: the groups of every process. *)
  Definition load (W : nat) : option (list (list (nat * list Z))) :=
    let? y := find_layout in
    let? metas := mapM (read_tab y) (range 0 (y_count y)) in
    let nids := map (fun m => let '(_, n, _) := m in n) metas in
    let? lens := mapM (read_lens y) (range 0 (y_count y)) in
    let lens := concat lens in
    let npart := nsum nids in
    if (nsum lens =? npart)%nat then
      let? ts := Groups.assign_tasks W npart (displacements lens ++ [npart]) (displacements nids) 0 in
      mapM (load_rank y lens) ts
    else None.
End GroupFiles.
