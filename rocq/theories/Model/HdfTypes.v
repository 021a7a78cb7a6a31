(** Model of the HDF5 compound types with which subhalos and particles are saved: the members inserted, the record in the file, and
    what reading it stores.  HDF5 itself is described by the rules of its manual. *)
From Coq Require Import List Arith ZArith Bool String.
From Verif.Model Require Import MpiTypes.
Import ListNotations.
Local Open Scope string_scope.
Local Open Scope nat_scope.
Notation length := List.length.

Local Notation "'let?' p := e 'in' k" := (match e with Some p => k | None => None end) (at level 200, p pattern, right associativity).

(** src/hdf_wrapper.h:9-18. *)
Inductive h5type := H5T_HBTInt | H5T_HBTReal | H5T_NATIVE_FLOAT | H5T_NATIVE_INT.
Definition ctype_of (t : h5type) : ctype := match t with H5T_HBTInt => HBTInt | H5T_HBTReal => HBTReal | H5T_NATIVE_FLOAT => Float | H5T_NATIVE_INT => Int end.
(** [InsertMember(name, type)], the type being an array with the dimensions [f_dims], or a single number for []. *)
Record field := mkfield { f_name : string; f_type : h5type; f_dims : list nat }.
Definition f_count (f : field) : nat := fold_right Nat.mul 1 (f_dims f).
Definition f_size (b : build) (f : field) : nat := csize b (ctype_of (f_type f)) * f_count f.

(** H5Tinsert into a compound of [extent] bytes: it fails, and changes nothing, for a name that is there already, for bytes that
    another member has and for bytes outside; the code does not look at the result. *)
Definition H5Tinsert (b : build) (extent : nat) (t : list (field * nat)) (e : field * nat) : list (field * nat) :=
  let taken := fun e' => (f_name (fst e') =? f_name (fst e))%string || ((snd e' <? snd e + f_size b (fst e)) && (snd e <? snd e' + f_size b (fst e'))) in
  if existsb taken t || (extent <? snd e + f_size b (fst e)) then t else t ++ [e].
(** HOFFSET for each member, and the insertions in their order. *)
Fixpoint insert_members (b : build) (ms : list member) (offs : list nat) (extent : nat) (fs : list field) (t : list (field * nat)) : option (list (field * nat)) :=
  match fs with
  | [] => Some t
  | f :: r => let? o := offset_of (f_name f) ms offs in insert_members b ms offs extent r (H5Tinsert b extent t (f, o))
  end.
(** H5Tcopy and H5Tpack: the members by increasing offset, without gaps. *)
Fixpoint by_offset (e : field * nat) (l : list (field * nat)) : list (field * nat) :=
  match l with [] => [e] | e' :: r => if snd e <=? snd e' then e :: l else e' :: by_offset e r end.
Definition sort_members (t : list (field * nat)) : list (field * nat) := fold_right by_offset [] t.
Fixpoint pack (b : build) (start : nat) (fs : list field) : list (field * nat) :=
  match fs with [] => [] | f :: r => (f, start) :: pack b (start + f_size b f) r end.
Definition H5Tpack (b : build) (t : list (field * nat)) : list (field * nat) := pack b 0 (map fst (sort_members t)).

Section Records.
  Context {B : Type}.
  (** The conversion of numbers of one size to another, any function. *)
  Variable conv : h5type -> build -> build -> list B -> list B.
  Definition bytes_at (o n : nat) (l : list B) : list B := firstn n (skipn o l).
  (** H5Dwrite with the packed type in the file: the bytes of the members one after another. *)
  Definition write_record (b : build) (t : list (field * nat)) (src : list B) : list B :=
    flat_map (fun e => bytes_at (snd e) (f_size b (fst e)) src) (sort_members t).
  Definition find_field (name : string) (t : list (field * nat)) : option (field * nat) := find (fun e => (f_name (fst e) =? name)%string) t.
  Definition convert (t : h5type) (b b' : build) (l : list B) : list B := if csize b (ctype_of t) =? csize b' (ctype_of t) then l else conv t b b' l.
  Definition store (o : nat) (bytes dst : list B) : list B := firstn o dst ++ bytes ++ skipn (o + length bytes) dst.
  Definition same_shape (f f' : field) : bool :=
    (match f_type f, f_type f' with H5T_HBTInt, H5T_HBTInt | H5T_HBTReal, H5T_HBTReal | H5T_NATIVE_FLOAT, H5T_NATIVE_FLOAT | H5T_NATIVE_INT, H5T_NATIVE_INT => true | _, _ => false end) &&
    (if list_eq_dec Nat.eq_dec (f_dims f) (f_dims f') then true else false).
  (** H5Dread of a record written by a program built with [b] into a structure of one built with [b']: each member of the type in
      memory is looked up by name; those that the file does not have are left as they are.  [None]: a member has another shape in the
      file (conversions between integers and floating-point numbers are not modelled). *)
  Fixpoint read_record (b b' : build) (file : list (field * nat)) (record : list B) (t : list (field * nat)) (dst : list B) : option (list B) :=
    match t with
    | [] => Some dst
    | (f, o) :: r =>
        match find_field (f_name f) file with
        | None => read_record b b' file record r dst
        | Some (f', o') => if same_shape f f' then read_record b b' file record r (store o (convert (f_type f) b b' (bytes_at o' (f_size b f') record)) dst) else None
        end
    end.
End Records.

(** src/io/subhalo_io.cpp:12-98 [BuildHDFDataType]. *)
Definition subhalo_fields (b : build) : list field :=
  [mkfield "TrackId" H5T_HBTInt []; mkfield "Nbound" H5T_HBTInt []; mkfield "Mbound" H5T_NATIVE_FLOAT []] ++
  (if dm_only b then [] else [mkfield "NboundType" H5T_HBTInt [type_max]; mkfield "MboundType" H5T_NATIVE_FLOAT [type_max]]) ++
  [mkfield "HostHaloId" H5T_HBTInt []; mkfield "Rank" H5T_HBTInt []; mkfield "Depth" H5T_NATIVE_INT []; mkfield "LastMaxMass" H5T_NATIVE_FLOAT []; mkfield "SnapshotIndexOfLastMaxMass" H5T_NATIVE_INT [];
   mkfield "SnapshotIndexOfLastIsolation" H5T_NATIVE_INT []; mkfield "SnapshotIndexOfBirth" H5T_NATIVE_INT []; mkfield "SnapshotIndexOfDeath" H5T_NATIVE_INT []; mkfield "SnapshotIndexOfSink" H5T_NATIVE_INT [];
   mkfield "RmaxComoving" H5T_NATIVE_FLOAT []; mkfield "VmaxPhysical" H5T_NATIVE_FLOAT []; mkfield "LastMaxVmaxPhysical" H5T_NATIVE_FLOAT []; mkfield "SnapshotIndexOfLastMaxVmax" H5T_NATIVE_INT [];
   mkfield "R2SigmaComoving" H5T_NATIVE_FLOAT []; mkfield "RHalfComoving" H5T_NATIVE_FLOAT []; mkfield "BoundR200CritComoving" H5T_NATIVE_FLOAT []; mkfield "BoundM200Crit" H5T_NATIVE_FLOAT [];
   mkfield "SpecificSelfPotentialEnergy" H5T_NATIVE_FLOAT []; mkfield "SpecificSelfKineticEnergy" H5T_NATIVE_FLOAT []; mkfield "SpecificAngularMomentum" H5T_NATIVE_FLOAT [3]] ++
  (if gsl b then [mkfield "InertialEigenVector" H5T_NATIVE_FLOAT [3; 3]; mkfield "InertialEigenVectorWeighted" H5T_NATIVE_FLOAT [3; 3]] else []) ++
  [mkfield "InertialTensor" H5T_NATIVE_FLOAT [6]; mkfield "InertialTensorWeighted" H5T_NATIVE_FLOAT [6]; mkfield "ComovingAveragePosition" H5T_HBTReal [3]; mkfield "PhysicalAverageVelocity" H5T_HBTReal [3];
   mkfield "ComovingMostBoundPosition" H5T_HBTReal [3]; mkfield "PhysicalMostBoundVelocity" H5T_HBTReal [3]; mkfield "MostBoundParticleId" H5T_HBTInt []; mkfield "SinkTrackId" H5T_HBTInt []].
(** src/io/subhalo_io.cpp:319-335, the dataset ParticleProperties. *)
Definition particle_fields (b : build) : list field :=
  [mkfield "ComovingPosition" H5T_HBTReal [3]; mkfield "PhysicalVelocity" H5T_HBTReal [3]; mkfield "Mass" H5T_HBTReal []] ++
  if dm_only b then [] else (if thermal b then [mkfield "InternalEnergy" H5T_HBTReal []] else []) ++ [mkfield "Type" H5T_NATIVE_INT []].

(** ** Lists of ids *)
Local Open Scope Z_scope.
(** The largest HBTInt plus one. *)
Definition int_limit (int8 : bool) : Z := if int8 then 2 ^ 63 else 2 ^ 31.
(** src/io/subhalo_io.cpp:355-359: the element type of the lists of ids, with UNSIGNED_LONG_ID_OUTPUT or not.  HDF5 takes [len]
    elements of that type from element [p] of the buffer of HBTInt on; without HBT_INT8 each of them is made of two numbers of the
    buffer.  [None]: bytes beyond the buffer. *)
Fixpoint pairs (l : list Z) : list Z := match l with lo :: hi :: r => (lo mod 2 ^ 32 + 2 ^ 32 * (hi mod 2 ^ 32)) :: pairs r | _ => [] end.
Definition ids_to_file (int8 ulong : bool) (buffer : list Z) (len p : nat) : option (list Z) :=
  let n := (if ulong && negb int8 then 2 * len else len)%nat in
  if (p + n <=? length buffer)%nat then
    let l := firstn n (skipn p buffer) in
    Some (if ulong then if int8 then map (fun i => i mod 2 ^ 64) l else pairs l else l)
  else None.
(** src/io/subhalo_io.cpp:202,218,236: they are read as HBTInt; values out of range become the nearest one. *)
Definition ids_from_file (int8 : bool) (l : list Z) : list Z := map (fun i => Z.max (- int_limit int8) (Z.min i (int_limit int8 - 1))) l.
