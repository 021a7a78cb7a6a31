(** Model of the MPI datatypes with which structures are sent: the members of each structure, what is registered for it, and the
    bytes that a transfer copies. *)
From Coq Require Import List Arith Bool String.
Import ListNotations.
Local Open Scope string_scope.
Local Open Scope nat_scope.
Notation length := List.length.

Local Notation "'let?' p := e 'in' k" := (match e with Some p => k | None => None end) (at level 200, p pattern, right associativity).

(** The macros that change the structures: HBT_INT8, HBT_REAL8, DM_ONLY, HAS_THERMAL_ENERGY, HAS_GSL, SAVE_BINDING_ENERGY. *)
Record build := mkbuild { int8 : bool; real8 : bool; dm_only : bool; thermal : bool; gsl : bool; save_energy : bool }.
(** Types of members; [Other n]: something of [n] bytes that is not a number (a vector). *)
Inductive ctype := HBTInt | HBTReal | Float | Int | Unsigned | Double | Other (n : nat).
(** src/datatypes.h:39-57; the sizes of the other types are those of the usual 64-bit systems. *)
Definition csize (b : build) (t : ctype) : nat :=
  match t with HBTInt => if int8 b then 8 else 4 | HBTReal => if real8 b then 8 else 4 | Double => 8 | Other n => n | _ => 4 end.
Inductive mpitype := MPI_HBT_INT | MPI_HBT_REAL | MPI_FLOAT | MPI_INT | MPI_UNSIGNED | MPI_DOUBLE.
(** The C type that belongs to an MPI type (src/datatypes.h:39-57 and the MPI standard). *)
Definition c_of (t : mpitype) : ctype :=
  match t with MPI_HBT_INT => HBTInt | MPI_HBT_REAL => HBTReal | MPI_FLOAT => Float | MPI_INT => Int | MPI_UNSIGNED => Unsigned | MPI_DOUBLE => Double end.

(** A member [type name[count]], and [RegisterAttr(name, type, count)]. *)
Record member := mkmember { m_type : ctype; m_name : string; m_count : nat }.
Record attr := mkattr { a_name : string; a_type : mpitype; a_count : nat }.
Definition m_size (b : build) (m : member) : nat := csize b (m_type m) * m_count m.
Definition a_size (b : build) (a : attr) : nat := csize b (c_of (a_type a)) * a_count a.

(** [MPI_Get_address(&(p.x), ...)] less the address of [p], the members being at [offs]. *)
Fixpoint offset_of (name : string) (ms : list member) (offs : list nat) : option nat :=
  match ms, offs with
  | m :: ms, o :: offs => if (m_name m =? name)%string then Some o else offset_of name ms offs
  | _, _ => None
  end.
(** MPI_Type_create_struct: for each attribute where it starts and how many bytes it has. *)
Fixpoint type_map (b : build) (ms : list member) (offs : list nat) (l : list attr) : option (list (nat * nat)) :=
  match l with
  | [] => Some []
  | a :: r => let? o := offset_of (a_name a) ms offs in let? t := type_map b ms offs r in Some ((o, a_size b a) :: t)
  end.
(** One structure is sent from [src] and received in [dst] (the bytes of the two structures).  [None]: bytes outside of a
    structure are read or written. *)
Definition covers (p : nat) (e : nat * nat) : bool := (fst e <=? p) && (p <? fst e + snd e).
Definition transfer {B} (t : list (nat * nat)) (src dst : list B) : option (list B) :=
  if (length src =? length dst) && forallb (fun e => fst e + snd e <=? length src) t
  then Some (map (fun x => if existsb (covers (fst x)) t then fst (snd x) else snd (snd x)) (combine (seq 0 (length src)) (combine src dst)))
  else None.

(** std::vector: three pointers. *)
Definition vector : ctype := Other 24.
Definition type_max : nat := 6.
Record struct := mkstruct { members : list member; attrs : list attr }.
(** src/snapshot.h:51-62 and src/snapshot.cpp:152-161 [Particle_t]; HBTxyz is std::array<HBTReal, 3>, ParticleType_t an int. *)
Definition particle_struct (b : build) : struct := mkstruct
  ([mkmember HBTInt "Id" 1; mkmember HBTReal "ComovingPosition" 3; mkmember HBTReal "PhysicalVelocity" 3; mkmember HBTReal "Mass" 1] ++
   if dm_only b then [] else (if thermal b then [mkmember HBTReal "InternalEnergy" 1] else []) ++ [mkmember Int "Type" 1])
  ([mkattr "Id" MPI_HBT_INT 1; mkattr "ComovingPosition" MPI_HBT_REAL 3; mkattr "PhysicalVelocity" MPI_HBT_REAL 3; mkattr "Mass" MPI_HBT_REAL 1] ++
   if dm_only b then [] else (if thermal b then [mkattr "InternalEnergy" MPI_HBT_REAL 1] else []) ++ [mkattr "Type" MPI_INT 1]).
(** src/halo.h:19-23 and src/halo.cpp:34-37 [Halo_t]. *)
Definition halo_struct (b : build) : struct := mkstruct
  [mkmember vector "Particles" 1; mkmember HBTInt "HaloId" 1; mkmember HBTReal "ComovingAveragePosition" 3; mkmember HBTReal "PhysicalAverageVelocity" 3; mkmember HBTReal "Mass" 1]
  [mkattr "HaloId" MPI_HBT_INT 1; mkattr "ComovingAveragePosition" MPI_HBT_REAL 3; mkattr "PhysicalAverageVelocity" MPI_HBT_REAL 3; mkattr "Mass" MPI_HBT_REAL 1].
(** src/subhalo.h:28-89 and src/subhalo.cpp:128-175 [Subhalo_t]. *)
Definition subhalo_struct (b : build) : struct := mkstruct
  ([mkmember HBTInt "TrackId" 1; mkmember HBTInt "Nbound" 1; mkmember Float "Mbound" 1] ++
   (if dm_only b then [] else [mkmember HBTInt "NboundType" type_max; mkmember Float "MboundType" type_max]) ++
   [mkmember HBTInt "HostHaloId" 1; mkmember HBTInt "Rank" 1; mkmember Int "Depth" 1; mkmember Float "LastMaxMass" 1; mkmember Int "SnapshotIndexOfLastMaxMass" 1;
    mkmember Int "SnapshotIndexOfLastIsolation" 1; mkmember Int "SnapshotIndexOfBirth" 1; mkmember Int "SnapshotIndexOfDeath" 1; mkmember Int "SnapshotIndexOfSink" 1;
    mkmember Float "RmaxComoving" 1; mkmember Float "VmaxPhysical" 1; mkmember Float "LastMaxVmaxPhysical" 1; mkmember Int "SnapshotIndexOfLastMaxVmax" 1; mkmember Float "R2SigmaComoving" 1;
    mkmember Float "RHalfComoving" 1; mkmember Float "BoundR200CritComoving" 1; mkmember Float "BoundM200Crit" 1; mkmember Float "SpecificSelfPotentialEnergy" 1;
    mkmember Float "SpecificSelfKineticEnergy" 1; mkmember Float "SpecificAngularMomentum" 3] ++
   (if gsl b then [mkmember Float "InertialEigenVector" 9; mkmember Float "InertialEigenVectorWeighted" 9] else []) ++
   [mkmember Float "InertialTensor" 6; mkmember Float "InertialTensorWeighted" 6; mkmember HBTReal "ComovingAveragePosition" 3; mkmember HBTReal "PhysicalAverageVelocity" 3;
    mkmember HBTReal "ComovingMostBoundPosition" 3; mkmember HBTReal "PhysicalMostBoundVelocity" 3; mkmember HBTInt "MostBoundParticleId" 1; mkmember HBTInt "SinkTrackId" 1;
    mkmember vector "Particles" 1] ++ (if save_energy b then [mkmember vector "Energies" 1] else []) ++ [mkmember vector "NestedSubhalos" 1])
  ([mkattr "TrackId" MPI_HBT_INT 1; mkattr "Nbound" MPI_HBT_INT 1; mkattr "Mbound" MPI_FLOAT 1] ++
   (if dm_only b then [] else [mkattr "NboundType" MPI_HBT_INT type_max; mkattr "MboundType" MPI_HBT_INT type_max]) ++
   [mkattr "HostHaloId" MPI_HBT_INT 1; mkattr "Rank" MPI_HBT_INT 1; mkattr "Depth" MPI_INT 1; mkattr "LastMaxMass" MPI_FLOAT 1; mkattr "SnapshotIndexOfLastMaxMass" MPI_INT 1;
    mkattr "SnapshotIndexOfLastIsolation" MPI_INT 1; mkattr "SnapshotIndexOfBirth" MPI_INT 1; mkattr "SnapshotIndexOfDeath" MPI_INT 1; mkattr "SnapshotIndexOfSink" MPI_INT 1;
    mkattr "RmaxComoving" MPI_FLOAT 1; mkattr "VmaxPhysical" MPI_FLOAT 1; mkattr "LastMaxVmaxPhysical" MPI_FLOAT 1; mkattr "SnapshotIndexOfLastMaxVmax" MPI_INT 1; mkattr "R2SigmaComoving" MPI_FLOAT 1;
    mkattr "RHalfComoving" MPI_FLOAT 1; mkattr "BoundR200CritComoving" MPI_FLOAT 1; mkattr "BoundM200Crit" MPI_FLOAT 1; mkattr "SpecificSelfPotentialEnergy" MPI_FLOAT 1;
    mkattr "SpecificSelfKineticEnergy" MPI_FLOAT 1; mkattr "SpecificAngularMomentum" MPI_FLOAT 3] ++
   (if gsl b then [mkattr "InertialEigenVector" MPI_FLOAT 9; mkattr "InertialEigenVectorWeighted" MPI_FLOAT 9] else []) ++
   [mkattr "InertialTensor" MPI_FLOAT 6; mkattr "InertialTensorWeighted" MPI_FLOAT 6; mkattr "ComovingAveragePosition" MPI_HBT_REAL 3; mkattr "PhysicalAverageVelocity" MPI_HBT_REAL 3;
    mkattr "ComovingMostBoundPosition" MPI_HBT_REAL 3; mkattr "PhysicalMostBoundVelocity" MPI_HBT_REAL 3; mkattr "MostBoundParticleId" MPI_HBT_INT 1; mkattr "SinkTrackId" MPI_HBT_INT 1]).
(** src/io/gadget_io.h:9-23 and src/io/gadget_io.cpp:32-44 [GadgetHeader_t]; [fill] has 256 - 6*4 - 6*8 - 2*8 - 2*4 - 6*4 - 2*4 - 4*8
    bytes. *)
Definition gadget_struct : struct := mkstruct
  [mkmember Int "npart" type_max; mkmember Double "mass" type_max; mkmember Double "ScaleFactor" 1; mkmember Double "redshift" 1; mkmember Int "flag_sfr" 1; mkmember Int "flag_feedback" 1;
   mkmember Unsigned "npartTotal" type_max; mkmember Int "flag_cooling" 1; mkmember Int "num_files" 1; mkmember Double "BoxSize" 1; mkmember Double "OmegaM0" 1; mkmember Double "OmegaLambda0" 1;
   mkmember Double "HubbleParam" 1; mkmember (Other 96) "fill" 1]
  [mkattr "npart" MPI_INT type_max; mkattr "mass" MPI_DOUBLE type_max; mkattr "ScaleFactor" MPI_DOUBLE 1; mkattr "redshift" MPI_DOUBLE 1; mkattr "flag_sfr" MPI_INT 1; mkattr "flag_feedback" MPI_INT 1;
   mkattr "npartTotal" MPI_UNSIGNED 1; mkattr "flag_cooling" MPI_INT 1; mkattr "num_files" MPI_INT 1; mkattr "BoxSize" MPI_DOUBLE 1; mkattr "OmegaM0" MPI_DOUBLE 1; mkattr "OmegaLambda0" MPI_DOUBLE 1;
   mkattr "HubbleParam" MPI_DOUBLE 1].
(** src/io/apostle_io.h:17-27 and src/io/apostle_io.cpp:34-42 [ApostleHeader_t]. *)
Definition apostle_struct : struct := mkstruct
  [mkmember Int "NumberOfFiles" 1; mkmember Double "BoxSize" 1; mkmember Double "ScaleFactor" 1; mkmember Double "OmegaM0" 1; mkmember Double "OmegaLambda0" 1; mkmember Double "mass" type_max;
   mkmember Int "npart" type_max; mkmember HBTInt "npartTotal" type_max]
  [mkattr "NumberOfFiles" MPI_INT 1; mkattr "BoxSize" MPI_DOUBLE 1; mkattr "ScaleFactor" MPI_DOUBLE 1; mkattr "BoxSize" MPI_DOUBLE 1; mkattr "OmegaM0" MPI_DOUBLE 1; mkattr "OmegaLambda0" MPI_DOUBLE 1;
   mkattr "mass" MPI_DOUBLE type_max; mkattr "npart" MPI_INT type_max; mkattr "npartTotal" MPI_HBT_INT type_max].
(** src/io/gadget_group_io.cpp:289-291 and 317-323 [FileAssignment_t]. *)
Definition assignment_struct : struct := mkstruct
  [mkmember Int "ifile_begin" 1; mkmember Int "ifile_end" 1; mkmember HBTInt "firstfile_begin_part" 1; mkmember HBTInt "lastfile_end_part" 1; mkmember HBTInt "npart" 1; mkmember HBTInt "haloid_begin" 1;
   mkmember HBTInt "nhalo" 1]
  [mkattr "ifile_begin" MPI_INT 1; mkattr "ifile_end" MPI_INT 1; mkattr "firstfile_begin_part" MPI_HBT_INT 1; mkattr "lastfile_end_part" MPI_HBT_INT 1; mkattr "npart" MPI_HBT_INT 1;
   mkattr "haloid_begin" MPI_HBT_INT 1; mkattr "nhalo" MPI_HBT_INT 1].
(** src/io/apostle_io.cpp:510-516 and 531-534 [HaloInfo_t]. *)
Definition haloinfo_struct : struct := mkstruct
  [mkmember HBTInt "id" 1; mkmember HBTReal "m" 1; mkmember HBTReal "x" 3; mkmember Int "order" 1]
  [mkattr "id" MPI_HBT_INT 1; mkattr "m" MPI_HBT_REAL 1; mkattr "x" MPI_HBT_REAL 3; mkattr "order" MPI_INT 1].
