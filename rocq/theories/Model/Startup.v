(** Model of program start: ParseConfigFile with its derived values, ParseHBTParams and Parameter_t::BroadCast
    (src/config_parser.cpp:74-251, src/mpi_wrapper.cpp:5-43, HBT.cpp:25-40). *)
From Coq Require Import List ZArith QArith Bool Ascii String.
From Verif.Model Require Import ListMem Mpi Config.
Import ListNotations.
Local Open Scope Z_scope.

(** src/config_parser.cpp:110-135 [ReadSnapshotNameList]; [None]: there is no such file. *)
Definition read_names (f : option text) : list text :=
  match f with
  | None => []
  | Some s => filter (fun n => match n with [] => false | _ => true end)
                (map (fun l => fst (take_word (skip_ws (trim_trailing l ["#"%char])))) (getlines s))
  end.

(** All members of Parameter_t and the two physical constants; [None]: not initialised. *)
Record settings := mksettings {
  s_conf : config; s_names : list text; s_angle2 : option Q; s_res : option Q; s_reshalf : option Q; s_half : option Q;
  s_loaded : bool; s_G : option Q; s_H0 : option Q }.
(** src/config_parser.h:76-112, before parsing. *)
Definition new_settings : settings := mksettings default_config [] None None None None false None None.

Definition real_of (v : value) : option Q := match v with VReal q => Some q | _ => None end.
(** src/config_parser.cpp:97-107, from the values read. *)
Definition derive (c : config) (names : list text) : settings :=
  let r p := real_of (c_val c p) in
  let lift2 (f : Q -> Q -> Q) a b := match a, b with Some x, Some y => Some (f x y) | _, _ => None end in
  let lift (f : Q -> Q) a := match a with Some x => Some (f x) | None => None end in
  let res := lift (fun s => s * (1 # 10))%Q (r SofteningHalo) in
  mksettings c names
    (lift2 Qmult (r TreeNodeOpenAngle) (r TreeNodeOpenAngle)) res (lift (fun x => x / 2)%Q res) (lift (fun b => b / 2)%Q (r BoxSize))
    (match c_val c GroupFileFormat with VStr t => text_eqb t (txt "apostle_particle_index") | _ => false end)
    (match r MassInMsunh, r VelInKmS, r LengthInMpch with
     | Some m, Some v, Some l => Some ((430071 # 10000) * (m / (10000000000 # 1)) / v / v / l)%Q | _, _, _ => None end)
    (match r VelInKmS, r LengthInMpch with Some v, Some l => Some (100 * (1 / v) / (1 / l))%Q | _, _ => None end).

Inductive started := Started (s : settings) (first last : Z) | Usage | Rejected (why : parsed) | BadNames.

Section Start.
  Variable read_real : text -> Q.
  Variable hbt_min hbt_max : Z.
  (** src/config_parser.cpp:74-108 and the assertion of lines 133-134. *)
  Definition parse_file (file : text) (namefile : option text) : parsed * option settings :=
    match parse_config read_real hbt_min hbt_max file with
    | Accepted c =>
        let names := read_names namefile in
        (Accepted c, match names with
                     | [] => Some (derive c names)
                     | _ => if value_eqZ (c_val c MaxSnapshotIndex) (Z.of_nat (List.length names) - 1) then Some (derive c names) else None
                     end)
    | e => (e, None)
    end.
  (** atoi, for numerals within int. *)
  Definition atoi (t : text) : Z := fst (fst (read_int 10 int_min int_max (skip_ws t))).
  Definition int_of (v : value) : Z := match v with VInt z => z | _ => 0 end.
  (** src/config_parser.cpp:158-180 [ParseHBTParams]; [args]: the command line without the program name.  [int_of] of a value that was
      not initialised is arbitrary. *)
  Definition parse_params (args : list text) (file : text) (namefile : option text) : started :=
    match args with
    | [] => Usage
    | _ :: more =>
        match parse_file file namefile with
        | (Accepted _, Some s) =>
            match more with
            | [] => Started s (int_of (c_val (s_conf s) MinSnapshotIndex)) (int_of (c_val (s_conf s) MaxSnapshotIndex))
            | a :: [] => Started s (atoi a) (atoi a)
            | a :: b :: _ => Started s (atoi a) (atoi b)
            end
        | (Accepted _, None) => BadNames
        | (e, _) => Rejected e
        end
    end.
End Start.

(** ** BroadCast *)
Inductive field := FPar (p : param) | FSet | FIds | FNames | FAngle2 | FRes | FResHalf | FHalf | FLoaded | FG | FH0.
(** src/config_parser.cpp:190-245, in order (without ALLOW_BINARY_SYSTEM). *)
Definition sync_order : list field :=
  [FPar SnapshotPath; FPar HaloPath; FPar SubhaloPath; FPar SnapshotFileBase; FPar MaxSnapshotIndex; FPar BoxSize; FPar SofteningHalo; FSet;
   FPar SnapshotFormat; FPar GroupFileFormat; FPar MaxConcurrentIO; FPar MinSnapshotIndex; FPar MinNumPartOfSub; FPar GroupParticleIdMask;
   FPar MassInMsunh; FPar LengthInMpch; FPar VelInKmS; FPar PeriodicBoundaryOn; FPar SnapshotHasIdBlock; FPar ParticleIdRankStyle;
   FPar ParticleIdNeedHash; FPar SnapshotIdUnsigned; FPar SaveSubParticleProperties; FPar MergeTrappedSubhalos; FIds; FNames;
   FPar MajorProgenitorMassRatio; FPar BoundMassPrecision; FPar SourceSubRelaxFactor; FPar SubCoreSizeFactor; FPar SubCoreSizeMin;
   FPar TreeAllocFactor; FPar TreeNodeOpenAngle; FPar TreeMinNumOfCells; FPar MaxSampleSizeOfPotentialEstimate; FPar RefineMostboundParticle;
   FAngle2; FRes; FResHalf; FHalf; FLoaded; FG; FH0].
(** src/mpi_wrapper.cpp:22-43 [SyncVectorString]: one line per string, split again by getline. *)
Definition join_lines (l : list text) : text := List.concat (map (fun s => s ++ [nl]) l).
(** What a receiving process has after one call of SyncAtom, SyncContainer, SyncAtomBool, SyncVectorBool or SyncVectorString
    (src/mpi_wrapper.h:65-87, src/mpi_wrapper.cpp:5-43); MPI_Bcast delivers the root's data. *)
Definition receive (f : field) (root me : settings) : settings :=
  match f with
  | FPar p => mksettings (set_val (s_conf me) p (c_val (s_conf root) p)) (s_names me) (s_angle2 me) (s_res me) (s_reshalf me) (s_half me) (s_loaded me) (s_G me) (s_H0 me)
  | FSet => mksettings (mkconfig (c_val (s_conf me)) (c_set (s_conf root)) (c_ids (s_conf me))) (s_names me) (s_angle2 me) (s_res me) (s_reshalf me) (s_half me) (s_loaded me) (s_G me) (s_H0 me)
  | FIds => mksettings (mkconfig (c_val (s_conf me)) (c_set (s_conf me)) (c_ids (s_conf root))) (s_names me) (s_angle2 me) (s_res me) (s_reshalf me) (s_half me) (s_loaded me) (s_G me) (s_H0 me)
  | FNames => mksettings (s_conf me) (getlines (join_lines (s_names root))) (s_angle2 me) (s_res me) (s_reshalf me) (s_half me) (s_loaded me) (s_G me) (s_H0 me)
  | FAngle2 => mksettings (s_conf me) (s_names me) (s_angle2 root) (s_res me) (s_reshalf me) (s_half me) (s_loaded me) (s_G me) (s_H0 me)
  | FRes => mksettings (s_conf me) (s_names me) (s_angle2 me) (s_res root) (s_reshalf me) (s_half me) (s_loaded me) (s_G me) (s_H0 me)
  | FResHalf => mksettings (s_conf me) (s_names me) (s_angle2 me) (s_res me) (s_reshalf root) (s_half me) (s_loaded me) (s_G me) (s_H0 me)
  | FHalf => mksettings (s_conf me) (s_names me) (s_angle2 me) (s_res me) (s_reshalf me) (s_half root) (s_loaded me) (s_G me) (s_H0 me)
  | FLoaded => mksettings (s_conf me) (s_names me) (s_angle2 me) (s_res me) (s_reshalf me) (s_half me) (s_loaded root) (s_G me) (s_H0 me)
  | FG => mksettings (s_conf me) (s_names me) (s_angle2 me) (s_res me) (s_reshalf me) (s_half me) (s_loaded me) (s_G root) (s_H0 me)
  | FH0 => mksettings (s_conf me) (s_names me) (s_angle2 me) (s_res me) (s_reshalf me) (s_half me) (s_loaded me) (s_G me) (s_H0 root)
  end.
(** One collective call on all processes; the root keeps its own.  [None]: no such root. *)
Definition sync_field (root : nat) (l : list settings) (f : field) : option (list settings) :=
  match nth_error l root with
  | None => None
  | Some r => Some (map (fun '(i, s) => if Nat.eqb i root then s else receive f r s) (combine (seq 0 (List.length l)) l))
  end.
(** src/config_parser.cpp:182-251 [BroadCast]. *)
Fixpoint sync_fields (root : nat) (l : list settings) (fs : list field) : option (list settings) :=
  match fs with
  | [] => Some l
  | f :: r => match sync_field root l f with Some l' => sync_fields root l' r | None => None end
  end.
Definition broadcast (root : nat) (l : list settings) : option (list settings) := sync_fields root l sync_order.
(** HBT.cpp:25-40: the first process parses, then all receive; each process has its settings and its range of snapshots
    (src/config_parser.h:117-122).  [others]: the settings of the other processes before.  The result of [parse_params] when it is
    not [Started] ends the run. *)
Definition start_up (first : started) (others : list settings) : option (list (settings * (Z * Z))) :=
  match first with
  | Started s a b =>
      match broadcast 0 (s :: others) with
      | Some l => Some (map (fun x => (x, (a, b))) l)
      | None => None
      end
  | _ => None
  end.
