(** Vocabulary for configuration files. *)
From Coq Require Import List ZArith QArith Bool Ascii String.
From Verif.Model Require Import Config.
Import ListNotations.
Local Open Scope Z_scope.

(** The name of each parameter as documented, and the compulsory ones in order. *)
Definition name_of (p : param) : string :=
  match p with
  | SnapshotPath => "SnapshotPath" | HaloPath => "HaloPath" | SubhaloPath => "SubhaloPath" | SnapshotFileBase => "SnapshotFileBase"
  | MaxSnapshotIndex => "MaxSnapshotIndex" | BoxSize => "BoxSize" | SofteningHalo => "SofteningHalo" | SnapshotFormat => "SnapshotFormat"
  | GroupFileFormat => "GroupFileFormat" | MaxConcurrentIO => "MaxConcurrentIO" | MinSnapshotIndex => "MinSnapshotIndex"
  | MinNumPartOfSub => "MinNumPartOfSub" | GroupParticleIdMask => "GroupParticleIdMask" | MassInMsunh => "MassInMsunh"
  | LengthInMpch => "LengthInMpch" | VelInKmS => "VelInKmS" | PeriodicBoundaryOn => "PeriodicBoundaryOn"
  | SnapshotHasIdBlock => "SnapshotHasIdBlock" | ParticleIdRankStyle => "ParticleIdRankStyle" | ParticleIdNeedHash => "ParticleIdNeedHash"
  | SnapshotIdUnsigned => "SnapshotIdUnsigned" | SaveSubParticleProperties => "SaveSubParticleProperties"
  | MergeTrappedSubhalos => "MergeTrappedSubhalos" | MajorProgenitorMassRatio => "MajorProgenitorMassRatio"
  | BoundMassPrecision => "BoundMassPrecision" | SourceSubRelaxFactor => "SourceSubRelaxFactor" | SubCoreSizeFactor => "SubCoreSizeFactor"
  | SubCoreSizeMin => "SubCoreSizeMin" | TreeAllocFactor => "TreeAllocFactor" | TreeNodeOpenAngle => "TreeNodeOpenAngle"
  | TreeMinNumOfCells => "TreeMinNumOfCells" | MaxSampleSizeOfPotentialEstimate => "MaxSampleSizeOfPotentialEstimate"
  | RefineMostboundParticle => "RefineMostboundParticle"
  end%string.
Definition compulsory : list param := [SnapshotPath; HaloPath; SubhaloPath; SnapshotFileBase; MaxSnapshotIndex; BoxSize; SofteningHalo].
Definition list_name : text := txt "SnapshotIdList".

Definition spaces (s : text) : Prop := Forall (fun c => is_space c = true) s.
(** A word: characters other than white space, at least one. *)
Definition word (s : text) : Prop := s <> [] /\ Forall (fun c => is_space c = false) s.
(** The end of the line, or white space. *)
Definition word_end (s : text) : Prop := s = [] \/ exists c r, s = c :: r /\ is_space c = true.
(** [line] starts, after white space, with the word [w]; [rest] follows. *)
Definition starts (line w rest : text) : Prop := exists pre, spaces pre /\ word w /\ word_end rest /\ line = pre ++ w ++ rest.

(** What is left of a line after removing its comment and the blanks before the first word. *)
Definition uncommented (line code : text) : Prop :=
  exists blanks comment, line = blanks ++ code ++ comment /\
    Forall (fun c => c = " "%char \/ c = "009"%char) blanks /\ Forall (fun c => c <> "#"%char /\ c <> "["%char) code /\
    (comment = [] \/ exists c r, comment = c :: r /\ (c = "#"%char \/ c = "["%char)) /\
    (forall c r, code = c :: r -> c <> " "%char /\ c <> "009"%char).
(** A line of the file that sets [p]; [rest] is the text after the name. *)
Definition line_of (p : param) (line rest : text) : Prop := exists code, uncommented line code /\ starts code (txt (name_of p)) rest.

(** Positional value of a list of digits. *)
Definition horner (base : Z) (ds : list Z) : Z := fold_left (fun a d => a * base + d) ds 0.
(** The numeral of [z]: a minus sign if it is negative, then digits. *)
Definition numeral (base : Z) (z : Z) (t : text) : Prop :=
  exists ds, ds <> [] /\ Forall (fun d => 0 <= d < base) ds /\
    ((t = map digit_char ds /\ z = horner base ds) \/ (t = "-"%char :: map digit_char ds /\ z = - horner base ds)).

(** The value [z] of the parameter kind [k] written as [t]; for strings and reals see below. *)
Definition written (k : kind) (hbt_min hbt_max : Z) (v : value) (t : text) : Prop :=
  match k, v with
  | KStr, VStr s => t = s /\ word t
  | KInt, VInt z => numeral 10 z t /\ int_min <= z <= int_max
  | KHbt, VInt z => numeral 10 z t /\ hbt_min <= z <= hbt_max
  | KHex, VInt z => numeral 16 z t /\ long_min <= z <= long_max
  | KBool, VBool b => t = (if b then ["1"%char] else ["0"%char])
  | _, _ => False
  end.
(** A word without the characters that start a comment. *)
Definition plain_word (t : text) : Prop := word t /\ Forall (fun c => c <> "#"%char /\ c <> "["%char) t.
(** What a line of the dumped text can hold in full (an empty string only where that is the default), for a printer of reals. *)
Definition holdable (show_real : Q -> text) (hbt_min hbt_max : Z) (p : param) (v : value) : Prop :=
  match kind_of p, v with
  | KStr, VStr [] => default_val p = VStr []
  | KStr, VStr t => plain_word t
  | KInt, VInt z => int_min <= z <= int_max
  | KHbt, VInt z => hbt_min <= z <= hbt_max
  | KHex, VInt z => 0 <= z <= long_max
  | KReal, VReal q => plain_word (show_real q)
  | KBool, VBool _ => True
  | _, _ => False
  end.
(** The value that comes back: reals as rounded by printing and reading, all others unchanged. *)
Definition rounded (read_real : text -> Q) (show_real : Q -> text) (v : value) : value :=
  match v with VReal q => VReal (read_real (show_real q)) | _ => v end.
