(** Model of the configuration parser (src/config_parser.h, src/config_parser.cpp). *)
From Coq Require Import List ZArith QArith Bool Ascii String.
From Verif.Model Require Import ListMem.
Import ListNotations.
Local Open Scope Z_scope.

(** ** Text *)
Definition text := list ascii.
Definition txt (s : string) : text := list_ascii_of_string s.
Definition nl : ascii := "010"%char.
Definition mem (c : ascii) (g : text) : bool := existsb (Ascii.eqb c) g.
Fixpoint text_eqb (a b : text) : bool :=
  match a, b with [], [] => true | x :: a', y :: b' => Ascii.eqb x y && text_eqb a' b' | _, _ => false end.
(** isspace in the C locale: codes 9 to 13 and 32. *)
Definition is_space (c : ascii) : bool := mem c ["009"; "010"; "011"; "012"; "013"; " "]%char.

(** src/config_parser.h:127-134 [trim_leading_garbage]. *)
Fixpoint trim_leading (s g : text) : text :=
  match s with [] => [] | c :: r => if mem c g then trim_leading r g else s end.
(** src/config_parser.h:135-140 [trim_trailing_garbage]. *)
Fixpoint trim_trailing (s g : text) : text :=
  match s with [] => [] | c :: r => if mem c g then [] else c :: trim_trailing r g end.

(** The lines that successive calls of getline yield (src/config_parser.cpp:90). *)
Fixpoint getlines (s : text) : list text :=
  match s with
  | [] => []
  | c :: r => if Ascii.eqb c nl then [] :: getlines r
              else match getlines r with [] => [[c]] | l :: ls => (c :: l) :: ls end
  end.

(** ** Formatted extraction from a stringstream *)
Fixpoint skip_ws (s : text) : text := match s with [] => [] | c :: r => if is_space c then skip_ws r else s end.
Fixpoint take_word (s : text) : text * text :=
  match s with
  | [] => ([], [])
  | c :: r => if is_space c then ([], s) else let '(w, t) := take_word r in (c :: w, t)
  end.
Definition digit_value (c : ascii) : option Z :=
  let n := Z.of_nat (nat_of_ascii c) in
  if (48 <=? n) && (n <=? 57) then Some (n - 48)
  else if (97 <=? n) && (n <=? 102) then Some (n - 87)
  else if (65 <=? n) && (n <=? 70) then Some (n - 55) else None.
(** The longest prefix of digits: value, whether there was one, rest. *)
Fixpoint take_digits (base acc : Z) (found : bool) (s : text) : Z * bool * text :=
  match s with
  | [] => (acc, found, [])
  | c :: r => match digit_value c with
              | Some d => if d <? base then take_digits base (acc * base + d) true r else (acc, found, s)
              | None => (acc, found, s)
              end
  end.
Definition skip_0x (base : Z) (s : text) : text :=
  match s with
  | z :: x :: r => if (base =? 16) && Ascii.eqb z "0" && (Ascii.eqb x "x" || Ascii.eqb x "X") then r else s
  | _ => s
  end.
(** num_get for a signed integer type with values [lo..hi], at a position without leading white space: value stored, success,
    rest.  Without digits 0 is stored, out of range the nearest bound. *)
Definition read_int (base lo hi : Z) (s : text) : Z * bool * text :=
  let '(neg, s1) := match s with
                    | c :: r => if Ascii.eqb c "-" then (true, r) else if Ascii.eqb c "+" then (false, r) else (false, s)
                    | [] => (false, s)
                    end in
  let '(v, found, rest) := take_digits base 0 false (skip_0x base s1) in
  if found then
    let v := if (neg : bool) then - v else v in
    if v <? lo then (lo, false, rest) else if hi <? v then (hi, false, rest) else (v, true, rest)
  else (0, false, rest).
Definition int_min : Z := - 2 ^ 31.
Definition int_max : Z := 2 ^ 31 - 1.
Definition long_min : Z := - 2 ^ 63.
Definition long_max : Z := 2 ^ 63 - 1.

(** ** Parameters: the members of Parameter_t that SetParameterValue assigns (src/config_parser.h:27-74). *)
Inductive param :=
| SnapshotPath | HaloPath | SubhaloPath | SnapshotFileBase | MaxSnapshotIndex | BoxSize | SofteningHalo
| SnapshotFormat | GroupFileFormat | MaxConcurrentIO | MinSnapshotIndex | MinNumPartOfSub | GroupParticleIdMask
| MassInMsunh | LengthInMpch | VelInKmS | PeriodicBoundaryOn | SnapshotHasIdBlock | ParticleIdRankStyle | ParticleIdNeedHash
| SnapshotIdUnsigned | SaveSubParticleProperties | MergeTrappedSubhalos | MajorProgenitorMassRatio | BoundMassPrecision
| SourceSubRelaxFactor | SubCoreSizeFactor | SubCoreSizeMin | TreeAllocFactor | TreeNodeOpenAngle | TreeMinNumOfCells
| MaxSampleSizeOfPotentialEstimate | RefineMostboundParticle.
Scheme Equality for param.
Inductive kind := KStr | KInt | KHbt | KHex | KReal | KBool.
(** Declared types, src/config_parser.h:27-74; GroupParticleIdMask is a long read with [hex]. *)
Definition kind_of (p : param) : kind :=
  match p with
  | SnapshotPath | HaloPath | SubhaloPath | SnapshotFileBase | SnapshotFormat | GroupFileFormat => KStr
  | MaxSnapshotIndex | MaxConcurrentIO | MinSnapshotIndex | MinNumPartOfSub => KInt
  | SubCoreSizeMin | TreeMinNumOfCells | MaxSampleSizeOfPotentialEstimate => KHbt
  | GroupParticleIdMask => KHex
  | PeriodicBoundaryOn | SnapshotHasIdBlock | ParticleIdRankStyle | ParticleIdNeedHash | SnapshotIdUnsigned
  | SaveSubParticleProperties | MergeTrappedSubhalos | RefineMostboundParticle => KBool
  | BoxSize | SofteningHalo | MassInMsunh | LengthInMpch | VelInKmS | MajorProgenitorMassRatio | BoundMassPrecision
  | SourceSubRelaxFactor | SubCoreSizeFactor | TreeAllocFactor | TreeNodeOpenAngle => KReal
  end.
(** The comparisons of src/config_parser.cpp:18-57, in order: the text compared with, the member assigned, the IsSet index. *)
Definition chain : list (string * param * option nat) :=
  [("SnapshotPath", SnapshotPath, Some 0%nat); ("HaloPath", HaloPath, Some 1%nat); ("SubhaloPath", SubhaloPath, Some 2%nat);
   ("SnapshotFileBase", SnapshotFileBase, Some 3%nat); ("MaxSnapshotIndex", MaxSnapshotIndex, Some 4%nat); ("BoxSize", BoxSize, Some 5%nat);
   ("SofteningHalo", SofteningHalo, Some 6%nat);
   ("SnapshotFormat", SnapshotFormat, None); ("GroupFileFormat", GroupFileFormat, None); ("MaxConcurrentIO", MaxConcurrentIO, None);
   ("MinSnapshotIndex", MinSnapshotIndex, None); ("MinNumPartOfSub", MinNumPartOfSub, None); ("GroupParticleIdMask", GroupParticleIdMask, None);
   ("MassInMsunh", MassInMsunh, None); ("LengthInMpch", LengthInMpch, None); ("VelInKmS", VelInKmS, None);
   ("PeriodicBoundaryOn", PeriodicBoundaryOn, None); ("SnapshotHasIdBlock", SnapshotHasIdBlock, None); ("ParticleIdRankStyle", ParticleIdRankStyle, None);
   ("ParticleIdNeedHash", ParticleIdNeedHash, None); ("SnapshotIdUnsigned", SnapshotIdUnsigned, None);
   ("SaveSubParticleProperties", SaveSubParticleProperties, None); ("MergeTrappedSubhalos", MergeTrappedSubhalos, None);
   ("MajorProgenitorMassRatio", MajorProgenitorMassRatio, None); ("BoundMassPrecision", BoundMassPrecision, None);
   ("SourceSubRelaxFactor", SourceSubRelaxFactor, None); ("SubCoreSizeFactor", SubCoreSizeFactor, None); ("SubCoreSizeMin", SubCoreSizeMin, None);
   ("TreeAllocFactor", TreeAllocFactor, None); ("TreeNodeOpenAngle", TreeNodeOpenAngle, None); ("TreeMinNumOfCells", TreeMinNumOfCells, None);
   ("MaxSampleSizeOfPotentialEstimate", MaxSampleSizeOfPotentialEstimate, None); ("RefineMostboundParticle", RefineMostboundParticle, None)]%string.

(** [VNone]: not initialised. *)
Inductive value := VNone | VStr (t : text) | VInt (z : Z) | VReal (q : Q) | VBool (b : bool).
Record config := mkconfig { c_val : param -> value; c_set : list bool; c_ids : list Z }.
Definition set_val (c : config) (p : param) (v : value) : config :=
  mkconfig (fun q => if param_beq q p then v else c_val c q) (c_set c) (c_ids c).

(** src/config_parser.h:76-112, the constructor (without NO_STRIPPING).  MaxSnapshotIndex, BoxSize and SofteningHalo are not
    initialised. *)
Definition default_val (p : param) : value :=
  match p with
  | SnapshotPath | HaloPath | SubhaloPath | SnapshotFileBase => VStr []
  | MaxSnapshotIndex | BoxSize | SofteningHalo => VNone
  | SnapshotFormat => VStr (txt "gadget")
  | GroupFileFormat => VStr (txt "gadget3_int")
  | MaxConcurrentIO => VInt 10 | MinSnapshotIndex => VInt 0 | MinNumPartOfSub => VInt 20 | GroupParticleIdMask => VInt 0
  | MassInMsunh => VReal (10000000000 # 1) | LengthInMpch => VReal 1 | VelInKmS => VReal 1
  | PeriodicBoundaryOn => VBool true | SnapshotHasIdBlock => VBool true | ParticleIdRankStyle => VBool false | ParticleIdNeedHash => VBool true
  | SnapshotIdUnsigned => VBool false | SaveSubParticleProperties => VBool false | MergeTrappedSubhalos => VBool true
  | MajorProgenitorMassRatio => VReal (8 # 10) | BoundMassPrecision => VReal (995 # 1000) | SourceSubRelaxFactor => VReal 3
  | SubCoreSizeFactor => VReal (25 # 100) | SubCoreSizeMin => VInt 20 | TreeAllocFactor => VReal (8 # 10) | TreeNodeOpenAngle => VReal (45 # 100)
  | TreeMinNumOfCells => VInt 10 | MaxSampleSizeOfPotentialEstimate => VInt 1000 | RefineMostboundParticle => VBool true
  end.
Definition default_config : config := mkconfig default_val (repeat false 7) [].

Section Parser.
  (** num_get for HBTReal at a position without leading white space. *)
  Variable read_real : text -> Q.
  Variable hbt_min hbt_max : Z.           (* range of HBTInt *)

  (** [ss >> var]: at the end of the stream nothing is stored. *)
  Definition extract (k : kind) (s : text) : option value :=
    match skip_ws s with
    | [] => None
    | s' => Some
        (match k with
         | KStr => VStr (fst (take_word s'))
         | KInt => VInt (fst (fst (read_int 10 int_min int_max s')))
         | KHbt => VInt (fst (fst (read_int 10 hbt_min hbt_max s')))
         | KHex => VInt (fst (fst (read_int 16 long_min long_max s')))
         | KReal => VReal (read_real s')
         | KBool => VBool (negb (fst (fst (read_int 10 long_min long_max s')) =? 0))
         end)
    end.
  (** [for(int i; ss>>i;)], src/config_parser.cpp:60-61.  [fuel]: more than the length of the text is never needed. *)
  Fixpoint read_list (fuel : nat) (s : text) : list Z :=
    match fuel with
    | O => []
    | S f => match skip_ws s with
             | [] => []
             | s' => let '(v, ok, rest) := read_int 10 int_min int_max s' in if (ok : bool) then v :: read_list f rest else []
             end
    end.

  Inductive parsed := Accepted (c : config) | Unrecognised (name : text) | Unset (i : nat) | BadIdList | Fault.

  (** src/config_parser.cpp:12-72 [SetParameterValue]. *)
  Definition set_parameter (c : config) (line : text) : parsed :=
    let '(name, rest) := take_word (skip_ws line) in
    match find (fun e => text_eqb name (txt (fst (fst e)))) chain with
    | Some (_, p, idx) =>
        let c' := match extract (kind_of p) rest with Some v => set_val c p v | None => c end in
        match idx with
        | None => Accepted c'
        | Some i => match upd (c_set c') i true with Some b => Accepted (mkconfig (c_val c') b (c_ids c')) | None => Fault end
        end
    | None => if text_eqb name (txt "SnapshotIdList") then Accepted (mkconfig (c_val c) (c_set c) (c_ids c ++ read_list (S (List.length rest)) rest))
              else Unrecognised name
    end.
  (** src/config_parser.cpp:90-95.  An exception ends the program. *)
  Definition strip (line : text) : text := trim_leading (trim_trailing line ["#"; "["]%char) [" "; "009"]%char.
  Fixpoint parse_lines (c : config) (ls : list text) : parsed :=
    match ls with
    | [] => Accepted c
    | l :: r => match strip l with
                | [] => parse_lines c r
                | s => match set_parameter c s with Accepted c' => parse_lines c' r | e => e end
                end
    end.
  (** src/config_parser.cpp:137-156 [CheckUnsetParameters]; [Unset i] and [BadIdList] are the two exits. *)
  Fixpoint first_unset (i : nat) (b : list bool) : option nat :=
    match b with [] => None | true :: r => first_unset (S i) r | false :: _ => Some i end.
  Definition value_eqZ (v : value) (z : Z) : bool := match v with VInt x => x =? z | _ => false end.
  Definition check_unset (c : config) : parsed :=
    match first_unset 0 (c_set c) with
    | Some i => Unset i
    | None => match c_ids c with
              | [] => Accepted c
              | ids => if value_eqZ (c_val c MaxSnapshotIndex) (Z.of_nat (List.length ids) - 1) then Accepted c else BadIdList
              end
    end.
  (** src/config_parser.cpp:96-108: the check and the adjustment that follows.  The derived reals are in Startup.v;
      ReadSnapshotNameList is not modelled. *)
  Definition adjust (c : config) : config :=
    match c_val c ParticleIdRankStyle with VBool true => set_val c ParticleIdNeedHash (VBool false) | _ => c end.
  Definition parse_config (file : text) : parsed :=
    match parse_lines default_config (getlines file) with
    | Accepted c => match check_unset c with Accepted c' => Accepted (adjust c') | e => e end
    | e => e
    end.

  (** src/config_parser.cpp:252-326 [DumpParameters].  [show_real]: operator<< of a HBTReal. *)
  Variable show_real : Q -> text.
  Definition digit_char (d : Z) : ascii := ascii_of_nat (Z.to_nat (if d <? 10 then d + 48 else d + 87)).
  Fixpoint show_nat (base : Z) (fuel : nat) (n : Z) : text :=
    match fuel with
    | O => []
    | S f => if n <? base then [digit_char n] else show_nat base f (n / base) ++ [digit_char (n mod base)]
    end.
  Definition show_int (base : Z) (z : Z) : text :=
    if z <? 0 then "-"%char :: show_nat base (S (Z.to_nat (Z.log2 (- z)))) (- z) else show_nat base (S (Z.to_nat (Z.log2 z))) z.
  (** [hex] prints a long as the unsigned number with the same 64 bits. *)
  Definition show_value (k : kind) (v : value) : text :=
    match v with
    | VNone => []
    | VStr t => t
    | VInt z => match k with KHex => show_int 16 (z mod 2 ^ 64) | _ => show_int 10 z end
    | VReal q => show_real q
    | VBool b => if b then ["1"%char] else ["0"%char]
    end.
  (** [DumpPar], line 266. *)
  Definition dump_par (c : config) (name : string) (p : param) : text := txt name ++ [" "; " "]%char ++ show_value (kind_of p) (c_val c p) ++ [nl].
  (** Line 283 is for the mask; lines 296-301 for the list; comment lines are those of lines 265, 303-308 and 323. *)
  Definition dump (c : config) (version names loaded : text) : text :=
    txt "#VERSION " ++ version ++ [nl] ++
    dump_par c "SnapshotPath" SnapshotPath ++ dump_par c "HaloPath" HaloPath ++ dump_par c "SubhaloPath" SubhaloPath ++
    dump_par c "SnapshotFileBase" SnapshotFileBase ++ dump_par c "MaxSnapshotIndex" MaxSnapshotIndex ++ dump_par c "BoxSize" BoxSize ++
    dump_par c "SofteningHalo" SofteningHalo ++ dump_par c "SnapshotFormat" SnapshotFormat ++ dump_par c "GroupFileFormat" GroupFileFormat ++
    dump_par c "MaxConcurrentIO" MaxConcurrentIO ++ dump_par c "MinSnapshotIndex" MinSnapshotIndex ++ dump_par c "MinNumPartOfSub" MinNumPartOfSub ++
    (if value_eqZ (c_val c GroupParticleIdMask) 0 then [] else
       txt "GroupParticleIdMask " ++ show_value KHex (c_val c GroupParticleIdMask) ++ [nl]) ++
    dump_par c "MassInMsunh" MassInMsunh ++ dump_par c "LengthInMpch" LengthInMpch ++ dump_par c "VelInKmS" VelInKmS ++
    dump_par c "PeriodicBoundaryOn" PeriodicBoundaryOn ++ dump_par c "SnapshotHasIdBlock" SnapshotHasIdBlock ++
    dump_par c "ParticleIdRankStyle" ParticleIdRankStyle ++ dump_par c "ParticleIdNeedHash" ParticleIdNeedHash ++
    dump_par c "SnapshotIdUnsigned" SnapshotIdUnsigned ++ dump_par c "SaveSubParticleProperties" SaveSubParticleProperties ++
    dump_par c "MergeTrappedSubhalos" MergeTrappedSubhalos ++
    (match c_ids c with [] => [] | ids => txt "SnapshotIdList" ++ List.concat (map (fun i => " "%char :: show_int 10 i) ids) ++ [nl] end) ++
    (match names with [] => [] | _ => txt "#SnapshotNameList" ++ names ++ [nl] end) ++
    dump_par c "MajorProgenitorMassRatio" MajorProgenitorMassRatio ++ dump_par c "BoundMassPrecision" BoundMassPrecision ++
    dump_par c "SourceSubRelaxFactor" SourceSubRelaxFactor ++ dump_par c "SubCoreSizeFactor" SubCoreSizeFactor ++ dump_par c "SubCoreSizeMin" SubCoreSizeMin ++
    dump_par c "TreeAllocFactor" TreeAllocFactor ++ dump_par c "TreeNodeOpenAngle" TreeNodeOpenAngle ++ dump_par c "TreeMinNumOfCells" TreeMinNumOfCells ++
    dump_par c "MaxSampleSizeOfPotentialEstimate" MaxSampleSizeOfPotentialEstimate ++ dump_par c "RefineMostboundParticle" RefineMostboundParticle ++
    txt "#GroupLoadedFullParticle  " ++ loaded ++ [nl].
End Parser.
