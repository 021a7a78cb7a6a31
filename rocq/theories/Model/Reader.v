(** Model of the Python reader of catalogues (toolbox/HBTReader.py).  Exceptions are [None].  A directory of catalogues is a partial
    function from snapshot and number of the file to the content of the file; names are formatted by [GetFileName] from these
    two numbers, which is injective (C70), so the numbers stand for the names.  h5py datasets are lists; numpy arrays are lists. *)
From Coq Require Import List ZArith QArith String.
From Verif.Model Require Import Mpi.
Import ListNotations.
Notation length := List.length.
Local Open Scope Z_scope.

(** Indexing of numpy arrays and h5py datasets with one integer: negative numbers count from the end. *)
Definition py_index {A} (l : list A) (i : Z) : option A :=
  if i <? 0 then if Z.of_nat (length l) + i <? 0 then None else nth_error l (Z.to_nat (Z.of_nat (length l) + i))
  else nth_error l (Z.to_nat i).
(** numpy.flatnonzero of a comparison: the positions where it holds. *)
Fixpoint flatnonzero {A} (test : A -> bool) (l : list A) (from : Z) : list Z :=
  match l with [] => [] | x :: t => (if test x then [from] else []) ++ flatnonzero test t (from + 1) end.

Section Reader.
  (** A record of the dataset Subhalos and the fields of it that the reader looks at; a record of ParticleProperties. *)
  Variables (sub part : Type) (TrackId SnapshotIndexOfBirth : sub -> Z).
  (** src/io/subhalo_io.cpp:293-403: the datasets of a file that the reader opens; [f_one] has the datasets with one element by
      name, [f_src] is SrchaloParticles of the other file with the same number. *)
  Record file := mkfile { f_subhalos : list sub; f_particles : list (list Z); f_src : list (list Z); f_nests : list (list Z);
                          f_properties : list (list part); f_one : list (string * Q) }.
  (** The file of a snapshot: number of the file, or None for the output in one file per snapshot. *)
  Variable disk : Z -> option nat -> option file.
  (** toolbox/HBTReader.py:78-113: the members of the reader that are used below. *)
  Record reader := mkreader { MinSnap : Z; MaxSnap : Z; nfiles : nat }.

  (** toolbox/HBTReader.py:82-101: [listed] are the snapshot and the number of the files found by glob, those of the output in one file
      per snapshot ([single]) or else those of the subdirectories; the last one after sorting (any sort) decides.  get_hbt_snapnum
      (lines 67-68) is the first number.  The parameter MaxSnapshotIndex is overwritten when it differs, so it has no effect. *)
  Definition highest (l : list Z) : option Z :=
    match l with [] => None | x :: t => Some (fold_left Z.max t x) end.
  Definition init (min_snap : Z) (single : list Z) (listed : list (Z * nat)) : option reader :=
    match highest single with
    | Some m => Some (mkreader min_snap m 0)
    | None => match highest (map fst listed) with
              | None => None
              | Some m => Some (mkreader min_snap m (length (filter (fun e => fst e =? m) listed)))
              end
    end.

  Section Calls.
    Variable r : reader.
    (** toolbox/HBTReader.py:120-129 [GetFileName] and [Open]. *)
    Definition the_snapshot (isnap : Z) : Z := if isnap <? 0 then MaxSnap r + 1 + isnap else isnap.
    Definition open (isnap : Z) (ifile : nat) : option file :=
      disk (the_snapshot isnap) (if (nfiles r =? 0)%nat then None else Some ifile).
    (** range(max(self.nfiles, 1)). *)
    Definition file_range : list nat := seq 0 (Nat.max (nfiles r) 1).

    (** toolbox/HBTReader.py:180-199 [LoadSubhalos] when selection is no integer: [select] is the indexing of the dataset with it. *)
    Fixpoint load_files {B} (select : list sub -> list B) (isnap : Z) (files : list nat) : option (list B) :=
      match files with
      | [] => Some []
      | i :: t =>
          match open isnap i with
          | None => None
          | Some f =>
              match load_files select isnap t with
              | None => None
              | Some l => Some (if (length (f_subhalos f) =? 0)%nat then l else select (f_subhalos f) ++ l)
              end
          end
      end.
    Definition LoadSubhalos {B} (select : list sub -> list B) (isnap : Z) : option (list B) := load_files select isnap file_range.
    (** The same lines when selection is an integer; the result is an array of one record, or an empty one. *)
    Fixpoint load_index (isnap selection offset : Z) (files : list nat) : option (list sub) :=
      match files with
      | [] => Some []
      | i :: t =>
          match open isnap i with
          | None => None
          | Some f =>
              let nsub := Z.of_nat (length (f_subhalos f)) in
              if nsub =? 0 then load_index isnap selection offset t
              else if selection <? offset + nsub then
                match py_index (f_subhalos f) (selection - offset) with None => None | Some s => Some [s] end
              else load_index isnap selection (offset + nsub) t
          end
      end.
    Definition LoadSubhalo (isnap selection : Z) : option (list sub) := load_index isnap selection 0 file_range.

    (** toolbox/HBTReader.py:131-137 [LoadNestedSubhalos]; 219-240 [LoadParticles] without subindex: [get] is the dataset. *)
    Definition load_lists {B} (get : file -> list B) (isnap : Z) : option (list B) :=
      match mapM (open isnap) file_range with None => None | Some fs => Some (List.concat (map get fs)) end.
    (** toolbox/HBTReader.py:219-240 [LoadParticles] with subindex, and 242-258 [GetParticleProperties]; both raise when the index is
        beyond the last file (hstack of nothing, RuntimeError).  [count] is the number that is added to offset. *)
    Fixpoint list_at {B} (get : file -> list B) (count : file -> nat) (isnap subindex offset : Z) (files : list nat) : option B :=
      match files with
      | [] => None
      | i :: t =>
          match open isnap i with
          | None => None
          | Some f =>
              let nsub := Z.of_nat (count f) in
              if subindex <? offset + nsub then py_index (get f) (subindex - offset)
              else list_at get count isnap subindex (offset + nsub) t
          end
      end.
    Definition LoadParticles (isnap subindex : Z) : option (list Z) :=
      list_at f_particles (fun f => length (f_particles f)) isnap subindex 0 file_range.
    Definition LoadSrcParticles (isnap subindex : Z) : option (list Z) := list_at f_src (fun f => length (f_src f)) isnap subindex 0 file_range.
    Definition GetParticleProperties (subindex isnap : Z) : option (list part) :=
      list_at f_properties (fun f => length (f_subhalos f)) isnap subindex 0 file_range.

    (** toolbox/HBTReader.py:260-270 [GetSub]. *)
    Definition GetSub (trackId isnap : Z) : option (list sub) :=
      if (nfiles r =? 0)%nat then LoadSubhalo isnap trackId
      else match LoadSubhalos (map TrackId) isnap with
           | None => None
           | Some l => match flatnonzero (Z.eqb trackId) l 0 with [] => None | subid :: _ => LoadSubhalo isnap subid end
           end.
    (** A dataset with one element: f[name][0]. *)
    Definition dataset (name : string) (f : file) : option Q :=
      match find (fun e => String.eqb name (fst e)) (f_one f) with None => None | Some e => Some (snd e) end.
    (** toolbox/HBTReader.py:297-301 [GetScaleFactor]. *)
    Definition GetScaleFactor (isnap : Z) : option Q :=
      match open isnap 0 with
      | None => None
      | Some f => match dataset "Cosmology/ScaleFactor" f with Some a => Some a | None => dataset "ScaleFactor" f end
      end.
    (** numpy.arange(a, b + 1). *)
    Definition arange (a b : Z) : list Z := map (fun i => a + Z.of_nat i) (seq 0 (Z.to_nat (b + 1 - a))).
    (** toolbox/HBTReader.py:279-295 [GetTrack]: for every snapshot the record, the snapshot and the scale factor.  The arrays of one
        record are flattened by append_fields; empty ones make the lengths differ, which raises. *)
    Definition GetTrack (trackId : Z) : option (list (sub * Z * Q)) :=
      match GetSub trackId (-1) with
      | Some (s :: _) =>
          mapM (fun isnap => match GetSub trackId isnap, GetScaleFactor isnap with
                             | Some [s'], Some a => Some (s', isnap, a)
                             | _, _ => None
                             end) (arange (SnapshotIndexOfBirth s) (MaxSnap r))
      | _ => None
      end.
    (** toolbox/HBTReader.py:212-217 [GetNumberOfSubhalos]. *)
    Definition GetNumberOfSubhalos (isnap : Z) : option Q :=
      match open isnap 0 with
      | None => None
      | Some f => if (nfiles r =? 0)%nat then Some (inject_Z (Z.of_nat (length (f_subhalos f)))) else dataset "TotalNumberOfSubhalosInAllFiles" f
      end.
  End Calls.
End Reader.
Arguments f_subhalos {sub part} f. Arguments f_particles {sub part} f. Arguments f_src {sub part} f. Arguments f_nests {sub part} f.
Arguments f_properties {sub part} f. Arguments f_one {sub part} f. Arguments mkfile {sub part} _ _ _ _ _ _.
Arguments open {sub part} disk r isnap ifile. Arguments LoadSubhalos {sub part} disk r {B} select isnap. Arguments LoadSubhalo {sub part} disk r isnap selection.
Arguments load_lists {sub part} disk r {B} get isnap. Arguments LoadParticles {sub part} disk r isnap subindex. Arguments LoadSrcParticles {sub part} disk r isnap subindex.
Arguments GetParticleProperties {sub part} disk r subindex isnap. Arguments GetSub {sub part} TrackId disk r trackId isnap.
Arguments GetTrack {sub part} TrackId SnapshotIndexOfBirth disk r trackId. Arguments GetNumberOfSubhalos {sub part} disk r isnap.
Arguments GetScaleFactor {sub part} disk r isnap. Arguments load_files {sub part} disk r {B} select isnap files.
Arguments load_index {sub part} disk r isnap selection offset files. Arguments list_at {sub part} disk r {B} get count isnap subindex offset files.
Arguments dataset {sub part} name f.

(** src/io/subhalo_io.cpp:301-314: the datasets with one element that [WriteFile] creates. *)
Definition one_element_names : list string :=
  ["NumberOfFiles"; "SnapshotId"; "Cosmology/OmegaM0"; "Cosmology/OmegaLambda0"; "Cosmology/HubbleParam"; "Cosmology/ScaleFactor";
   "NumberOfNewSubhalos"; "NumberOfFakeHalos"; "NumberOfSubhalosInAllFiles"]%string.

(** toolbox/HBTReader.py:308-329 [GetExclusiveParticles]: a stable sort by number of particles. *)
Fixpoint insert_by_size (e : nat * list Z) (l : list (nat * list Z)) : list (nat * list Z) :=
  match l with [] => [e] | e' :: t => if (length (snd e) <=? length (snd e'))%nat then e :: l else e' :: insert_by_size e t end.
Definition sort_by_size (l : list (nat * list Z)) : list (nat * list Z) := fold_right insert_by_size [] l.
(** Stable sort by index. *)
Fixpoint insert_by_index (e : nat * list Z) (l : list (nat * list Z)) : list (nat * list Z) :=
  match l with [] => [e] | e' :: t => if (fst e <=? fst e')%nat then e :: l else e' :: insert_by_index e t end.
Definition sort_by_index (l : list (nat * list Z)) : list (nat * list Z) := fold_right insert_by_index [] l.
Section Exclusive.
  (** list(set) in Python: the elements in an order that depends on the implementation. *)
  Variable as_list : list Z -> list Z.
  Definition mem (x : Z) (l : list Z) : bool := existsb (Z.eqb x) l.
  (** toolbox/HBTReader.py:316-323; [repo] is the set of ids given away. *)
  Fixpoint take_turns (l : list (nat * list Z)) (repo : list Z) : list (nat * list Z) :=
    match l with
    | [] => []
    | (i, p) :: t =>
        if (1 <? length p)%nat then
          let p' := filter (fun x => negb (mem x repo)) (nodup Z.eq_dec p) in
          (i, as_list p') :: take_turns t (repo ++ p')
        else (i, p) :: take_turns t repo
    end.
  Definition GetExclusiveParticles (parts : list (list Z)) : list (list Z) :=
    map snd (sort_by_index (take_turns (sort_by_size (combine (seq 0 (length parts)) parts)) [])).
End Exclusive.

(** toolbox/HBTReader.py:38-42 [PeriodicDistance]: the squared distance (the root is not modelled) of two points. *)
Definition wrap_difference (box x y : Q) : Q :=
  let d := (x - y)%Q in
  let d := if Qlt_le_dec (box / 2) d then (d - box)%Q else d in
  if Qlt_le_dec d (- box / 2) then (d + box)%Q else d.
Fixpoint PeriodicDistance2 (box : Q) (x y : list Q) : Q :=
  match x, y with
  | a :: x', b :: y' => (wrap_difference box a b * wrap_difference box a b + PeriodicDistance2 box x' y')%Q
  | _, _ => 0%Q
  end.
