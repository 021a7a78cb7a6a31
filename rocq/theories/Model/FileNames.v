(** Model of the numbering of snapshots (src/snapshot_number.h) and of the names of the files of catalogues and snapshots. *)
From Coq Require Import List ZArith Bool String Ascii DecimalString.
Import ListNotations.
Local Open Scope string_scope.

(** [operator<<] for an int, and [%d]. *)
Definition decimal (z : Z) : string := NilZero.string_of_int (Z.to_int z).
(** [setw(3)<<setfill('0')]: zeros are put in front, also in front of a sign. *)
Fixpoint zeros (n : nat) : string := match n with O => "" | S k => String "0" (zeros k) end.
Definition setw3 (s : string) : string := zeros (3 - String.length s) ++ s.
(** [%03d]: the zeros are put behind the sign. *)
Definition percent03d (z : Z) : string := if (z <? 0)%Z then "-" ++ zeros (2 - String.length (decimal (- z))) ++ decimal (- z) else setw3 (decimal z).

(** src/snapshot_number.h:56-65 [SetSnapshotIndex]: SnapshotIndex and SnapshotId; [None]: assertion or index out of bounds. *)
Definition set_snapshot_index (min_index max_index : Z) (id_list : list Z) (index : Z) : option (Z * Z) :=
  if ((min_index <=? index) && (index <=? max_index))%Z then
    match id_list with
    | [] => Some (index, index)
    | _ => if (index <? 0)%Z then None else match nth_error id_list (Z.to_nat index) with Some id => Some (index, id) | None => None end
    end
  else None.

(** src/io/subhalo_io.cpp:106-111 [GetSubDir]. *)
Definition sub_dir (subhalo_path : string) (index : Z) : string := subhalo_path ++ "/" ++ setw3 (decimal index).
(** src/io/subhalo_io.cpp:112-117 [GetSubFileName]. *)
Definition sub_file_name (subhalo_path : string) (index ifile : Z) (ftype : string) : string :=
  sub_dir subhalo_path index ++ "/" ++ ftype ++ "Snap_" ++ setw3 (decimal index) ++ "." ++ decimal ifile ++ ".hdf5".

(** src/io/apostle_io.cpp:51-62 [ApostleReader_t::SetSnapshot]; [None]: index out of bounds. *)
Definition snapshot_name (name_list : list string) (snapshot_id : Z) : option string :=
  match name_list with
  | [] => Some ("snapshot_" ++ setw3 (decimal snapshot_id))
  | _ => if (snapshot_id <? 0)%Z then None else nth_error name_list (Z.to_nat snapshot_id)
  end.
(** std::string::erase(pos, len); [None]: out_of_range. *)
Fixpoint erase (pos len : nat) (s : string) : option string :=
  match pos, len, s with
  | O, O, _ => Some s
  | O, S k, String _ r => erase O k r
  | O, S _, EmptyString => Some ""
  | S k, _, String c r => match erase k len r with Some r' => Some (String c r') | None => None end
  | S _, _, EmptyString => None
  end.
(** src/io/apostle_io.cpp:64-71 [ApostleReader_t::GetFileName]. *)
Definition apostle_file_name (snapshot_path name : string) (ifile : Z) : option string :=
  match erase 4 4 name with
  | Some subname => Some (snapshot_path ++ "/" ++ name ++ "/" ++ subname ++ "." ++ decimal ifile ++ ".hdf5")
  | None => None
  end.

(** src/io/gadget_io.cpp:67-83: the four names tried by [GetGadgetFileName], with FILENAME_MAX not reached. *)
Definition gadget_snapdir (path base : string) (id ifile : Z) : string :=
  path ++ "/snapdir_" ++ percent03d id ++ "/" ++ base ++ "_" ++ percent03d id ++ "." ++ decimal ifile.
Definition gadget_single (path base : string) (id : Z) : string := path ++ "/" ++ base ++ "_" ++ percent03d id.
Definition gadget_plain (path base : string) (id ifile : Z) : string := path ++ "/" ++ base ++ "_" ++ percent03d id ++ "." ++ decimal ifile.
Definition gadget_ramses (path base : string) (id ifile : Z) : string := path ++ "/" ++ decimal id ++ "/" ++ base ++ "." ++ decimal ifile.
