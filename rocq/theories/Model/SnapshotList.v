(** Model of toolbox/CreateSnapshotList.py, which prints the directories of the snapshots that HBT reads as snaplist.txt. *)
From Coq Require Import List ZArith String.
From Verif.Model Require Import Mpi.
Import ListNotations.

Section SnapshotList.
  (** toolbox/CreateSnapshotList.py:12-13 [redshift]; [None] if the name has no number after "_z" (an exception).
      Simplification: floats, which are only compared, are integers in the same order. *)
  Variable redshift : string -> option Z.
  (** toolbox/CreateSnapshotList.py:19-24 [test_dir] (the file system). *)
  Variable test_dir : string -> bool.
  (** sorted of names (lines 31 and 34) and of indices (line 17), and sorted with key=redshift, reverse=True (line 38). *)
  Variable sort_names : list string -> list string.
  Variable sort_index : list nat -> list nat.
  Variable sort_reverse : list string -> list string.
  (** np.unique with return_index=True, second result: the index of the first occurrence of each value. *)
  Variable unique : list Z -> list nat.
  (** toolbox/CreateSnapshotList.py:15-17 [clear_dup]. *)
  Definition clear_dup (snaps : list string) : option (list string) :=
    match mapM redshift snaps with
    | None => None
    | Some zs => mapM (nth_error snaps) (sort_index (unique zs))
    end.
  (** toolbox/CreateSnapshotList.py:26-28 [clear_empty]. *)
  Definition clear_empty (snaps : list string) : list string := filter test_dir snaps.
  (** toolbox/CreateSnapshotList.py:30-46; [snapshots] and [snipshots] are the results of glob.  An unknown type is an exception. *)
  Definition create_list (snapshots snipshots : list string) (listtype : string) : option (list string) :=
    match clear_dup (clear_empty (sort_names snapshots)), clear_dup (clear_empty (sort_names snipshots)) with
    | Some snaplist, Some sniplist =>
        match clear_dup (sort_reverse (snaplist ++ sniplist)) with
        | None => None
        | Some comlist =>
            if String.eqb listtype "snap" then Some snaplist
            else if String.eqb listtype "snip" then Some sniplist
            else if String.eqb listtype "all" then Some comlist
            else None
        end
    | _, _ => None
    end.
End SnapshotList.
