(** Model of toolbox/combineSubSnap.py: the files of a snapshot are put together in one file, in the order of the tracks. *)
From Coq Require Import List ZArith.
From Verif.Model Require Import Mpi Subhalo Catalogue.
Import ListNotations.

Section Combine.
  Context {X R : Type}.
  (** np.argsort with order='TrackId' (toolbox/combineSubSnap.py:35): the indices of the sorted rows. *)
  Variable argsort : list (sub X R) -> list nat.
  (** The datasets SnapshotId, Subhalos, SubhaloParticles and NestedSubhalos of the file SubSnap_nnn.hdf5.
      Not modelled: Cosmology, NumberOfNewSubhalos and NumberOfFakeHalos (toolbox/combineSubSnap.py:19, 24, 27-28, 37-38). *)
  Record combined := mkcombined { c_snapid : Z; c_subs : list (sub X R); c_ids : list (list Z); c_nests : list (list Z) }.
  (** [data[order]]; an index beyond the end raises an exception, which is [None]. *)
  Definition take {A} (data : list A) (order : list nat) : option (list A) := mapM (nth_error data) order.
  (** toolbox/combineSubSnap.py:46-51 [write_vlen_data]: the files are joined and put in order; [data[0].dtype] raises an
      exception if there is nothing. *)
  Definition write_vlen {A} (data : list (list A)) (order : list nat) : option (list A) :=
    match take (concat data) order with
    | Some (x :: r) => Some (x :: r)
    | _ => None
    end.
  (** toolbox/combineSubSnap.py:10-44 [combineSubSnap].  A file that does not exist raises an exception. *)
  Definition combine_snap (d : disk X R) (snap : Z) : option combined :=
    match d_sub d snap 0 with
    | None => None
    | Some f0 =>
        match mapM (d_sub d snap) (seq 0 (Z.to_nat (f_nfiles f0))) with
        | None => None
        | Some fs =>
            let subs := concat (map f_subs fs) in
            let order := argsort subs in
            match take subs order, write_vlen (map f_ids fs) order, write_vlen (map f_nests fs) order with
            | Some s, Some p, Some n => Some (mkcombined (f_snapid f0) s p n)
            | _, _, _ => None
            end
        end
    end.
End Combine.
Arguments combined : clear implicits.
Arguments c_snapid {X R}. Arguments c_subs {X R}. Arguments c_ids {X R}. Arguments c_nests {X R}.
