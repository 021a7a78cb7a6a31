(** Model of loading a group catalogue (src/io/gadget_group_io.cpp:336-457).  Files are lists of ids; reading a file of bytes
    (ReadV2V3, lines 160-273) is the slice of its list.  Counts are natural numbers without overflow. *)
From Coq Require Import List ZArith Bool Arith.
From Verif.Model Require Import ListMem Mpi.
Import ListNotations.

(** std::lower_bound and std::upper_bound on a sorted range, as a position. *)
Fixpoint lower_bound (l : list nat) (x : nat) : nat := match l with [] => 0 | y :: t => if y <? x then S (lower_bound t x) else 0 end.
Fixpoint upper_bound (l : list nat) (x : nat) : nat := match l with [] => 0 | y :: t => if y <=? x then S (upper_bound t x) else 0 end.

(** src/io/gadget_group_io.cpp:289-304 [FileAssignment_t].  lastfile_end_part = -1 of the default is never used, as
    ifile_begin = ifile_end there. *)
Record task := { k_ifile_begin : nat; k_ifile_end : nat; k_first : nat; k_last : nat; k_npart : nat; k_halo : nat; k_nhalo : nat }.
Definition no_task : task := {| k_ifile_begin := 0; k_ifile_end := 0; k_first := 0; k_last := 0; k_npart := 0; k_halo := 0; k_nhalo := 0 |}.

(** src/io/gadget_group_io.cpp:336-357 [AssignHaloTasks]: the task and the new npart_begin; [hoff] includes the end offset.
    [None]: FileOffsets accessed at -1 or HaloOffsets beyond its end. *)
Definition assign_task (nworkers ntot : nat) (hoff foff : list nat) (nbegin : nat) : option (task * nat) :=
  if ntot =? 0 then Some (no_task, nbegin)
  else
    let nend0 := nbegin + (ntot - nbegin) / nworkers in
    let h0 := lower_bound (removelast hoff) nbegin in
    let h1 := lower_bound (removelast hoff) nend0 in
    match nth_error hoff h1 with
    | None => None
    | Some nend =>
        let i1 := lower_bound foff nend in
        match upper_bound foff nbegin, i1 with
        | S i0, S j =>
            match nth_error foff i0, nth_error foff j with
            | Some o0, Some o1 => Some ({| k_ifile_begin := i0; k_ifile_end := i1; k_first := nbegin - o0; k_last := nend - o1; k_npart := nend - nbegin;
                                           k_halo := h0; k_nhalo := h1 - h0 |}, nend)
            | _, _ => None
            end
        | _, _ => None
        end
    end.
(** src/io/gadget_group_io.cpp:392-396. *)
Fixpoint assign_tasks (nworkers ntot : nat) (hoff foff : list nat) (nbegin : nat) : option (list task) :=
  match nworkers with
  | 0 => Some []
  | S n => match assign_task nworkers ntot hoff foff nbegin with
           | None => None
           | Some (t, nbegin') => option_map (cons t) (assign_tasks n ntot hoff foff nbegin')
           end
  end.
Section Load.
  (** The mask of lines 245-249, applied to each id. *)
  Variable mask : Z -> Z.
  (** src/io/gadget_group_io.cpp:239-252: reading [start, stop) of one file; [stop] = None is -1.  The assert of line 239 and a
      negative count are failures. *)
  Definition read_slice (ids : list Z) (start : nat) (stop : option nat) : option (list Z) :=
    let e := match stop with None => length ids | Some e => e end in
    if (e <=? length ids) && (start <=? e) then Some (map mask (firstn (e - start) (skipn start ids))) else None.
  (** src/io/gadget_group_io.cpp:425-433. *)
  Definition read_particles (files : list (list Z)) (t : task) : option (list Z) :=
    option_map (@concat Z) (mapM (fun i =>
      match nth_error files i with
      | None => None
      | Some ids => read_slice ids (if i =? k_ifile_begin t then k_first t else 0) (if i =? k_ifile_end t - 1 then Some (k_last t) else None)
      end) (seq (k_ifile_begin t) (k_ifile_end t - k_ifile_begin t))).
  (** src/io/gadget_group_io.cpp:438-446: halos (HaloId, ids).  [None]: reading beyond the buffer. *)
  Fixpoint populate (id : nat) (lens : list nat) (buffer : list Z) : option (list (nat * list Z)) :=
    match lens with
    | [] => Some []
    | n :: t => if n <=? length buffer then option_map (cons (id, firstn n buffer)) (populate (S id) t (skipn n buffer)) else None
    end.
  (** src/io/gadget_group_io.cpp:402-412 and 414-446, one process. *)
  Definition load_rank (lens : list nat) (files : list (list Z)) (t : task) : option (list (nat * list Z)) :=
    if k_halo t + k_nhalo t <=? length lens
    then match read_particles files t with
         | None => None
         | Some buffer => populate (k_halo t) (firstn (k_nhalo t) (skipn (k_halo t) lens)) buffer
         end
    else None.
  (** src/io/gadget_group_io.cpp:358-457 [Load]: the Halos of all processes.  [lens] are the group lengths of all files.  The
      assert of line 387, which also compiles the offsets, is a failure when false. *)
  Definition load_groups (W : nat) (lens : list nat) (files : list (list Z)) : option (list (list (nat * list Z))) :=
    let npart := nsum (map (@length Z) files) in
    if nsum lens =? npart
    then match assign_tasks W npart (displacements lens ++ [npart]) (displacements (map (@length Z) files)) 0 with
         | None => None
         | Some ts => mapM (load_rank lens files) ts
         end
    else None.
End Load.
