(** Model of track registration and track history (src/subhalo_tracking.cpp:11-21, 535-561). *)
From Coq Require Import List ZArith QArith Bool.
From Verif.Model Require Import ListMem Mpi Subhalo.
Import ListNotations.
Local Open Scope nat_scope.

Section Tracks.
  Context {X R : Type}.

  (** src/subhalo_tracking.cpp:11-21 [UpdateTrack]. *)
  Definition update_track (snap : Z) (s : sub X R) : sub X R :=
    if Z.eqb (s_track s) (-1) then s else
    let s1 := if Z.eqb (s_rank s) 0 then set_snapiso snap s else s in
    if Qle_bool (s_lastmax s1) (s_mass s1) then set_lastmax (s_mass s1) snap s1 else s1.

  (** src/subhalo_tracking.cpp:540-548: one turn of the compaction loop; the state is (Subhalos, NumSubNew).
      A moved-from element keeps its content in the model; it is never read again. *)
  Definition compact_step (i : nat) (st : list (sub X R) * nat) : option (list (sub X R) * nat) :=
    match nth_error (fst st) i with
    | None => None
    | Some s =>
        if Nat.ltb 1 (s_nbound s) then
          if Nat.eqb i (snd st) then Some (fst st, S (snd st))
          else match upd (fst st) (snd st) s with Some l => Some (l, S (snd st)) | None => None end
        else Some st
    end.
  (** src/subhalo_tracking.cpp:538-549: from NumSubOld = size - NBirth; [None] when NBirth exceeds the size. *)
  Definition compact (nbirth : nat) (subs : list (sub X R)) : option (list (sub X R) * nat) :=
    if Nat.ltb (length subs) nbirth then None else
    let old := length subs - nbirth in
    match for_range old nbirth compact_step (subs, old) with
    | Some (l, n) => Some (firstn n l, old)
    | None => None
    end.
  (** src/subhalo_tracking.cpp:559-560: consecutive ids from [NumSubOld] on. *)
  Fixpoint number_from (next : Z) (l : list (sub X R)) : list (sub X R) :=
    match l with [] => [] | s :: r => set_track next s :: number_from (next + 1) r end.
  (** The offset of every process: MPI_Scan of the births plus the global number of old tracks minus its own births,
      src/subhalo_tracking.cpp:555-558. *)
  Fixpoint number_all (base : Z) (ps : list (list (sub X R) * nat)) : list (list (sub X R)) :=
    match ps with
    | [] => []
    | (l, old) :: r =>
        let births := length l - old in
        let scan := (base + Z.of_nat births)%Z in
        let offset := (scan - Z.of_nat births)%Z in
        (firstn old l ++ number_from offset (skipn old l)) :: number_all scan r
    end.
  (** src/subhalo_tracking.cpp:535-561 [RegisterNewTracks] on all processes, given each process's NBirth.  The rebuild of
      the member table (line 550) is [build_table]. *)
  Definition register (ps : list (list (sub X R) * nat)) : option (list (list (sub X R))) :=
    match mapM (fun p => compact (snd p) (fst p)) ps with
    | Some qs => Some (number_all (Z.of_nat (nsum (map snd qs))) qs)
    | None => None
    end.
End Tracks.
