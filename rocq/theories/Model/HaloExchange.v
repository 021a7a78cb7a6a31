(** Model of the update and distribution of halos (src/halo.cpp:48-76, src/particle_exchanger.h:239-328).
    A halo is (particles, shell); the shell is HaloId, average position and velocity, and Mass.  The [W] processes are the
    elements of a list. *)
From Coq Require Import List ZArith QArith Bool.
From Verif.Model Require Import ListMem Run Mpi Mymath Hash ParticleExchange.
Import ListNotations.
Local Open Scope nat_scope.

(** [MPI_Alltoallv] as called in src/particle_exchanger.h:296, 299.  Per process the send array and the send counts; the
    displacements are those of [CompileOffsets].  The result is, per process, the array received: the segments of the
    senders one after the other.  [None] = a segment outside the send array.  Receive counts come from [MPI_Alltoall] of the
    send counts (291), so that the receiver expects what is sent. *)
Definition send_slice {A} (l : list A) (counts : list nat) (r : nat) : option (list A) :=
  match nth_error (displacements counts) r, nth_error counts r with
  | Some d, Some c => if d + c <=? length l then Some (firstn c (skipn d l)) else None
  | _, _ => None
  end.
Definition all_to_all_v {A} (sends : list (list A * list nat)) : option (list (list (list A))) :=
  mapM (fun r => mapM (fun lc => send_slice (fst lc) (snd lc) r) sends) (seq 0 (length sends)).

(** [counts[i]+=n]; [None] = out of bounds. *)
Definition add_at (i n : nat) (counts : list nat) : option (list nat) :=
  match nth_error counts i with Some c => upd counts i (c + n) | None => None end.

(** src/particle_exchanger.h:258-261, 267: the process of a position: the cell of the box divided by [ClosestFactors(NumProc, 3)].
    Anything that is not a rank ([None] from the factorisation) is given as [W], which no array index accepts. *)
Definition halo_cell {S} (root : nat -> nat -> nat) (box : Q) (position : S -> Q * Q * Q) (W : nat) (s : S) : nat :=
  match closest_factors root W 3 with
  | Some [d0; d1; d2] =>
      let div d := (box / inject_Z (Z.of_nat d))%Q in
      Z.to_nat (assign_cell (position s) (div d0, div d1, div d2) (Z.of_nat d0, Z.of_nat d1, Z.of_nat d2))
  | _ => W
  end.

Section Distribute.
  Context {X S : Type}.
  Local Notation part := (Z * X)%type.
  Local Notation halo := (list part * S)%type.
  Variable chunk : nat.                               (* chunk size of MyAllToAll *)
  (** src/halo.cpp:48-52 [AverageCoordinates]: the new shell from particles and old shell.  HaloId is kept by it. *)
  Variable average : list part -> S -> S.
  (** src/particle_exchanger.h:267, [AssignCell(ComovingAveragePosition, step, dims)] for [W] processes:
      [halo_cell]. *)
  Variable cell_of : nat -> S -> nat.
  (** src/particle_exchanger.h:285, std::sort with CompareRank on (Id, Rank). *)
  Variable sort_rank : list (nat * nat) -> list (nat * nat).

  (** src/particle_exchanger.h:263-268; every halo is treated once, so the order of the threads does not matter. *)
  Definition averaged (h : halo) : halo := (fst h, average (fst h) (snd h)).
  (** What one process has prepared at src/particle_exchanger.h:293: InHalosSorted, the sorted TargetRank (ranks only),
      SendHaloCounts. *)
  Definition sorted_halos (W : nat) (halos : list halo) : option (list halo * list nat * list nat) :=
    let hs := map averaged halos in
    let target := sort_rank (combine (seq 0 (length hs)) (map (fun h => cell_of W (snd h)) hs)) in
    match mapM (fun ir => nth_error hs (fst ir)) target, for_each target (fun ir c => add_at (snd ir) 1 c) (repeat 0 W) with
    | Some l, Some counts => Some (l, map snd target, counts)
    | _, _ => None
    end.
  (** src/particle_exchanger.h:316-318, InParticleCount. *)
  Definition particle_counts (W : nat) (p : list halo * list nat * list nat) : option (list nat) :=
    for_each (combine (fst (fst p)) (snd (fst p))) (fun hr c => add_at (snd hr) (length (fst (fst hr))) c) (repeat 0 W).
  (** src/particle_exchanger.h:310-314, what InParticleIterator[rank] yields: the particles of the halos of its segment
      (the iterators are modelled in Iterators.v). *)
  Definition particle_streams (W : nat) (p : list halo * list nat * list nat) : option (list (list part)) :=
    mapM (fun r => match send_slice (fst (fst p)) (snd p) r with Some l => Some (concat (map fst l)) | None => None end) (seq 0 W).
  (** The halos received from one sender: shells, sizes, and the particles stored through OutParticleIterator[sender] over
      the resized lists (src/particle_exchanger.h:300-301, 313, 320).  [None] also when the number of particles is not the
      sum of the sizes (the code would leave blank particles or write past the end). *)
  Definition rebuilt (shells : list S) (sizes : list nat) (parts : list part) : option (list halo) :=
    match cut_by sizes parts with Some ls => Some (combine ls shells) | None => None end.
  Fixpoint rebuilt_all (shells : list (list S)) (sizes : list (list nat)) (parts : list (list part)) : option (list halo) :=
    match shells, sizes, parts with
    | s :: shells', n :: sizes', p :: parts' =>
        match rebuilt s n p, rebuilt_all shells' sizes' parts' with Some a, Some b => Some (a ++ b) | _, _ => None end
    | [], [], [] => Some []
    | _, _, _ => None
    end.

  (** src/particle_exchanger.h:281-327 on all processes. *)
  Definition distribute (halos : list (list halo)) : option (list (list halo)) :=
    let W := length halos in
    match mapM (sorted_halos W) halos with
    | None => None
    | Some prep =>
        match all_to_all_v (map (fun p => (map snd (fst (fst p)), snd p)) prep),
              all_to_all_v (map (fun p => (map (fun h => length (fst h)) (fst (fst p)), snd p)) prep),
              mapM (particle_streams W) prep, mapM (particle_counts W) prep with
        | Some shells, Some szs, Some streams, Some counts =>
            match my_all_to_all chunk streams counts with
            | None => None
            | Some got => mapM (fun q => rebuilt_all (fst (fst q)) (snd (fst q)) (snd q)) (combine (combine shells szs) got)
            end
        | _, _, _, _ => None
        end
    end.

  Variable null : Z.
  Variable sort_local : list (part * nat) -> list (part * nat).
  Variable sort_roam : list (Z * (X * nat)) -> list (Z * (X * nat)).
  (** src/particle_exchanger.h:239-240: KickNullParticles on every halo of a process, put back with its shell. *)
  Definition kicked (old : list halo) (new : list (list part)) : option (list halo) :=
    match mapM (halo_kick null) new with
    | Some ls => Some (combine (map fst ls) (map snd old))
    | None => None
    end.
  (** src/halo.cpp:58-67 [HaloSnapshot_t::UpdateParticles]: [full] is HBTConfig.GroupLoadedFullParticle.  The recounting of
      lines 68-75 (two totals used for reserving memory and printing) is not modelled. *)
  Definition update_halos (full : bool) (ranges : list Z) (snaps : list (snap_proc X)) (halos : list (list halo)) :
      run (list (list halo)) :=
    if full then Done halos else
    rbind (exchange null chunk sort_local sort_roam ranges snaps (map (map fst) halos)) (fun new =>
    rbind (of_opt (mapM (fun on => kicked (fst on) (snd on)) (combine halos new))) (fun hs =>
    of_opt (distribute hs))).
End Distribute.
