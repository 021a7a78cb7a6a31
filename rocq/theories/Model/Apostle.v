(** Model of the loading of halos stored in pieces over many files (src/io/apostle_io.cpp): every process reads some of the
    files, groups its particles by host id, the processes agree on an owner for every id, send the pieces there and merge them.
    The HDF5 reading of positions, masses and ids is not modelled: a particle is an abstract value of type [P] and a file is
    the list of its particles with their "GroupNumber".  [std::sort] is any function returning a sorted permutation. *)
From Coq Require Import List ZArith Bool QArith.
From Verif.Model Require Import ListMem Run Mymath Mpi.
Import ListNotations.
Local Open Scope Z_scope.

(** src/io/apostle_io.h:37 [NullGroupId]. *)
Definition null_group : Z := 2 ^ 30.

(** [counts[i]++] for every [i] in [l] (src/io/apostle_io.cpp:627-631 and 715-720); [None] = index out of range. *)
Definition tally (W : nat) (l : list Z) : option (list nat) :=
  for_each l (fun i c => match zget c i with Some n => zupd c i (S n) | None => None end) (repeat O W).

(** The pieces of a send buffer given by [counts] and the displacements of [CompileOffsets] (the arguments of
    MPI_Alltoallv); [None] = the buffer is too short. *)
Definition pieces {A} (counts : list nat) (l : list A) : option (list (list A)) :=
  if (nsum counts <=? length l)%nat
  then Some (map (fun dc => firstn (snd dc) (skipn (fst dc) l)) (combine (displacements counts) counts))
  else None.

(** MPI_Alltoall and MPI_Alltoallv: process [r] gets entry or piece [r] of every process; one per sender, in the order of the senders (the receive
    displacements put them one behind the other in this order). *)
Definition from_each {A} (sent : list (list A)) (r : nat) : option (list A) := mapM (fun row => nth_error row r) sent.

Section Apostle.
  (** Particle_t without the host id. *)
  Variable P : Type.
  (** Mass and mean position of a piece of a halo: HaloInfo_t without id and order (src/io/apostle_io.cpp:510-516). *)
  Variable X : Type.
  (** AveragePosition (src/io/apostle_io.cpp:609-610). *)
  Variable average : list P -> X.
  (** ReduceHaloPosition (src/io/apostle_io.cpp:556-596): the mean position of the pieces of one halo. *)
  Variable position : list X -> Q * Q * Q.
  (** The processor grid: dims=ClosestFactors(world.size(),3) and step (src/io/apostle_io.cpp:653-656). *)
  Variable step : Q * Q * Q.
  Variable dims : Z * Z * Z.
  (** MyAllToAll: the largest number of particles in one message (src/mpi_wrapper.h). *)
  Variable chunk : nat.

  (** A halo: id and particles (src/halo.h). *)
  Definition halo : Type := Z * list P.
  (** HaloInfo_t: [order] with id (later the destination rank) and the rest. *)
  Definition info : Type := nat * (Z * X).

  (** std::sort by HostId (src/io/apostle_io.cpp:443), by HaloInfo_t::id (:641), by HaloInfo_t::order (:665), of TargetRank by Rank
      (:712), of the halos by HaloId (:681). *)
  Variable sort_host : list (Z * P) -> list (Z * P).
  Variable sort_info : list info -> list info.
  Variable sort_order : list info -> list info.
  Variable sort_rank : list (nat * Z) -> list (nat * Z).
  Variable sort_halo : list halo -> list halo.

  (** src/io/apostle_io.cpp:337-342, end of [ReadGroupParticles]: the host id of a particle. *)
  Definition host_of (id : Z) : Z := if id <? 0 then null_group else id.
  Definition read_file (file : list (Z * P)) : list (Z * P) := map (fun x => (host_of (fst x), snd x)) file.

  (** src/io/apostle_io.cpp:420-440: process [rank] reads its range of files, one behind the other.  The concurrency limit only
      delays the reads. *)
  Definition read_files (W : nat) (files : list (list (Z * P))) (rank : nat) : option (list (Z * P)) :=
    match assign_tasks (Z.of_nat rank) (Z.of_nat W) (Z.of_nat (length files)) with
    | Some (skip, stop) => Some (concat (map read_file (firstn (Z.to_nat (stop - skip)) (skipn (Z.to_nat skip) files))))
    | None => None
    end.

  (** src/io/apostle_io.cpp:461-473: the lengths of the runs of equal host ids, up to the first [NullGroupId].  [acc] is HaloLen,
      last element first; [None] = back() of an empty vector. *)
  Fixpoint halo_lens (curr : Z) (acc : list (Z * nat)) (l : list (Z * P)) : option (list (Z * nat)) :=
    match l with
    | [] => Some (rev acc)
    | (h, _) :: r =>
        if h =? null_group then Some (rev acc)
        else if negb (h =? curr) then halo_lens h ((h, 1%nat) :: acc) r
        else match acc with (i, n) :: a => halo_lens curr ((i, S n) :: a) r | [] => None end
    end.

  (** src/io/apostle_io.cpp:480-488 (and the same with the iterators of [ExchangeHalos], :726-745): deal the particles out to
      the halos, each taking its number of particles; [None] = read past the end. *)
  Fixpoint deal (lens : list (Z * nat)) (parts : list P) : option (list halo) :=
    match lens with
    | [] => Some []
    | (h, n) :: r =>
        if (n <=? length parts)%nat
        then match deal r (skipn n parts) with Some hs => Some ((h, firstn n parts) :: hs) | None => None end
        else None
    end.

  (** src/io/apostle_io.cpp:443-488: the halos of one process before the exchange; [None] = assertion failure. *)
  Definition local_halos (read : list (Z * P)) : option (list halo) :=
    let sorted := sort_host read in
    let fine := match sorted with
                | [] => true
                | first :: r => (fst (last r first) <=? null_group) && (0 <=? fst first)
                end in
    if fine
    then match halo_lens null_group [] sorted with Some lens => deal lens (map snd sorted) | None => None end
    else None.

  (** src/io/apostle_io.cpp:612-618: HaloInfoSend. *)
  Definition infos (hs : list halo) : list (Z * X) := map (fun h => (fst h, average (snd h))) hs.

  (** src/io/apostle_io.cpp:619-621: MaxHaloId over all processes. *)
  Definition max_halo_id (all : list (list halo)) : Z := fold_right Z.max 0 (map (fun hs => last (map fst hs) 0) all).

  (** src/io/apostle_io.cpp:622-623. *)
  Definition ndiv (W : nat) (all : list (list halo)) : Z :=
    let m := max_halo_id all + 1 in
    m / Z.of_nat W + (if m mod Z.of_nat W =? 0 then 0 else 1).

  (** src/io/apostle_io.cpp:642-651: where a new id starts. *)
  Fixpoint id_starts (i : nat) (curr : Z) (l : list info) : list nat :=
    match l with
    | [] => []
    | x :: r => if negb (curr =? fst (snd x)) then i :: id_starts (S i) (fst (snd x)) r else id_starts (S i) curr r
    end.

  (** src/io/apostle_io.cpp:598-605 [ReduceHaloRank] on a range of HaloInfoRecv. *)
  Definition reduce_rank (l : list info) : list info :=
    let rank := assign_cell (position (map (fun x => snd (snd x)) l)) step dims in
    map (fun x => (fst x, (rank, snd (snd x)))) l.

  (** src/io/apostle_io.cpp:657-663: from every offset to the next one.  The result starts at the first offset;
      [None] = offsets out of order. *)
  Fixpoint reduce_all (offsets : list nat) (l : list info) : option (list info) :=
    match offsets with
    | a :: ((b :: _) as rest) =>
        if ((a <=? b) && (b <=? length l))%nat
        then match reduce_all rest l with Some r => Some (reduce_rank (firstn (b - a) (skipn a l)) ++ r) | None => None end
        else None
    | _ => Some []
    end.

  (** src/io/apostle_io.cpp:638-665 on one process: from the received infos to the ranks, in the order of arrival. *)
  Definition decide (received : list (Z * X)) : option (list Z) :=
    let ordered := combine (seq 0 (length received)) received in
    let sorted := sort_info ordered in
    match reduce_all (id_starts 0 (-1) sorted ++ [length received]) sorted with
    | Some reduced => Some (map (fun x => fst (snd x)) (sort_order reduced))
    | None => None
    end.

  (** src/io/apostle_io.cpp:606-676 [DecideTargetProcessor] on all processes: the rank of every halo of every process. *)
  Definition target_ranks (all : list (list halo)) : option (list (list Z)) :=
    let W := length all in
    let n := ndiv W all in
    match mapM (fun hs => tally W (map (fun h => fst h / n) hs)) all with
    | None => None
    | Some counts =>
    match mapM (fun ch => pieces (fst ch) (infos (snd ch))) (combine counts all) with
    | None => None
    | Some sent =>
    match mapM (fun r => option_map (@concat _) (from_each sent r)) (seq 0 W) with
    | None => None
    | Some received =>
    match mapM decide received with
    | None => None
    | Some decided =>
    match mapM (fun r => from_each counts r) (seq 0 W) with
    | None => None
    | Some recv_sizes =>
    match mapM (fun cd => pieces (fst cd) (snd cd)) (combine recv_sizes decided) with
    | None => None
    | Some back => mapM (fun r => option_map (@concat _) (from_each back r)) (seq 0 W)
    end end end end end end.

  (** src/io/apostle_io.cpp:712-720: the halos of one process in the order of their destination, and how many go to each process. *)
  Definition sort_out (W : nat) (hs : list halo) (ranks : list Z) : option (list halo * list Z * list nat) :=
    let target := sort_rank (combine (seq 0 (length hs)) ranks) in
    match mapM (fun t => nth_error hs (fst t)) target, tally W (map snd target) with
    | Some sorted, Some counts => Some (sorted, map snd target, counts)
    | _, _ => None
    end.

  (** src/io/apostle_io.cpp:738-740: InParticleCount. *)
  Definition particle_counts (W : nat) (sorted : list halo) (ranks : list Z) : option (list nat) :=
    for_each (combine ranks sorted)
             (fun rh c => match zget c (fst rh) with Some n => zupd c (fst rh) (n + length (snd (snd rh)))%nat | None => None end)
             (repeat O W).

  (** src/io/apostle_io.cpp:701-751 [ExchangeHalos] on all processes.  The shells carry the ids, the sizes go separately, the
      particles of the halos for one process are read and written one after the other through HaloParticleIterator_t (C50). *)
  Definition exchange_halos (all : list (list halo)) : option (list (list halo)) :=
    let W := length all in
    match target_ranks all with
    | None => None
    | Some ranks =>
    match mapM (fun hr => sort_out W (fst hr) (snd hr)) (combine all ranks) with
    | None => None
    | Some out =>
    match mapM (fun o => pieces (snd o) (fst (fst o))) out with
    | None => None
    | Some sent =>
    match mapM (fun o => particle_counts W (fst (fst o)) (snd (fst o))) out with
    | None => None
    | Some pcounts =>
    match my_all_to_all chunk (map (map (fun hs => concat (map snd hs))) sent) pcounts with
    | None => None
    | Some parts =>
        mapM (fun rp => match from_each sent (fst rp) with
                        | Some shells =>
                            option_map (@concat _)
                              (mapM (fun sp => deal (map (fun h => (fst h, length (snd h))) (fst sp)) (snd sp)) (combine shells (snd rp)))
                        | None => None
                        end)
             (combine (seq 0 W) parts)
    end end end end end.

  (** src/io/apostle_io.cpp:682-696, the loop of [MergeHalos]: [h] is the halo at it1, the result the halos from it1 on. *)
  Fixpoint merge_from (h : halo) (l : list halo) : list halo :=
    match l with
    | [] => [h]
    | h2 :: r => if fst h2 =? fst h then merge_from (fst h, snd h ++ snd h2) r else h :: merge_from h2 r
    end.

  (** src/io/apostle_io.cpp:678-699 [MergeHalos]; AverageCoordinates is not modelled. *)
  Definition merge_halos (hs : list halo) : list halo :=
    match hs with
    | [] => []
    | _ => match sort_halo hs with [] => [] | h :: r => merge_from h r end
    end.

  (** src/io/apostle_io.cpp:405-503 [LoadGroups] with src/io/apostle_io.cpp:755-764 [ExchangeAndMerge], on [W] processes. *)
  Definition load_groups (W : nat) (files : list (list (Z * P))) : option (list (list halo)) :=
    match mapM (read_files W files) (seq 0 W) with
    | None => None
    | Some read =>
    match mapM local_halos read with
    | None => None
    | Some all =>
    match exchange_halos all with
    | None => None
    | Some out => Some (map merge_halos out)
    end end end.
End Apostle.
