(** The communication of src/mpi_wrapper.h and src/snapshot_exchanger.cpp with machine integers: every value the code
    stores in an [int] must be at most [max] (INT_MAX), every value it stores in an [HBTInt] at most [hmax].  A value that
    does not fit is undefined behaviour and ends the run with [None] or [Crash].  The functions otherwise are those of
    Model/Mpi.v and Model/Exchange.v, where integers are unbounded.  Particle ids stay unbounded. *)
From Coq Require Import List ZArith Bool.
From Verif.Model Require Import ListMem Run Mpi Exchange.
Import ListNotations.
Local Open Scope nat_scope.

Definition fits (max n : nat) : bool := n <=? max.

(** ** [SyncContainer] *)

(** Conversion of a size to a 32-bit [int], which wraps around. *)
Definition int_max : Z := (2 ^ 31 - 1)%Z.
Definition to_int (n : Z) : Z := ((n + 2 ^ 31) mod 2 ^ 32 - 2 ^ 31)%Z.

Inductive sync_result (A : Type) := Threw | Faulted | Synced (xs : list (list A)).
Arguments Threw {A}.
Arguments Faulted {A}.
Arguments Synced {A} xs.

(** src/mpi_wrapper.h:66-83 [SyncContainer]: [xs] lists the containers of the processes.  The size is stored in an [int]
    before it is compared with INT_MAX.  A negative length makes [resize] and [MPI_Bcast] fail.  The other processes
    receive the first [len] elements of the root; the root keeps its own. *)
Definition sync_container {A} (root : nat) (xs : list (list A)) : sync_result A :=
  match nth_error xs root with
  | None => Faulted
  | Some x =>
      let len := to_int (Z.of_nat (length x)) in
      if (int_max <=? len)%Z then Threw
      else if (len <? 0)%Z then Faulted
      else Synced (map (fun i => if i =? root then x else firstn (Z.to_nat len) x) (seq 0 (length xs)))
  end.

(** ** [MyAllToAll] *)
Section AllToAll.
  Context {A : Type}.
  Variable max hmax : nat.

  (** src/mpi_wrapper.h:139-142, 157 and 160: [SendParticleCounts] and [SendParticleDisps] are vectors of [int]. *)
  Definition sends_fit (st : a2a A) : bool :=
    forallb (fits max) (a_cnt st) && forallb (fits max) (displacements (a_cnt st)).

  (** src/mpi_wrapper.h:159-162 and 176-188: [RecvParticleCounts], [RecvParticleDisps] and [RecvCountTotal] are [int]. *)
  Definition receive_rank_int (sts : list (a2a A)) (r : nat) (st : a2a A) : option (a2a A) :=
    match mapM (fun s => nth_error (a_cnt s) r) sts with
    | None => None
    | Some rcnt =>
        if forallb (fits max) rcnt && forallb (fits max) (displacements rcnt) && fits max (total rcnt)
        then receive_rank sts r st else None
    end.

  (** src/mpi_wrapper.h:150-189, one pass on all processes. *)
  Definition a2a_round_int (iloop : nat) (sts : list (a2a A)) : option (list (a2a A)) :=
    let sts0 := map (switch_counts iloop) sts in
    if forallb sends_fit sts0 then
      match mapM pack_rank sts0 with
      | None => None
      | Some sts1 => mapM (fun rs => receive_rank_int sts1 (fst rs) (snd rs)) (combine (seq 0 (length sts1)) sts1)
      end
    else None.

  (** src/mpi_wrapper.h:124-190 [MyAllToAll]: [InParticleSum] is an [HBTInt], the counts of a pass are [int]. *)
  Definition my_all_to_all_int (chunksize : nat) (data : list (list (list A))) (counts : list (list nat)) :
      option (list (list (list A))) :=
    let W := length data in
    if forallb (fun cs => fits hmax (nsum cs)) counts then
      let nloop := nmax (map (loops_of chunksize) counts) in
      if nloop =? 0 then Some (map (fun _ => repeat [] W) data) else
      let init := map (fun dc => mka2a (fst dc) (map (fun c => c / nloop + 1) (snd dc))
                        (map (fun c => c mod nloop) (snd dc)) (repeat None (chunksize + W)) (repeat [] W))
                      (combine data counts) in
      if forallb (fun st => forallb (fits max) (a_cnt st)) init then
        match for_range 0 nloop a2a_round_int init with
        | Some sts => Some (map a_out sts)
        | None => None
        end
      else None
    else None.

  (** src/mpi_wrapper.h:192-229 [MyBcast]: [int buffersize=ParticleCount/Nloop+1, nremainder=ParticleCount%Nloop]. *)
  Definition my_bcast_int (chunksize W : nat) (input : list A) (count : nat) : option (list (list A)) :=
    let nloop := (count + chunksize - 1) / chunksize in
    if nloop =? 0 then Some (repeat [] W) else
    if fits max (count / nloop + 1) && fits max (count mod nloop) then my_bcast chunksize W input count else None.
End AllToAll.

(** ** [ExchangeParticles] *)
Section Exchange.
  Context {P : Type}.
  Variable pid : P -> Z.
  Variable sort : list P -> list P.
  Variable max hmax : nat.

  (** src/snapshot_exchanger.cpp:108, 115-132, 137 and 160-162: [nremainder], the position [pid] (which reaches the number of
      particles) and the offsets are [int]. *)
  Definition offsets_fit (ol : list nat * list P) : bool :=
    match upd (fst ol) (length (fst ol) - 1) (length (snd ol)) with Some o => forallb (fits max) o | None => false end.

  (** src/snapshot_exchanger.cpp:166-169: [ReceiveSizes] and [ReceiveOffsets] are [int], their total is a [size_t]. *)
  Definition receive_fit (sent : list (list (list P))) (r : nat) : bool :=
    match mapM (fun row => nth_error row r) sent with
    | Some segs => forallb (fits max) (displacements (map (@length P) segs))
    | None => false
    end.

  (** src/snapshot_exchanger.cpp:150-189 [ExchangeParticles]. *)
  Definition exchange_particles_int (fuel : nat) (parts : list (list P)) : run (list (list P) * list Z) :=
    let sorted := map sort parts in
    if fits hmax (length (concat parts)) && forallb (fun l => fits max (length l)) sorted &&
       fits max (length (concat parts) mod length parts) then
      match partition fuel (map (map pid) sorted) with
      | Crash => Crash
      | Running => Running
      | Done offs =>
          if forallb offsets_fit (combine offs sorted) then
            match mapM (fun ol => send_slices (fst ol) (snd ol)) (combine offs sorted) with
            | None => Crash
            | Some sent =>
                if forallb (forallb (fun s => fits max (length s))) sent && forallb (receive_fit sent) (seq 0 (length parts)) then
                  match mapM (receive sent) (seq 0 (length parts)) with
                  | None => Crash
                  | Some recvd =>
                      let new := map sort recvd in
                      match mapM (fun l => nth_error l 0) new,
                            mapM (fun l => nth_error l (length l - 1)) new with
                      | Some fs, Some ls =>
                          match nth_error ls (length parts - 1) with
                          | Some q => Done (new, map pid fs ++ [(pid q + 1)%Z])
                          | None => Crash
                          end
                      | _, _ => Crash
                      end
                  end
                else Crash
            end
          else Crash
      end
    else Crash.
End Exchange.
