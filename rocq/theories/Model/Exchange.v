(** Model of the redistribution of particles into id ranges, src/snapshot_exchanger.cpp:30-189.
    A process is an element of a list.  Integers are unbounded (the code uses [int] for offsets and sizes). *)
From Coq Require Import List ZArith Bool.
From Verif.Model Require Import ListMem Run Mpi.
Import ListNotations.
Local Open Scope Z_scope.

(** ** Moving the cursors: [ParallelStride] *)

(** One process inside [ParallelStride]: the ids of its sorted particles and its cursor. *)
Definition cursor := (list Z * nat)%type.
Definition active (r : cursor) : bool := negb (Nat.eqb (length (fst r)) (snd r)).

(** src/snapshot_exchanger.cpp:40-45: the attempted step, from the size of the communicator of processes that have
    something left ([m]) and what this process has left ([nmax]). *)
Definition stride_n (steps m : Z) (nmax : nat) : Z :=
  let n := Z.quot steps m in
  let n := if n * m <? steps then n + 1 else n in
  if Z.of_nat nmax <? n then Z.of_nat nmax else n.
Definition attempt (steps m : Z) (r : cursor) : Z := stride_n steps m (length (fst r) - snd r).

(** src/snapshot_exchanger.cpp:47, [Particles[offset+n-1].Id]. *)
Definition attempt_id (steps m : Z) (r : cursor) : option Z :=
  zget (fst r) (Z.of_nat (snd r) + attempt steps m r - 1).

(** src/snapshot_exchanger.cpp:53-56: number of increments of [while(Particles[offset].Id<MinId) offset++];
    [None] = reading past the end. *)
Fixpoint fast_forward (rest : list Z) (minid : Z) : option nat :=
  match rest with
  | [] => None
  | x :: r => if x <? minid then option_map S (fast_forward r minid) else Some O
  end.

Fixpoint zmin_list (x : Z) (l : list Z) : Z := match l with [] => x | y :: r => Z.min x (zmin_list y r) end.

(** src/snapshot_exchanger.cpp:41-60 on one process: new cursor and the number of particles passed. *)
Definition stride_move (steps m minid : Z) (r : cursor) : option (cursor * Z) :=
  if active r then
    match attempt_id steps m r with
    | None => None
    | Some pid =>
        if minid <? pid then
          match fast_forward (skipn (snd r) (fst r)) minid with
          | Some k => Some ((fst r, (snd r + k)%nat), Z.of_nat k)
          | None => None
          end
        else let n := attempt steps m r in
             if Z.of_nat (snd r) + n <? 0 then None else Some ((fst r, Z.to_nat (Z.of_nat (snd r) + n)), n)
    end
  else Some (r, 0).

(** One pass of the loop src/snapshot_exchanger.cpp:32-66 on all processes: split by "something left", minimum of the
    attempted ids among the processes that have, move, sum of the moves. *)
Definition stride_round (rs : list cursor) (steps : Z) : option (list cursor * Z) :=
  let act := filter active rs in
  let m := Z.of_nat (length act) in
  match mapM (attempt_id steps m) act with
  | None => None
  | Some [] => Some (rs, steps)
  | Some (p :: ps) =>
      match mapM (stride_move steps m (zmin_list p ps)) rs with
      | None => None
      | Some mv => Some (map fst mv, steps - fold_right Z.add 0 (map snd mv))
      end
  end.

Fixpoint parallel_stride (fuel : nat) (rs : list cursor) (steps : Z) : run (list cursor) :=
  if steps =? 0 then Done rs else
  match fuel with
  | O => Running
  | S f => match stride_round rs steps with
           | Some (rs', steps') => parallel_stride f rs' steps'
           | None => Crash
           end
  end.

(** ** Partition: [PartitionParticles] *)

(** src/snapshot_exchanger.cpp:68-104 [IsContiguousId]: smallest and largest id over the processes that have
    particles; [None] when there is none anywhere (flag 0 everywhere). *)
Definition fronts (lists : list (list Z)) : list Z :=
  flat_map (fun l => match l with [] => [] | x :: _ => [x] end) lists.
Definition backs (lists : list (list Z)) : list Z :=
  flat_map (fun l => match l with [] => [] | x :: r => [last r x] end) lists.
Fixpoint zmax_list (x : Z) (l : list Z) : Z := match l with [] => x | y :: r => Z.max x (zmax_list y r) end.
Definition is_contiguous (lists : list (list Z)) (ntot : Z) : option Z :=
  match fronts lists, backs lists with
  | f :: fs, b :: bs =>
      let mn := zmin_list f fs in
      let mx := zmax_list b bs in
      if mx - mn + 1 =? ntot then Some mn else None
  | _, _ => None
  end.

(** src/snapshot_exchanger.cpp:115-130, the loop over the local particles when ids are contiguous. *)
Fixpoint contig_loop (fuel : nat) (ids : list Z) (nrem : nat) (rank pid : nat) (nnew ub : Z) (offset : list nat) :
    run (nat * list nat) :=
  match fuel with
  | O => Running
  | S f =>
      match nth_error ids pid with
      | None => Done (rank, offset)
      | Some x =>
          if x <? ub then contig_loop f ids nrem rank (S pid) nnew ub offset
          else match upd offset rank pid with
               | None => Crash
               | Some offset' =>
                   let nnew' := if Nat.eqb rank nrem then nnew - 1 else nnew in
                   contig_loop f ids nrem (S rank) pid nnew' (ub + nnew') offset'
               end
      end
  end.
(** src/snapshot_exchanger.cpp:113-132 on one process: the loop, then [while(rank<W) offset[rank++]=pid]. *)
Definition contig_offsets (fuel W : nat) (ids : list Z) (nrem : nat) (nnew gmin : Z) : run (list nat) :=
  match contig_loop fuel ids nrem 0 0 nnew gmin (repeat 0%nat (S W)) with
  | Done (rank, offset) =>
      match for_range rank (W - rank) (fun r o => upd o r (length ids)) offset with
      | Some o => Done o
      | None => Crash
      end
  | Crash => Crash
  | Running => Running
  end.

(** src/snapshot_exchanger.cpp:134-143, ids not contiguous: state per process = cursor and offset vector. *)
Fixpoint stride_offsets (fuel : nat) (n : nat) (i : nat) (nrem : nat) (nnew : Z)
    (rs : list cursor) (offs : list (list nat)) : run (list cursor * list (list nat)) :=
  match n with
  | O => Done (rs, offs)
  | S n' =>
      match mapM (fun ro => upd (snd ro) i (snd (fst ro))) (combine rs offs) with
      | None => Crash
      | Some offs' =>
          let nnew' := if Nat.eqb i nrem then nnew - 1 else nnew in
          match parallel_stride fuel rs nnew' with
          | Done rs' => stride_offsets fuel n' (S i) nrem nnew' rs' offs'
          | Crash => Crash
          | Running => Running
          end
      end
  end.

Fixpoint mapRun {A B} (f : A -> run B) (l : list A) : run (list B) :=
  match l with
  | [] => Done []
  | x :: r => match f x with
              | Done y => match mapRun f r with Done r' => Done (y :: r') | Crash => Crash | Running => Running end
              | Crash => Crash
              | Running => Running
              end
  end.

(** src/snapshot_exchanger.cpp:106-145: the offset vectors (of W+1 entries, the last one not set here). *)
Definition partition (fuel : nat) (lists : list (list Z)) : run (list (list nat)) :=
  let W := length lists in
  let ntot := Z.of_nat (length (concat lists)) in
  let nrem := Z.to_nat (ntot mod Z.of_nat W) in
  let nnew := ntot / Z.of_nat W + 1 in
  match is_contiguous lists ntot with
  | Some gmin => mapRun (fun ids => contig_offsets fuel W ids nrem nnew gmin) lists
  | None =>
      match stride_offsets fuel W 0 nrem nnew (map (fun l => (l, O)) lists) (map (fun _ => repeat O (S W)) lists) with
      | Done (rs, offs) =>
          if forallb (fun r => Nat.eqb (snd r) (length (fst r))) rs then Done offs else Crash   (* the assert *)
      | Crash => Crash
      | Running => Running
      end
  end.

(** ** Exchange: [ExchangeParticles] *)
Section Exchange.
  Context {P : Type}.
  Variable pid : P -> Z.
  Variable sort : list P -> list P.   (* std::sort with CompParticleId *)

  (** src/snapshot_exchanger.cpp:162-164: the slice of the sorted particles sent to each process; a negative size or an
      offset past the end is undefined. *)
  Fixpoint slices (offset : list nat) (l : list P) : option (list (list P)) :=
    match offset with
    | a :: ((b :: _) as rest) =>
        if (Nat.leb a b && Nat.leb b (length l))%bool then
          match slices rest l with Some r => Some (firstn (b - a) (skipn a l) :: r) | None => None end
        else None
    | _ => Some []
    end.

  (** src/snapshot_exchanger.cpp:162 [SendOffsets.back()=Particles.size()]. *)
  Definition send_slices (offset : list nat) (l : list P) : option (list (list P)) :=
    match upd offset (length offset - 1) (length l) with Some o => slices o l | None => None end.

  (** src/snapshot_exchanger.cpp:166-176: what process [r] receives, in order of the sender. *)
  Definition receive (sent : list (list (list P))) (r : nat) : option (list P) :=
    match mapM (fun row => nth_error row r) sent with Some segs => Some (concat segs) | None => None end.

  (** src/snapshot_exchanger.cpp:150-189.  Result: the particles of every process and ProcessIdRanges.
      [Crash] also when a process ends up empty (src/snapshot_exchanger.cpp:181-182 reads front/back of an empty vector). *)
  Definition exchange_particles (fuel : nat) (parts : list (list P)) : run (list (list P) * list Z) :=
    let sorted := map sort parts in
    match partition fuel (map (map pid) sorted) with
    | Crash => Crash
    | Running => Running
    | Done offs =>
        match mapM (fun ol => send_slices (fst ol) (snd ol)) (combine offs sorted) with
        | None => Crash
        | Some sent =>
            match mapM (receive sent) (seq 0 (length parts)) with
            | None => Crash
            | Some recvd =>
                let new := map sort recvd in
                match mapM (fun l => nth_error l 0) new,
                      mapM (fun l => nth_error l (length l - 1)) new with
                | Some fs, Some ls =>
                    match nth_error ls (length parts - 1) with
                    | Some q => Done (new, map pid fs ++ [pid q + 1])
                    | None => Crash
                    end
                | _, _ => Crash
                end
            end
        end
    end.
End Exchange.
