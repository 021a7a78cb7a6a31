(** Model of finding the host halo of each subhalo and moving the subhalo there (src/subhalo_tracking.cpp:164-434).  The
    processes are the elements of a list.  MPI delivers what is sent; message sizes are not bounded. *)
From Coq Require Import List ZArith QArith Bool.
From Verif.Model Require Import ListMem Mpi Hash Subhalo.
Import ListNotations.
Local Open Scope nat_scope.

(** src/halo.cpp:78-111 [HaloParticleKeyList_t]: key = particle id, index = local number of the halo. *)
Definition halo_keys (halos : list (list Z)) : list (Z * Z) :=
  concat (map (fun ih => map (fun id => (id, Z.of_nat (fst ih))) (snd ih)) (combine (seq 0 (length halos)) halos)).
(** src/snapshot.cpp:40-58 [ParticleKeyList_t]. *)
Definition part_keys (ids : list Z) : list (Z * Z) := combine ids (map Z.of_nat (seq 0 (length ids))).
(** src/snapshot.h:160-177: the particle table is one of two kinds (ParticleIdNeedHash). *)
Inductive ptable := PMapped (t : list (Z * Z)) | PFlat (t : flat_table).
(** One process: the tables after halo_snap.FillParticleHash (halo.cpp:113-117) and part_snap.FillParticleHash (snapshot.cpp:60-65).
    Both use -1 for "not found". *)
Record proc := { pr_halos : list (list Z); pr_ids : list Z; pr_htable : list (Z * Z); pr_ptable : ptable }.
(** src/snapshot.h:218-221 [GetIndex]. *)
Definition part_get (t : ptable) (pid : Z) : option Z := match t with PMapped t => mapped_get (-1) t pid | PFlat t => flat_get (-1) t pid end.
(** src/subhalo_tracking.cpp:164-173 [GetLocalHostId]. *)
Definition local_host (p : proc) (pid : Z) : option Z :=
  match mapped_get (-1) (pr_htable p) pid with
  | None => None
  | Some h => if (h <? 0)%Z then match part_get (pr_ptable p) pid with
                                 | None => None
                                 | Some i => if (i =? -1)%Z then Some (h - 1)%Z else Some h
                                 end
              else Some h
  end.

Section Hosts.
  Context {X R : Type}.
  Local Notation subs_t := (list (sub X R)).
  Variable procs : list proc.
  (** MaxChunkSize, src/subhalo_tracking.cpp:373. *)
  Variable max_chunk : nat.

  (** src/subhalo_tracking.cpp:174-198 [FindLocalHosts]: (Subhalos, LocalSubhalos).  The compaction in place (185-196) is a
      filter. *)
  Definition with_local_host (p : proc) (s : sub X R) : option (sub X R) :=
    match s_parts s with
    | [] => Some (set_host (-1) s)
    | q :: _ => option_map (fun h => set_host h s) (local_host p (fst q))
    end.
  Definition leaves (s : sub X R) : bool := (s_host s <? 0)%Z && negb (length (s_parts s) =? 0).
  Definition find_local (p : proc) (subs : subs_t) : option (subs_t * subs_t) :=
    option_map (fun l => (filter leaves l, filter (fun s => negb (leaves s)) l)) (mapM (with_local_host p) subs).

  (** MPI_MAXLOC, src/subhalo_tracking.cpp:245: the largest id, and of equal ones the lowest rank. *)
  Fixpoint maxloc_from (best : Z * nat) (r : nat) (ids : list Z) : Z * nat :=
    match ids with [] => best | i :: t => maxloc_from (if (fst best <? i)%Z then (i, r) else best) (S r) t end.
  Definition maxloc (ids : list Z) : option (Z * nat) := match ids with [] => None | i :: t => Some (maxloc_from (i, 0) 1 t) end.
  (** src/subhalo_tracking.cpp:217-243: what each process finds for one subhalo of [root] (whose own answer is already known). *)
  Definition answers (root : nat) (s : sub X R) : option (list Z) :=
    match s_parts s with
    | [] => None
    | q :: _ => mapM (fun rp => if fst rp =? root then Some (s_host s) else local_host (snd rp) (fst q)) (combine (seq 0 (length procs)) procs)
    end.
  Definition global_host (root : nat) (s : sub X R) : option (Z * nat) :=
    match answers root s with Some a => maxloc a | None => None end.
  (** std::stable_sort with CompareRank, src/subhalo_tracking.cpp:359; entries are (number of the subhalo, rank). *)
  Fixpoint insert_rank (x : nat * nat) (l : list (nat * nat)) : list (nat * nat) :=
    match l with [] => [x] | y :: r => if snd x <=? snd y then x :: l else y :: insert_rank x r end.
  Definition sort_rank (l : list (nat * nat)) : list (nat * nat) := fold_right insert_rank [] l.
  (** The fields that MPI_Subhalo_Shell_Type carries, and those sent separately. *)
  Definition shell (s : sub X R) : sub X R := set_parts [] (set_nest [] s).
  (** src/subhalo_tracking.cpp:200-369 [FindOtherHosts]: [local] are the LocalSubhalos of all processes.  The particles and nests
      arrive in the order of packing (256-270, 296-340), the other fields in that of TmpHalos (350-368). *)
  Definition find_other (root : nat) (chunk : subs_t) (local : list subs_t) : option (list subs_t) :=
    match mapM (global_host root) chunk with
    | None => None
    | Some hosts =>
        let moved := map (fun sh => set_host (fst (snd sh)) (fst sh)) (combine chunk hosts) in
        let sorted := sort_rank (combine (seq 0 (length hosts)) (map snd hosts)) in
        match mapM (fun ir => nth_error moved (fst ir)) sorted with
        | None => None
        | Some tmp =>
            let packed := fun r => filter (fun sh => snd (snd sh) =? r) (combine chunk hosts) in
            let counts := map (fun r => length (packed r)) (seq 0 (length local)) in
            Some (map (fun rl =>
              let r := fst rl in
              let shells := map shell (firstn (nth r counts 0) (skipn (nth r (displacements counts) 0) tmp)) in
              snd rl ++ map (fun sp => set_parts (s_parts (fst (snd sp))) (set_nest (s_nest (fst (snd sp))) (fst sp))) (combine shells (packed r)))
              (combine (seq 0 (length local)) local))
        end
    end.
  (** src/subhalo_tracking.cpp:378-402, the root's loop: [chunk] are the subhalos from [offset] to [i]-1 and [size] chunksize. *)
  Fixpoint chunks_from (chunk : subs_t) (size : nat) (rest : subs_t) : list subs_t :=
    match rest with
    | [] => match chunk with [] => [] | _ => [chunk] end
    | s :: r =>
        let size1 := size + length (s_parts s) in
        if max_chunk <=? size1 then
          match chunk with [] => chunks_from [s] (length (s_parts s)) r | _ => chunk :: chunks_from [s] (length (s_parts s)) r end
        else chunks_from (chunk ++ [s]) size1 r
    end.
  (** src/subhalo_tracking.cpp:370-416 [FindOtherHostsSafely]. *)
  Definition find_other_safely (root : nat) (subs : subs_t) (local : list subs_t) : option (list subs_t) :=
    for_each (chunks_from [] 0 subs) (find_other root) local.
  (** src/subhalo_tracking.cpp:417-431 [AssignHosts] up to the member table. *)
  Definition assign_hosts (subs : list subs_t) : option (list subs_t) :=
    match mapM (fun ps => find_local (fst ps) (snd ps)) (combine procs subs) with
    | None => None
    | Some found => for_each (combine (seq 0 (length found)) (map fst found)) (fun rf local => find_other_safely (fst rf) (snd rf) local) (map snd found)
    end.
  (** src/subhalo_tracking.cpp:417-434, with the member tables (432). *)
  Definition assign_hosts_tables (sort : subs_t -> list nat -> list nat) (subs : list subs_t) : option (list (subs_t * list (list nat))) :=
    match assign_hosts subs with
    | None => None
    | Some out => mapM (fun ps => option_map (fun t => (snd ps, t)) (build_table (sort (snd ps)) true (length (pr_halos (fst ps))) (snd ps))) (combine procs out)
    end.
End Hosts.
