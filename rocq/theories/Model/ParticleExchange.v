(** Model of src/particle_exchanger.h: updating the particle lists of halos from the distributed snapshot.
    A particle is (Id, everything else); an ordered particle is ((Id, rest), Order).
    The [W] processes are the elements of a list.  ProcessorId (RecvParticles, lines 216-221) is not modelled: no code
    reads it. *)
From Coq Require Import List ZArith Bool Sorting.Permutation.
From Verif.Model Require Import ListMem Run Mpi Hash.
Import ListNotations.
Local Open Scope nat_scope.

(** ** src/particle_exchanger.h:72-82 [RestoreParticleOrder] *)

(** [while(i!=j) swap(p, P[j])] where [p] is P[i] and [j] is a reference to P[i].Order. *)
Fixpoint restore_at {A} (fuel i : nat) (l : list (A * nat)) : run (list (A * nat)) :=
  match nth_error l i with
  | None => Crash
  | Some p =>
      if Nat.eqb i (snd p) then Done l else
      match fuel with
      | O => Running
      | S f =>
          match nth_error l (snd p) with
          | None => Crash
          | Some q =>
              match upd l i q with
              | None => Crash
              | Some l1 => match upd l1 (snd p) p with Some l2 => restore_at f i l2 | None => Crash end
              end
          end
      end
  end.
(** The loop over [i]; each inner loop is given [fuel] iterations. *)
Fixpoint restore_from {A} (fuel i n : nat) (l : list (A * nat)) : run (list (A * nat)) :=
  match n with
  | O => Done l
  | S n' => match restore_at fuel i l with
            | Done l' => restore_from fuel (S i) n' l'
            | Crash => Crash
            | Running => Running
            end
  end.
Definition restore_order {A} (fuel : nat) (l : list (A * nat)) : run (list (A * nat)) := restore_from fuel 0 (length l) l.

(** ** KickNullParticles: in-place removal of null particles *)
Section Kick.
  Context {X : Type}.
  Variable null : Z.
  (** One step of the compaction loops of src/subhalo.cpp:453-460, 464-471 and src/halo.cpp:137-145: iterator [it],
      save position [save]. *)
  Definition kick_step (it : nat) (st : list (Z * X) * nat) : option (list (Z * X) * nat) :=
    match nth_error (fst st) it with
    | None => None
    | Some p =>
        if Z.eqb (fst p) null then Some st
        else if Nat.eqb it (snd st) then Some (fst st, S (snd st))
        else match upd (fst st) (snd st) p with Some l => Some (l, S (snd st)) | None => None end
    end.
  (** src/halo.cpp:131-150, the build with several particle types: new particles and the returned count. *)
  Definition halo_kick (l : list (Z * X)) : option (list (Z * X) * nat) :=
    match for_range 0 (length l) kick_step (l, 0) with
    | Some (l', save) => Some (firstn save l', length l - save)
    | None => None
    end.
  (** src/subhalo.cpp:446-477: new particles, new Nbound and the returned count.  [None] when Nbound exceeds the size. *)
  Definition sub_kick (l : list (Z * X)) (nbound : nat) : option (list (Z * X) * nat * nat) :=
    if Nat.ltb (length l) nbound then None else
    match for_range 0 nbound kick_step (l, 0) with
    | None => None
    | Some (l1, nb) =>
        match for_range nbound (length l - nbound) kick_step (l1, nb) with
        | Some (l', save) => Some (firstn save l', nb, length l - save)
        | None => None
        end
    end.
End Kick.

(** ** The exchange *)
Section Query.
  Context {X : Type}.
  Variable null : Z.                       (* SpecialConst::NullParticleId *)
  Local Notation part := (Z * X)%type.
  Variable chunk : nat.                    (* chunk size of MyAllToAll *)
  Variable sort_local : list (part * nat) -> list (part * nat).       (* std::sort with CompParticleId *)
  Variable sort_roam : list (Z * (X * nat)) -> list (Z * (X * nat)).

  (** The part of the snapshot on one process: particles and the table built by FillParticleHash
      (src/snapshot.cpp:40-65); [sp_need_hash] is HBTConfig.ParticleIdNeedHash. *)
  Record snap_proc := mksnap { sp_parts : list part; sp_need_hash : bool; sp_map : list (Z * Z); sp_flat : flat_table }.

  (** src/snapshot.cpp:40-58 [ParticleKeyList_t]: (id, position) for every particle. *)
  Definition indexed (l : list part) : list (Z * Z) := combine (map fst l) (map Z.of_nat (seq 0 (length l))).
  (** src/snapshot.cpp:60-65 [FillParticleHash]: the table was filled from the particles of this process. *)
  Definition table_ok (s : snap_proc) : Prop :=
    if sp_need_hash s then mapped_fill (indexed (sp_parts s)) (sp_map s)
    else exists order, Permutation order (indexed (sp_parts s)) /\ flat_fill null (indexed (sp_parts s)) order = Some (sp_flat s).

  (** src/particle_exchanger.h:127-150 [CollectParticles]. *)
  Definition collect (halos : list (list part)) : list (part * nat) :=
    combine (concat halos) (seq 0 (length (concat halos))).

  (** src/particle_exchanger.h:162-170: the [while] at one particle. [Crash] = exit(1) or out-of-bounds read. *)
  Fixpoint advance (fuel : nat) (ranges : list Z) (W : nat) (id : Z) (pos rank : nat) (its : list nat) : run (nat * list nat) :=
    match nth_error ranges rank with
    | None => Crash
    | Some lo =>
        if Z.leb lo id then
          if Nat.eqb rank W then Crash else
          match fuel with
          | O => Running
          | S f => match upd its rank pos with
                   | Some its' => advance f ranges W id pos (S rank) its'
                   | None => Crash
                   end
          end
        else Done (rank, its)
    end.
  (** The loop over the sorted local particles, lines 159-171. *)
  Fixpoint scan (ranges : list Z) (W : nat) (l : list (part * nat)) (pos rank : nat) (its : list nat) : run (nat * list nat) :=
    match l with
    | [] => Done (rank, its)
    | p :: r => match advance (S W) ranges W (fst (fst p)) pos rank its with
                | Done (rank', its') => scan ranges W r (S pos) rank' its'
                | Crash => Crash
                | Running => Running
                end
    end.
  (** src/particle_exchanger.h:158-173: LocalIterators as positions. *)
  Definition local_iterators (ranges : list Z) (W : nat) (l : list (part * nat)) : run (list nat) :=
    match scan ranges W l 0 0 (repeat 0 W) with
    | Done (rank, its) =>
        match for_range rank (W - rank) (fun r o => upd o r (length l)) its with Some o => Done o | None => Crash end
    | Crash => Crash
    | Running => Running
    end.
  (** src/particle_exchanger.h:174-176: LocalSizes (natural subtraction; iterators never decrease). *)
  Fixpoint sizes (its : list nat) (np : nat) : list nat :=
    match its with
    | [] => []
    | a :: rest => (match rest with [] => np | b :: _ => b end - a) :: sizes rest np
    end.

  (** One process after the sort and the iterator computation of SendParticles. *)
  Definition prepare (ranges : list Z) (W : nat) (halos : list (list part)) : run (list (part * nat) * list nat) :=
    let local := sort_local (collect halos) in
    match local_iterators ranges W local with Done its => Done (local, its) | Crash => Crash | Running => Running end.

  (** src/particle_exchanger.h:200: [snap.GetIndices], src/hash_remote.tpp:102-109. *)
  Definition get_indices (s : snap_proc) (l : list (Z * (X * nat))) : option (list (Z * (X * nat))) :=
    if sp_need_hash s then mapped_get_indices null (sp_map s) l else flat_get_indices null (sp_flat s) l.

  (** src/particle_exchanger.h:201-205: replace by the snapshot record; Order is kept. *)
  Definition query_one (s : snap_proc) (p : Z * (X * nat)) : option (part * nat) :=
    if Z.eqb (fst p) null then Some ((fst p, fst (snd p)), snd (snd p))
    else match zget (sp_parts s) (fst p) with Some q => Some (q, snd (snd p)) | None => None end.

  (** src/particle_exchanger.h:193-208 [QueryParticles] on the received particles of one process. *)
  Definition query (s : snap_proc) (roam : list part) : run (list part) :=
    let numbered := map (fun pi => (fst (fst pi), (snd (fst pi), snd pi))) (combine roam (seq 0 (length roam))) in
    match get_indices s (sort_roam numbered) with
    | None => Crash
    | Some l => match mapM (query_one s) l with
                | None => Crash
                | Some l' => match restore_order (S (length l')) l' with
                             | Done r => Done (map fst r)
                             | Crash => Crash
                             | Running => Running
                             end
                end
    end.

  (** Unpacking through a local iterator: the particle is overwritten, its Order is kept. *)
  Fixpoint store (local : list (part * nat)) (d : nat) (xs : list part) : option (list (part * nat)) :=
    match xs with
    | [] => Some local
    | x :: r => match nth_error local d with
                | None => None
                | Some p => match upd local d (x, snd p) with Some l' => store l' (S d) r | None => None end
                end
    end.
  Fixpoint store_all (local : list (part * nat)) (its : list nat) (segs : list (list part)) : option (list (part * nat)) :=
    match its, segs with
    | d :: its', s :: segs' => match store local d s with Some l' => store_all l' its' segs' | None => None end
    | [], [] => Some local
    | _, _ => None
    end.

  (** src/particle_exchanger.h:226-238 [RestoreParticles] without the final KickNullParticles: cut by HaloSizes;
      [None] when an iterator passes the end or the assert fails. *)
  Fixpoint cut_by (szs : list nat) (l : list part) : option (list (list part)) :=
    match szs with
    | [] => match l with [] => Some [] | _ => None end
    | n :: r => if Nat.leb n (length l) then
                  match cut_by r (skipn n l) with Some t => Some (firstn n l :: t) | None => None end
                else None
    end.

  Definition finish (its : list nat) (local : list (part * nat)) (segs : list (list part)) (halos : list (list part)) :
      run (list (list part)) :=
    match store_all local its segs with
    | None => Crash
    | Some l => match restore_order (S (length l)) l with
                | Done r => match cut_by (map (@length part) halos) (map fst r) with Some h => Done h | None => Crash end
                | Crash => Crash
                | Running => Running
                end
    end.

  (** [mapM] for outcomes. *)
  Fixpoint mapR {A B} (f : A -> run B) (l : list A) : run (list B) :=
    match l with
    | [] => Done []
    | x :: r => match f x with
                | Done y => match mapR f r with Done r' => Done (y :: r') | Crash => Crash | Running => Running end
                | Crash => Crash
                | Running => Running
                end
    end.

  (** src/particle_exchanger.h:243-251 [Exchange] on all processes, without the final KickNullParticles.
      [halos]: per process, per halo, the particle list.  The send sizes are those of [sizes]; what an iterator at
      position [d] yields is the rest of the array from [d]. *)
  Definition exchange (ranges : list Z) (snaps : list snap_proc) (halos : list (list (list part))) :
      run (list (list (list part))) :=
    let W := length halos in
    match mapR (prepare ranges W) halos with
    | Crash => Crash
    | Running => Running
    | Done prep =>
        let counts := map (fun li => sizes (snd li) (length (fst li))) prep in
        match my_all_to_all chunk (map (fun li => map (fun d => map fst (skipn d (fst li))) (snd li)) prep) counts with
        | None => Crash
        | Some got =>
            match mapR (fun sg => query (fst sg) (concat (snd sg))) (combine snaps got) with
            | Crash => Crash
            | Running => Running
            | Done answered =>
                let rcounts := map (map (@length part)) got in
                match my_all_to_all chunk
                        (map (fun ac => map (fun d => skipn d (fst ac)) (displacements (snd ac))) (combine answered rcounts))
                        rcounts with
                | None => Crash
                | Some back =>
                    mapR (fun q => finish (snd (fst (fst q))) (fst (fst (fst q))) (snd (fst q)) (snd q))
                      (combine (combine prep back) halos)
                end
            end
        end
    end.
End Query.
Arguments snap_proc : clear implicits.
