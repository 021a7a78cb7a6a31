(** More parallel loops at the level of single reads and writes (see Model/Threads.v): the beginning of LevelUpDetachedSubhalos,
    UpdateTracks, GlobalizeTrackReferences and FeedCentrals. *)
From Coq Require Import List ZArith QArith Bool.
From Verif.Model Require Import ListMem Mpi Run Subhalo Tracks Nest UpdateTracks Unbind Threads.
Import ListNotations.
Local Open Scope Z_scope.

(** ** A cell is a subhalo *)
Section Walks.
  Context {X R : Type}.
  Local Notation code := (@prog Z (sub X R)).
  (** src/subhalo_tracking.cpp:118-120 and 757-761: a loop that gives the subhalos of a list rank 0. *)
  Definition zero_turns (l : list nat) : list (code unit) := map (fun i => change (Z.of_nat i) (set_rank 0)) l.
  (** src/subhalo_tracking.cpp:749-755: the loop over the halos that gives the centrals rank 0. *)
  Definition first_turns (groups : list (list nat)) : list (code unit) :=
    map (fun g => match g with [] => Ret tt | c :: _ => change (Z.of_nat c) (set_rank 0) end) groups.
  (** src/subhalo_tracking.cpp:710-730 [ExtendCentralNest], one halo; the turns of the loop. *)
  Definition extend_prog (fuel : nat) (group heads : list nat) : code unit :=
    match group with
    | c0 :: _ :: _ =>
        Get (Z.of_nat c0) (fun c =>
          if s_rank c =? 0 then change (Z.of_nat c0) (fun s => set_nest (s_nest s ++ map Z.of_nat (filter (fun h => negb (Nat.eqb h c0)) heads)) s)
          else pbind (change (Z.of_nat c0) (set_rank 0)) (fun _ =>
               pbind (peach (map Z.of_nat heads) (level_prog fuel)) (fun _ =>
               change (Z.of_nat c0) (fun s => set_nest (s_nest s ++ map Z.of_nat heads) s))))
    | _ => Ret tt
    end.
  Definition extend_turns (fuel : nat) (groups heads : list (list nat)) : list (code unit) :=
    map (fun gh => extend_prog fuel (fst gh) (snd gh)) (combine groups heads).
  (** src/subhalo_tracking.cpp:122-128 [AssignRanks]: the turns of the loop over the halos. *)
  Definition rank_turns (groups : list (list nat)) : list (code unit) :=
    map (fun g => peach (combine g (seq 0 (length g))) (fun ik => change (Z.of_nat (fst ik)) (set_rank (Z.of_nat (snd ik))))) groups.
  (** src/subhalo_tracking.cpp:889-898: the turns of the loop over the subhalos. *)
  Definition finish_turns (snap : Z) (halo_ids : list Z) (n : nat) : list (code unit) :=
    map (own_prog (fun s => of_opt (finish_one snap halo_ids s))) (seq 0 n).
End Walks.

(** ** GlobalizeTrackReferences: a cell is a number *)
Section Fields.
  Context {X R : Type}.
  (** Subhalos[i]: TrackId, SnapshotIndexOfSink, SinkTrackId, NestedSubhalos.size(), NestedSubhalos[k]. *)
  Inductive field := FTrack (i : Z) | FSnap (i : Z) | FSink (i : Z) | FSize (i : Z) | FElem (i : Z) (k : nat).
  Definition field_eqb (a b : field) : bool :=
    match a, b with
    | FTrack i, FTrack j | FSnap i, FSnap j | FSink i, FSink j | FSize i, FSize j => i =? j
    | FElem i k, FElem j m => (i =? j) && Nat.eqb k m
    | _, _ => false
    end.
  Definition fields (subs : list (sub X R)) : field -> option Z := fun f =>
    match f with
    | FTrack i => option_map s_track (zget subs i)
    | FSnap i => option_map s_snapsink (zget subs i)
    | FSink i => option_map s_sink (zget subs i)
    | FSize i => option_map (fun s => Z.of_nat (length (s_nest s))) (zget subs i)
    | FElem i k => match zget subs i with Some s => nth_error (s_nest s) k | None => None end
    end.
  (** src/subhalo_tracking.cpp:654-667 [GlobalizeTrackReferences]: the turns of the loop. *)
  Definition global_turn (snap : Z) (i : nat) : @prog field Z unit :=
    let me := Z.of_nat i in
    Get (FSnap me) (fun t =>
      pbind (if t =? snap then Get (FSink me) (fun k => Get (FTrack k) (fun id => Put (FSink me) id (Ret tt))) else Ret tt) (fun _ =>
      Get (FSize me) (fun n => peach (seq 0 (Z.to_nat n)) (fun k => Get (FElem me k) (fun c => Get (FTrack c) (fun id => Put (FElem me k) id (Ret tt))))))).
  Definition global_turns (snap : Z) (n : nat) : list (@prog field Z unit) := map (global_turn snap) (seq 0 n).
End Fields.

(** ** Loops that draw numbers from a counter *)
Section Machine.
  Context {L V : Type}.
  Variable same : L -> L -> bool.
  (** A turn that is about to enter the critical section [subid=Npro++] before it goes on, or one that is (or never was) past it.
      The section runs as a whole: no two threads are in it at the same time. *)
  Inductive turn := Plain (p : @prog L V unit) | Take (k : nat -> @prog L V unit).
  Definition crew := (list turn * nat * (L -> option V))%type.
  Inductive work1 : crew -> crew -> Prop :=
  | work_plain i ts p c s p' s' ts' : nth_error ts i = Some (Plain p) -> step1 same p s = Some (p', s') -> upd ts i (Plain p') = Some ts' -> work1 (ts, c, s) (ts', c, s')
  | work_take i ts k c s ts' : nth_error ts i = Some (Take k) -> upd ts i (Plain (k c)) = Some ts' -> work1 (ts, c, s) (ts', S c, s).
  Inductive works : nat -> crew -> crew -> Prop :=
  | works_none c : works 0 c c
  | works_more n a b c : works n a b -> work1 b c -> works (S n) a c.
End Machine.
Arguments Plain {L V}. Arguments Take {L V}.

(** FeedCentrals: a cell is a subhalo or a halo.  A change of several members of a subhalo is one read and one write. *)
Section Feed.
  Context {X R H : Type}.
  Variable centre : H -> R -> R.
  Variable snap : Z.
  Inductive place := Sub (i : nat) | Halo (h : nat).
  Inductive content := VSub (s : sub X R) | VHalo (h : list (Z * X) * H).
  Definition place_eqb (a b : place) : bool :=
    match a, b with Sub i, Sub j | Halo i, Halo j => Nat.eqb i j | _, _ => false end.
  Definition stock (subs : list (sub X R)) (halos : list (list (Z * X) * H)) : place -> option content := fun p =>
    match p with Sub i => option_map VSub (nth_error subs i) | Halo h => option_map VHalo (nth_error halos h) end.
  (** src/subhalo_tracking.cpp:493-500: a halo without members, once it has its number. *)
  Definition newborn (h subid : nat) : @prog place content unit :=
    Get (Sub subid) (fun c => Get (Halo h) (fun w =>
      match c, w with
      | VSub c, VHalo (hparts, hh) =>
          Put (Sub subid) (VSub (set_birth snap (set_nbound (length hparts) (set_parts hparts (set_rest (centre hh (s_rest c)) (set_host (Z.of_nat h) c))))))
            (Put (Halo h) (VHalo (s_parts c, hh)) (Ret tt))
      | _, _ => Fail
      end)).
  (** src/subhalo_tracking.cpp:502-516: a halo with members. *)
  Definition fed (h m0 : nat) : @prog place content unit :=
    Get (Sub m0) (fun c => Get (Halo h) (fun w =>
      match c, w with
      | VSub c, VHalo (hparts, hh) =>
          match s_parts c with
          | [] => Fail
          | p0 :: _ =>
              match lead_with (fst p0) hparts with
              | None => Fail
              | Some parts' => Put (Sub m0) (VSub (set_nbound (length hparts) (set_parts parts' c))) (Put (Halo h) (VHalo (s_parts c, hh)) (Ret tt))
              end
          end
      | _, _ => Fail
      end)).
  (** src/subhalo_tracking.cpp:482-516: the turns of the loop. *)
  Definition feed_turns (groups : list (list nat)) : list (@turn place content) :=
    map (fun hg => match snd hg with [] => Take (newborn (fst hg)) | m0 :: _ => Plain (fed (fst hg) m0) end) (combine (seq 0 (length groups)) groups).
End Feed.
