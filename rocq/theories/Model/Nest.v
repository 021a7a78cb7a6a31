(** Model of the nesting of subhalos (src/subhalo_tracking.cpp:113-129, 605-791, 843-874).
    Inside a process nested subhalos are referred to by their index in the local subhalo list. *)
From Coq Require Import List ZArith Bool.
From Verif.Model Require Import ListMem Mpi Run Hash Subhalo.
Import ListNotations.
Local Open Scope Z_scope.

Section Nest.
  Context {X R : Type}.
  Local Notation subs_t := (list (sub X R)).

  (** src/subhalo_tracking.cpp:618-638: one nest; answers of TrackHash in order, lost tracks collected.  The in-place
      compaction writes behind the reading position; the model builds the kept list. *)
  Fixpoint localize_nest (table : list (Z * Z)) (nest : list Z) : option (list Z * list Z) :=
    match nest with
    | [] => Some ([], [])
    | t :: r =>
        match mapped_get (-1) table t, localize_nest table r with
        | Some i, Some (kept, lost) => if i =? -1 then Some (kept, t :: lost) else Some (i :: kept, lost)
        | _, _ => None
        end
    end.
  Fixpoint localize_subs (table : list (Z * Z)) (subs : subs_t) : option (subs_t * list Z) :=
    match subs with
    | [] => Some ([], [])
    | s :: r =>
        match localize_nest table (s_nest s), localize_subs table r with
        | Some (kept, lost), Some (r', lost') => Some (set_nest kept s :: r', lost ++ lost')
        | _, _ => None
        end
    end.
  (** src/subhalo_tracking.cpp:646-651: one received track. *)
  Definition level_received (table : list (Z * Z)) (t : Z) (subs : subs_t) : option subs_t :=
    match mapped_get (-1) table t with
    | None => None
    | Some i => if i =? -1 then Some subs else zmodify subs i (set_rank 0)
    end.
  (** The tracks process [me] receives: the lost tracks of every other process, root by root. *)
  Definition received (me : nat) (losts : list (list Z)) : list Z :=
    concat (map snd (filter (fun rl => negb (Nat.eqb (fst rl) me)) (combine (seq 0 (length losts)) losts))).
  (** src/subhalo_tracking.cpp:605-653 [LocalizeNestedIds] on all processes; each process comes with the sorted table of
      its TrackHash.  MyBcast delivers the list unchanged (property C14), the roots are treated one after the other. *)
  Definition localize (procs : list (list (Z * Z) * subs_t)) : option (list subs_t) :=
    match mapM (fun p => localize_subs (fst p) (snd p)) procs with
    | None => None
    | Some rs =>
        let losts := map snd rs in
        mapM (fun q => for_each (received (fst q) losts) (level_received (fst (fst (snd q)))) (fst (snd (snd q))))
             (combine (seq 0 (length procs)) (combine procs rs))
    end.
  (** Keys of TrackHash: (track id, index), src/subhalo_tracking.cpp:608-610. *)
  Definition track_keys (subs : subs_t) : list (Z * Z) := combine (map s_track subs) (map Z.of_nat (seq 0 (length subs))).

  (** src/subhalo_tracking.cpp:771-791 [LevelUpDetachedMembers]; [fuel] bounds the recursion depth.  The in-place
      compaction of NestedSubhalos is written as building the kept list and storing it at the end; the nest itself is
      read once, before its members are treated. *)
  Fixpoint level_up (fuel : nat) (p : Z) (subs : subs_t) : run subs_t :=
    match fuel with
    | O => Running
    | S f =>
        match zget subs p with
        | None => Crash
        | Some s =>
            (fix members (l : list Z) (kept : list Z) (subs : subs_t) : run subs_t :=
               match l with
               | [] => of_opt (zmodify subs p (set_nest (rev kept)))
               | c :: r =>
                   match zget subs c with
                   | None => Crash
                   | Some sc =>
                       if negb (s_host sc =? s_host s) || (s_rank sc =? 0) then
                         match zmodify subs c (set_rank 0) with
                         | None => Crash
                         | Some subs1 => rbind (level_up f c subs1) (members r kept)
                         end
                       else rbind (level_up f c subs) (members r (c :: kept))
                   end
               end) (s_nest s) [] subs
        end
    end.

  (** The member groups of the table as lists of indices; element [0] is the field group. *)
  Definition first_of (g : list nat) : list nat := firstn 1 g.
  (** src/subhalo_tracking.cpp:751-764: centrals and field subhalos get rank 0. *)
  Definition raise_ranks (table : list (list nat)) (subs : subs_t) : option subs_t :=
    for_each (concat (map first_of (tl table)) ++ concat (firstn 1 table)) (fun i l => modify l i (set_rank 0)) subs.
  (** src/subhalo_tracking.cpp:735-769 [LevelUpDetachedSubhalos]; [order] is the order in which the threads treat the
      subhalos of the last loop. *)
  Definition level_up_all (fuel : nat) (order : list nat) (table : list (list nat)) (subs : subs_t) : run subs_t :=
    let is_head := map (fun s => s_rank s =? 0) subs in
    rbind (of_opt (raise_ranks table subs))
      (run_each order (fun i l => match nth_error is_head i with
                                  | None => Crash
                                  | Some true => level_up fuel (Z.of_nat i) l
                                  | Some false => Done l
                                  end)).
  (** src/subhalo_tracking.cpp:673-687: SubGroupsOfHeads. *)
  Definition heads_of (subs : subs_t) (group : list nat) : option (list nat) :=
    match mapM (nth_error subs) group with
    | Some ss => Some (map fst (filter (fun is => s_rank (snd is) =? 0) (combine group ss)))
    | None => None
    end.
  (** src/subhalo_tracking.cpp:669-688 [NestSubhalos] after LocalizeNestedIds. *)
  Definition nest_local (fuel : nat) (order : list nat) (table : list (list nat)) (subs : subs_t) : run (subs_t * list (list nat)) :=
    rbind (level_up_all fuel order table subs)
      (fun subs' => match mapM (heads_of subs') (tl table) with Some hs => Done (subs', hs) | None => Crash end).

  (** src/subhalo_tracking.cpp:708-733 [ExtendCentralNest], one halo. *)
  Definition extend_one (fuel : nat) (group heads : list nat) (subs : subs_t) : run subs_t :=
    match group with
    | c0 :: _ :: _ =>
        match nth_error subs c0 with
        | None => Crash
        | Some c =>
            if s_rank c =? 0 then
              of_opt (modify subs c0 (fun s => set_nest (s_nest s ++ map Z.of_nat (filter (fun h => negb (Nat.eqb h c0)) heads)) s))
            else
              rbind (of_opt (modify subs c0 (set_rank 0))) (fun subs1 =>
              rbind (run_each heads (fun h l => level_up fuel (Z.of_nat h) l) subs1) (fun subs2 =>
              of_opt (modify subs2 c0 (fun s => set_nest (s_nest s ++ map Z.of_nat heads) s))))
        end
    | _ => Done subs
    end.
  (** All halos, in the order [order]; group of halo [h] is element [h+1] of the table. *)
  Definition extend_nests (fuel : nat) (order : list nat) (table heads : list (list nat)) (subs : subs_t) : run subs_t :=
    run_each order (fun h l => match nth_error table (S h), nth_error heads h with
                               | Some g, Some hs => extend_one fuel g hs l
                               | _, _ => Crash
                               end) subs.
  (** src/subhalo_tracking.cpp:113-129 [AssignRanks]. *)
  Definition rank_group (g : list nat) (subs : subs_t) : option subs_t :=
    for_each (combine g (map Z.of_nat (seq 0 (length g)))) (fun ir l => modify l (fst ir) (set_rank (snd ir))) subs.
  Definition assign_ranks (table : list (list nat)) (subs : subs_t) : option subs_t :=
    match for_each (concat (firstn 1 table)) (fun i l => modify l i (set_rank 0)) subs with
    | None => None
    | Some subs1 => for_each (tl table) rank_group subs1
    end.
  (** src/subhalo_tracking.cpp:690-698 [FillDepthRecursive]. *)
  Fixpoint fill_depth (fuel : nat) (depth : Z) (p : Z) (subs : subs_t) : run subs_t :=
    match fuel with
    | O => Running
    | S f =>
        match zmodify subs p (set_depth depth) with
        | None => Crash
        | Some subs1 =>
            match zget subs1 p with
            | None => Crash
            | Some s => run_each (s_nest s) (fill_depth f (depth + 1)) subs1
            end
        end
    end.
  (** src/subhalo_tracking.cpp:700-705 [FillDepth]. *)
  Definition fill_depths (fuel : nat) (table : list (list nat)) (subs : subs_t) : run subs_t :=
    run_each (tl table) (fun g l => match g with c :: _ => fill_depth fuel 0 (Z.of_nat c) l | [] => Done l end) subs.
  (** src/subhalo_tracking.cpp:654-667 [GlobalizeTrackReferences]. *)
  Definition globalize_one (snap : Z) (all : subs_t) (s : sub X R) : option (sub X R) :=
    let track := fun i => option_map s_track (zget all i) in
    match (if s_snapsink s =? snap then option_map (fun t => set_sink t (s_snapsink s) s) (track (s_sink s)) else Some s),
          mapM track (s_nest s) with
    | Some s1, Some ts => Some (set_nest ts s1)
    | _, _ => None
    end.
  Definition globalize (snap : Z) (subs : subs_t) : option subs_t := mapM (globalize_one snap subs) subs.

  (** src/subhalo_tracking.cpp:843-861 [GlueHeadNests]: RootNestSize and the lengthened nests.  [heads.begin()+1] of an
      empty vector is undefined. *)
  Definition glue_one (group heads : list nat) (subs : subs_t) : option (subs_t * nat) :=
    match group with
    | [] => Some (subs, O)
    | c0 :: _ =>
        match nth_error subs c0, heads with
        | Some c, _ :: others =>
            match modify subs c0 (set_nest (s_nest c ++ map Z.of_nat others)) with
            | Some subs' => Some (subs', length (s_nest c))
            | None => None
            end
        | _, _ => None
        end
    end.
  Fixpoint glue (groups heads : list (list nat)) (subs : subs_t) : option (subs_t * list nat) :=
    match groups, heads with
    | [], _ => Some (subs, [])
    | g :: gr, h :: hr =>
        match glue_one g h subs with
        | None => None
        | Some (subs1, n) => match glue gr hr subs1 with Some (subs2, ns) => Some (subs2, n :: ns) | None => None end
        end
    | _ :: _, [] => None
    end.
  (** src/subhalo_tracking.cpp:863-874 [UnglueHeadNests]; std::vector::resize to the stored size pads with zeros. *)
  Definition unglue_one (group : list nat) (n : nat) (subs : subs_t) : option subs_t :=
    match group with
    | [] => Some subs
    | c0 :: _ =>
        match nth_error subs c0 with
        | Some c => modify subs c0 (set_nest (firstn n (s_nest c ++ repeat 0 n)))
        | None => None
        end
    end.
  Fixpoint unglue (groups : list (list nat)) (sizes : list nat) (subs : subs_t) : option subs_t :=
    match groups, sizes with
    | [], _ => Some subs
    | g :: gr, n :: nr => match unglue_one g n subs with Some subs1 => unglue gr nr subs1 | None => None end
    | _ :: _, [] => None
    end.
End Nest.
