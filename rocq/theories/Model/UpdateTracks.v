(** Model of the last part of a snapshot (src/subhalo_tracking.cpp:876-900). *)
From Coq Require Import List ZArith QArith Bool.
From Verif.Model Require Import ListMem Mpi Run Hash Subhalo Tracks Nest.
Import ListNotations.
Local Open Scope Z_scope.

Section Update.
  Context {X R : Type}.
  Local Notation subs_t := (list (sub X R)).
  (** src/subhalo_tracking.cpp:891-897: UpdateTrack and the global id of the host; [None] = HostHaloId out of range. *)
  Definition finish_one (snap : Z) (halo_ids : list Z) (s : sub X R) : option (sub X R) :=
    let s1 := update_track snap s in
    if s_host s1 <? 0 then Some (set_host (-1) s1)
    else match zget halo_ids (s_host s1) with Some h => Some (set_host h s1) | None => None end.
  (** src/subhalo_tracking.cpp:876-900 [UpdateTracks] after RegisterNewTracks on one process, up to and including
      GlobalizeTrackReferences: rebuilding and sorting the member lists, ExtendCentralNest, AssignRanks, FillDepth, history.
      The profile and shape calculations (901-906) are not part of it.  [order] is the order in which the threads treat the
      halos; [fuel] bounds the recursion depth. *)
  Definition update_tracks (sort : list nat -> list nat) (fuel : nat) (order : list nat) (snap : Z) (halo_ids : list Z)
      (heads : list (list nat)) (subs : subs_t) : run (subs_t * subs_t) :=
    rbind (of_opt (build_table sort true (length halo_ids) subs)) (fun table =>
    rbind (extend_nests fuel order table heads subs) (fun s1 =>
    rbind (of_opt (assign_ranks table s1)) (fun s2 =>
    rbind (fill_depths fuel table s2) (fun s3 =>
    rbind (of_opt (mapM (finish_one snap halo_ids) s3)) (fun s4 =>
    rbind (of_opt (globalize snap s4)) (fun s5 => Done (s3, s5))))))).
End Update.
