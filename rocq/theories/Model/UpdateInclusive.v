(** Model of the last part of a snapshot in a build with INCLUSIVE_MASS (src/subhalo_tracking.cpp:876-900 with 885-887): the
    promotion of most bound particles of Purge.v between FillDepth and UpdateTrack. *)
From Coq Require Import List ZArith Bool.
From Verif.Model Require Import ListMem Mpi Run Hash Subhalo Tracks Nest UpdateTracks.
From Verif.Model Require Purge.
Import ListNotations.
Local Open Scope Z_scope.

Section Update.
  Context {X R : Type}.
  Local Notation subs_t := (list (sub X R)).
  (** src/subhalo_tracking.cpp:586-587: ComovingMostBoundPosition and PhysicalMostBoundVelocity become those of the particle;
      they are part of the members [R]. *)
  Variable promoted : Z * X -> R -> R.
  (** What Purge.v sees of a subhalo; instead of a position and a velocity, the particle they are taken from. *)
  Definition purge_view (s : sub X R) : Purge.sub (Z * X) (option (Z * X)) := Purge.mksub (Z.of_nat (s_nbound s)) (s_parts s) None None.
  Definition purge_back (su : sub X R * Purge.sub (Z * X) (option (Z * X))) : sub X R :=
    let (s, u) := su in
    set_rest (match Purge.u_pos u with Some p => promoted p (s_rest s) | None => s_rest s end) (set_parts (Purge.u_parts u) s).
  (** src/subhalo_tracking.cpp:562-594 [PurgeMostBoundParticles] on the groups in the order of the threads. *)
  Definition purge_subs (groups : list (list nat)) (subs : subs_t) : option subs_t :=
    match Purge.purge fst Some Some groups (map purge_view subs) with
    | Some us => Some (map purge_back (combine subs us))
    | None => None
    end.
  (** src/subhalo_tracking.cpp:876-900 [UpdateTracks] as in UpdateTracks.v, with 885-887.  [porder] is the order in which the
      threads treat the groups in PurgeMostBoundParticles: the positions in the member table, where 0 is the group -1. *)
  Definition update_tracks_inclusive (sort : list nat -> list nat) (fuel : nat) (order porder : list nat) (snap : Z) (halo_ids : list Z)
      (heads : list (list nat)) (subs : subs_t) : run (subs_t * subs_t) :=
    rbind (of_opt (build_table sort true (length halo_ids) subs)) (fun table =>
    rbind (extend_nests fuel order table heads subs) (fun s1 =>
    rbind (of_opt (assign_ranks table s1)) (fun s2 =>
    rbind (fill_depths fuel table s2) (fun s3 =>
    rbind (of_opt (mapM (nth_error table) porder)) (fun groups =>
    rbind (of_opt (purge_subs groups s3)) (fun s3' =>
    rbind (of_opt (mapM (finish_one snap halo_ids) s3')) (fun s4 =>
    rbind (of_opt (globalize snap s4)) (fun s5 => Done (s3', s5))))))))).
End Update.
