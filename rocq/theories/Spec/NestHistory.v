(** Whole runs, as far as nesting is concerned. *)
From Coq Require Import List ZArith QArith Sorting.Permutation.
From Verif.Model Require Import ListMem Mpi Run Hash Subhalo Tracks Nest UpdateTracks.
From Verif.Spec Require Import Members.
Import ListNotations.
Local Open Scope Z_scope.

Section Hist.
  Context {X R H : Type}.
  Local Notation subs_t := (list (sub X R)).
  Definition nesting_of (s : sub X R) : Z * Z * list Z := (s_track s, s_rank s, s_nest s).
  (** One process during one snapshot: its subhalos after host finding; the halos, the member table and the subhalos after
      FeedCentrals; the table of TrackHash; the subhalos after LocalizeNestedIds and after NestSubhalos with the lists of
      heads; the subhalos after masking, unbinding and merging, and after registration; the subhalos after FillDepth and
      at the end of UpdateTracks. *)
  Record proc := mkproc {
    p_moved : subs_t; p_halos : list (list (Z * X) * H); p_table : list (list nat); p_fed : subs_t; p_hash : list (Z * Z);
    p_local : subs_t; p_nested : subs_t; p_heads : list (list nat); p_work : subs_t; p_reg : subs_t; p_ranked : subs_t;
    p_out : subs_t }.
  (** Host finding gave every subhalo a host known to its process or none; hosted subhalos have particles. *)
  Definition hosts_found (p : proc) : Prop :=
    Forall (fun s => -1 <= s_host s < Z.of_nat (length (p_halos p))) (p_moved p) /\
    Forall (fun s => (0 <= s_mass s)%Q) (p_moved p) /\
    Forall (fun s => 0 <= s_host s -> s_parts s <> []) (p_moved p).
  Definition prepared (p : proc) : Prop := exists sort ratio dist centre snap fresh order st,
    sorts_by_mass (p_moved p) sort /\ (ratio <= 1)%Q /\ Permutation order (seq 0 (length (p_halos p))) /\
    centrals_step sort ratio dist centre snap fresh order (p_moved p) (p_halos p) = Some (p_table p, st) /\ p_fed p = f_subs st.
  Definition nested (p : proc) : Prop := exists order, Permutation order (seq 0 (length (p_local p))) /\
    nest_local (length (p_local p)) order (p_table p) (p_local p) = Done (p_nested p, p_heads p).
  (** Masking, unbinding and merging change neither tracks nor ranks, nests or hosts. *)
  Definition worked (p : proc) : Prop :=
    Forall2 (fun a b => nesting_of a = nesting_of b /\ s_host a = s_host b) (p_nested p) (p_work p).
  Definition finished (p : proc) : Prop := exists sort order snap halo_ids,
    sorts_by_mass (p_reg p) sort /\ length halo_ids = length (p_halos p) /\ Permutation order (seq 0 (length halo_ids)) /\
    update_tracks sort (length (p_reg p)) order snap halo_ids (p_heads p) (p_reg p) = Done (p_ranked p, p_out p).
  (** One snapshot on all processes, from the subhalos at the end of the previous snapshot: they are redistributed in any way
      (also over another number of processes) and get any hosts.  [nest_fed]: up to PrepareCentrals; [nest_begun]: up to
      RegisterNewTracks. *)
  Definition nest_fed (before : list subs_t) (ps : list proc) : Prop :=
    Permutation (map nesting_of (concat before)) (map nesting_of (concat (map p_moved ps))) /\
    Forall hosts_found ps /\ Forall prepared ps /\
    Forall (fun p => mapped_fill (track_keys (p_fed p)) (p_hash p)) ps.
  Definition nest_begun (before : list subs_t) (ps : list proc) : Prop :=
    nest_fed before ps /\
    localize (map (fun p => (p_hash p, p_fed p)) ps) = Some (map p_local ps) /\
    Forall nested ps /\ Forall worked ps /\
    register (map (fun p => (p_work p, count_empty (p_table p))) ps) = Some (map p_reg ps).
  Definition nest_run (before : list subs_t) (ps : list proc) : Prop := nest_begun before ps /\ Forall finished ps.
  (** States reached by whole runs from empty subhalo lists. *)
  Inductive nest_history : list subs_t -> Prop :=
  | nest_start W : nest_history (repeat [] W)
  | nest_step before ps : nest_history before -> nest_run before ps -> nest_history (map p_out ps).
End Hist.
