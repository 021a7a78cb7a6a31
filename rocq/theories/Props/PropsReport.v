(** Property C60: what the catalogue reports at the end of a snapshot. *)
From Coq Require Import List ZArith QArith Bool Lia Sorting.Permutation.
From Verif.Model Require Import ListMem Mpi Run Hash Subhalo Tracks Nest UpdateTracks.
From Verif.Spec Require Import Members Nesting NestHistory Reporting.
From Verif.Proofs Require Import ListMemProofs HistorySteps2 ReportProofs.
From Verif.Props Require Import PropsMembers PropsNest.
Import ListNotations.
Local Open Scope Z_scope.

(** C60: after every history, at the end of the snapshot every registered subhalo is reported, at its place, with the id of
    its host group (-1 without host), its own particles, bound count, mass, birth and death; with the track of the subhalo it
    sank into in this snapshot, an older sink unchanged; with the updated history; and with the tracks of its nested members. *)
Theorem C60_reported : forall (X R H : Type) (before : list (list (sub X R))) (ps : list (@proc X R H)) p sort order snap halo_ids ranked out,
  nest_history (H := H) before -> nest_begun before ps -> In p ps -> sorts_by_mass (p_reg p) sort -> length halo_ids = length (p_halos p) ->
  Permutation order (seq 0 (length halo_ids)) ->
  update_tracks sort (length (p_reg p)) order snap halo_ids (p_heads p) (p_reg p) = Done (ranked, out) ->
  Forall2 (reports snap halo_ids (p_reg p)) (p_reg p) out /\
  Forall2 (fun u o => s_rank o = s_rank u /\ s_depth o = s_depth u /\ Forall2 (names (p_reg p)) (s_nest u) (s_nest o)) ranked out.
Proof.
  intros X R H before ps p sort order snap ids ranked out HH HB Hp Hs HL Ho EU. destruct (reported before ps p HH HB Hp sort order snap ids ranked out Hs HL Ho EU) as (A & _ & B). split; assumption.
Qed.
Print Assumptions C60_reported.

(** Snapshot 2 of the run of C28 and snapshot 3, in which track 1 loses its host: ids 100, 101, ... of the groups. *)
Example C60_witness : nest_history (H := Q) (map p_out sim2) /\ nest_begun (map p_out sim2) sim3 /\
  option_map (fun p => (map s_host (p_reg p), done [] (rbind (update_tracks (mass_sort (p_reg p)) (length (p_reg p)) [0%nat] 3 [100] (p_heads p) (p_reg p)) (fun o => Done (map (fun s => (s_track s, s_host s, s_nest s, s_snapiso s)) (snd o)))))) (nth_error sim3 0) =
    Some ([0; -1; 0; -1; -1], [(0, 100, [], 1); (1, -1, [], 3); (2, 100, [0], 3); (3, -1, [], 3); (4, -1, [], 3)]).
Proof. split; [apply sim_history|]. split; [apply sim3_run|]. vm_compute. reflexivity. Qed.
