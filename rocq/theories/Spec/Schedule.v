(** The same program with other threads. *)
From Coq Require Import List ZArith Sorting.Permutation.
From Verif.Model Require Import Program.

Section Schedule.
  Context {X R S E : Type}.
  Variable g : setup X R S E.
  (** The orders in which the threads of a process treat the elements of the parallel loops, and of the loop that fills a table. *)
  Variable sch : Z -> nat -> nat -> list nat -> list nat.
  Variable keys : Z -> nat -> list (Z * Z) -> list (Z * Z).
  (** [g] in every other respect. *)
  Definition reschedule : setup X R S E :=
    mksetup X R S E (g_chunk g) (g_host_chunk g) (g_need_hash g) (g_full g) (g_merge g) (g_refine g) (g_strip g) (g_inclusive g) (g_ratio g)
      (g_converged g) (g_allowed g) (g_box g) (g_min_part g) (g_max_sample g) (g_min_snapshot g) (g_sort_parts g)
      (g_sort_local g) (g_sort_roam g) (g_sort_rank g) (g_sort_keys g) (g_sort_mass g) (g_sorter g) sch keys (g_root g)
      (g_position g) (g_average g) (g_halo_id g) (g_dist g) (g_centre g) (g_fresh g) (g_neg g) (g_pos g) (g_no_energy g)
      (g_energy g) (g_inner g) (g_rest_of g) (g_shuffle g) (g_near g) (g_pmass g) (g_mean g) (g_promoted g) (g_report g)
      (g_mbid g) (g_snapid g) (g_junk g) (g_loaded g) (g_groups g).
  (** Every element is treated once; the centrals (loop 0, where new subhalos are appended) are fed in the order of [g]. *)
  Record only_order : Prop := {
    oo_loops : forall snap k site l, Permutation (sch snap k site l) l;
    oo_keys : forall snap k l, Permutation (keys snap k l) l;
    oo_births : forall snap k l, sch snap k 0 l = g_sched g snap k 0 l }.
End Schedule.
