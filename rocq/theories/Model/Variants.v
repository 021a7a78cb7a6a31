(** Model of the builds NO_STRIPPING and INCLUSIVE_MASS. *)
From Coq Require Import List ZArith QArith Bool.
From Verif.Model Require Import ListMem Mpi Run Subhalo Nest Mask Unbind Merge.
Import ListNotations.
Local Open Scope nat_scope.

(** ** NO_STRIPPING (Makefile:21, target HBT.nostrip) *)
Section Keep.
  Context {X R E : Type}.
  Local Notation entry := (nat * E)%type.
  Variables neg pos : E -> bool.
  Variable sorter : sort_site -> list entry -> list entry.
  Variable shuffle : list (Z * X) -> list (Z * X).
  Variable energy : list (Z * X) * R -> nat -> list entry -> nat -> E.
  Variable inner : list (Z * X) * R -> list entry -> nat -> E.
  Variable no_energy : E.
  Variable rest_of : list (Z * X) -> nat -> R -> R.
  Variable pmass : Z * X -> Q.
  Variables (min_part : nat) (converged : nat -> nat -> bool) (max_sample : nat) (refine : bool) (snap : Z).

  (** src/subhalo_unbind.cpp:300-416 with 358-360: the entries are partitioned, but all stay bound. *)
  Fixpoint keep_loop (fuel : nat) (w : list (Z * X) * R) (k : nat) (corr : bool) (l : list entry) (last nb : nat) : run ending :=
    match fuel with
    | O => Running
    | S n =>
        if (if corr then last =? nb else nb =? 0) then Crash else
        rbind (partition_energy neg pos (evaluate energy w k nb l) nb) (fun r =>
        let l1 := fst r in
        if nb <? min_part then Done (Disrupted l1)
        else
          let l2 := firstn nb l1 ++ sorter SortUnbound (firstn (nb - nb) (skipn nb l1)) ++ skipn nb l1 in
          let corr1 := corr || ((nb - nb <? nb) && ((max_sample =? 0) || (nb - nb <? max_sample))) in
          if converged nb nb then
            let l3 := sorter SortBound (firstn nb l2) ++ skipn nb l2 in
            rbind (of_opt (if (0 <? max_sample) && refine && (max_sample <? nb) then refine_order sorter inner w max_sample l3 else Some l3))
              (fun l4 => Done (Converged l4 nb))
          else keep_loop n w (S k) corr1 l2 nb nb)
    end.
  (** src/subhalo_unbind.cpp:263-431 [Subhalo_t::Unbind] of a build with [strip] or without. *)
  Definition unbind_of (strip : bool) : sub X R -> run (sub X R) :=
    unbind_by shuffle no_energy rest_of pmass min_part max_sample snap
      (if strip then unbind_loop neg pos sorter energy inner min_part converged max_sample refine else keep_loop).
End Keep.

(** ** INCLUSIVE_MASS *)
Section Inclusive.
  Context {X R : Type}.
  Local Notation subs_t := (list (sub X R)).
  Variable unbind : sub X R -> run (sub X R).
  Variable truncate : sub X R -> sub X R.
  Variable near : nat * list (Z * X) * R -> nat * list (Z * X) * R -> bool.
  Variable pmass : Z * X -> Q.
  Variable snap : Z.
  Variable merge_trapped : bool.

  (** src/subhalo_unbind.cpp:470-476 [RefineParticles]: every subhalo by itself, in the order of the threads. *)
  Definition refine_inclusive (order : list nat) (subs : subs_t) : run subs_t :=
    run_each order (fun i l => match nth_error l i with
                               | None => Crash
                               | Some s => rbind (unbind s) (fun s' => of_opt (upd l i (truncate s')))
                               end) subs.
  (** src/subhalo_merge.cpp:244-262 [MergeTo]: the host is not touched. *)
  Definition merge_to_inclusive (sat : sub X R) : option (sub X R) :=
    if s_nbound sat <=? 1 then Some sat else
    match s_parts sat with
    | [] => None
    | p :: _ => Some (set_mass (mass_sum pmass [p]) (set_nbound 1 (set_parts [p] sat)))
    end.
  (** src/subhalo_merge.cpp:227-231; a reference to a sink that does not exist is undefined. *)
  Definition merge_at_inclusive (p : Z) (subs : subs_t) : run subs_t :=
    match zget subs p with
    | None => Crash
    | Some s =>
        if trapped s && alive s then
          match zget subs (s_sink s), merge_to_inclusive s with
          | Some _, Some s' => of_opt (zupd subs p (set_death snap s'))
          | _, _ => Crash
          end
        else Done subs
    end.
  (** src/subhalo_merge.cpp:222-232 [MergeRecursive]; [fuel] bounds the recursion depth. *)
  Fixpoint merge_rec_inclusive (fuel : nat) (p : Z) (subs : subs_t) : run subs_t :=
    match fuel with
    | O => Running
    | S f =>
        match zget subs p with
        | None => Crash
        | Some s => rbind (run_each (s_nest s) (merge_rec_inclusive f) subs) (merge_at_inclusive p)
        end
    end.
  (** src/subhalo_merge.cpp:187-220 [MergeSubhalos]; the orders of the four parallel loops. *)
  Definition merge_inclusive (fuel : nat) (o1 o2 o3 o4 : list nat) (table heads : list (list nat)) (subs : subs_t) : run subs_t :=
    match glue (tl table) heads subs with
    | None => Crash
    | Some (glued, sizes) =>
        rbind (detect_traps near snap fuel o1 o2 glued) (fun dm =>
        rbind (if merge_trapped then
                 rbind (run_each o3 (fun h l => match nth_error (tl table) h with
                                                | None => Crash
                                                | Some [] => Done l
                                                | Some (c :: _) => merge_rec_inclusive fuel (Z.of_nat c) l
                                                end) (fst dm)) (unbind_merged unbind truncate o4 (snd dm))
               else Done (fst dm))
          (fun subs2 => of_opt (unglue (tl table) sizes subs2)))
    end.
  (** HBT.cpp:71-78 with src/subhalo_tracking.cpp:530-532: without masking. *)
  Definition work_inclusive (fuel : nat) (os o1 o2 o3 o4 : list nat) (table heads : list (list nat)) (subs : subs_t) : run subs_t :=
    rbind (refine_inclusive os subs) (merge_inclusive fuel o1 o2 o3 o4 table heads).
End Inclusive.
