(** Model of the loops over the nest of every host halo and of the masking of source particles
    (src/subhalo_tracking.cpp:793-841, src/subhalo_unbind.cpp:476-492). *)
From Coq Require Import List ZArith Bool.
From Verif.Model Require Import ListMem Mpi Run Subhalo Nest.
Import ListNotations.
Local Open Scope Z_scope.

Section Halos.
  Context {X R : Type}.
  Local Notation subs_t := (list (sub X R)).
  (** The part that src/subhalo_tracking.cpp:829-839 and src/subhalo_unbind.cpp:480-491 have in common: the other heads are
      appended to the nest of the central, [body] is called on the central, the nest is cut to its old length.  An empty
      group is skipped. *)
  Definition halo_work (body : Z -> subs_t -> run subs_t) (group heads : list nat) (subs : subs_t) : run subs_t :=
    match group with
    | [] => Done subs
    | c :: _ =>
        match glue_one group heads subs with
        | None => Crash
        | Some (subs1, n) => rbind (body (Z.of_nat c) subs1) (fun subs2 => of_opt (unglue_one group n subs2))
        end
    end.
  (** All halos, in the order [order] in which the threads treat them. *)
  Definition over_halos (body : Z -> subs_t -> run subs_t) (order : list nat) (groups heads : list (list nat)) (subs : subs_t) : run subs_t :=
    run_each order (fun h l => match nth_error groups h, nth_error heads h with
                               | Some g, Some hs => halo_work body g hs l
                               | _, _ => Crash
                               end) subs.

  (** src/subhalo_tracking.cpp:811-821: particles whose insertion into the set fails are dropped, the others are moved to
      the front in order.  The unordered_set is a list without order; the in-place compaction is written as a new list. *)
  Fixpoint mask_parts (excl : list Z) (parts : list (Z * X)) : list Z * list (Z * X) :=
    match parts with
    | [] => (excl, [])
    | p :: r =>
        if existsb (Z.eqb (fst p)) excl then mask_parts excl r
        else let (excl', kept) := mask_parts (fst p :: excl) r in (excl', p :: kept)
    end.
  (** src/subhalo_tracking.cpp:802-822 [SubhaloMasker_t::Mask]; [fuel] bounds the recursion depth. *)
  Fixpoint mask (fuel : nat) (p : Z) (st : list Z * subs_t) : run (list Z * subs_t) :=
    match fuel with
    | O => Running
    | S f =>
        match zget (snd st) p with
        | None => Crash
        | Some s =>
            rbind (run_each (s_nest s) (mask f) st) (fun st1 =>
            match zget (snd st1) p with
            | None => Crash
            | Some s1 =>
                if (s_nbound s1 <=? 1)%nat then Done st1
                else let (excl, kept) := mask_parts (fst st1) (s_parts s1) in
                     rbind (of_opt (zmodify (snd st1) p (set_parts kept))) (fun subs2 => Done (excl, subs2))
            end)
        end
    end.
  (** src/subhalo_tracking.cpp:824-841 [MaskSubhalos]: a new set for every halo. *)
  Definition mask_halos (fuel : nat) (order : list nat) (groups heads : list (list nat)) (subs : subs_t) : run subs_t :=
    over_halos (fun c l => rbind (mask fuel c ([], l)) (fun st => Done (snd st))) order groups heads subs.
End Halos.
