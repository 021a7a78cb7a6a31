(** Model of the work on the subhalos of a process between nesting and registration (HBT.cpp:71-78 with
    src/subhalo_tracking.cpp:530-532, 824-841 [MaskSubhalos], src/subhalo_unbind.cpp:460-516 [RefineParticles] and
    src/subhalo_merge.cpp:187-220 [MergeSubhalos]).  src/subhalo_unbind.cpp and src/subhalo_merge.cpp call the same
    [Unbind] and [TruncateSource]. *)
From Coq Require Import List ZArith QArith.
From Verif.Model Require Import ListMem Mpi Run Subhalo Nest Mask Unbind Merge.
Import ListNotations.

Section Any.
  Context {X R : Type}.
  Variable unbind : sub X R -> run (sub X R).
  Variable truncate : sub X R -> sub X R.
  Variable pmass : Z * X -> Q.
  Variable snap : Z.
  Variable near : nat * list (Z * X) * R -> nat * list (Z * X) * R -> bool.
  Variable merge_trapped : bool.

  (** HBT.cpp:71-78; the orders in which the threads treat halos and subhalos in the parallel loops of the three steps. *)
  Definition work_with (fuel : nat) (oh oh2 os o1 o2 o3 o4 : list nat) (table heads : list (list nat)) (subs : list (sub X R)) : run (list (sub X R)) :=
    rbind (mask_halos fuel oh (tl table) heads subs) (fun a =>
    rbind (refine_with unbind truncate fuel oh2 os table heads a) (fun b =>
    merge_subhalos near pmass snap unbind truncate merge_trapped fuel o1 o2 o3 o4 table heads b)).
End Any.

Section Work.
  Context {X R E : Type}.
  Variables neg pos : E -> bool.
  Variable sorter : sort_site -> list (nat * E) -> list (nat * E).
  Variable shuffle : list (Z * X) -> list (Z * X).
  Variable energy : list (Z * X) * R -> nat -> list (nat * E) -> nat -> E.
  Variable inner : list (Z * X) * R -> list (nat * E) -> nat -> E.
  Variable no_energy : E.
  Variable rest_of : list (Z * X) -> nat -> R -> R.
  Variable pmass : Z * X -> Q.
  Variables (min_part : nat) (converged : nat -> nat -> bool) (max_sample : nat) (refine : bool) (allowed : nat -> nat) (snap : Z).
  Variable near : nat * list (Z * X) * R -> nat * list (Z * X) * R -> bool.
  Variable merge_trapped : bool.
  Local Notation unbind := (unbind neg pos sorter shuffle energy inner no_energy rest_of pmass min_part converged max_sample refine snap).
  (** The work of a build with stripping and exclusive masses. *)
  Definition work : nat -> list nat -> list nat -> list nat -> list nat -> list nat -> list nat -> list nat -> list (list nat) -> list (list nat) -> list (sub X R) -> run (list (sub X R)) :=
    work_with unbind (truncate allowed) pmass snap near merge_trapped.
End Work.
