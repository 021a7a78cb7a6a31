(** Vocabulary for host finding. *)
From Coq Require Import List ZArith Sorting.Permutation.
From Verif.Model Require Import Hash Subhalo Hosts.
Import ListNotations.
Local Open Scope nat_scope.

(** Particle [pid] is in halo [h] of process [r]; it is one of the particles of process [r]. *)
Definition in_halo (procs : list proc) (pid : Z) (r h : nat) : Prop :=
  exists p l, nth_error procs r = Some p /\ nth_error (pr_halos p) h = Some l /\ In pid l.
Definition held_by (procs : list proc) (pid : Z) (r : nat) : Prop := exists p, nth_error procs r = Some p /\ In pid (pr_ids p).
(** The tables are results of filling them. *)
Definition filled (p : proc) : Prop :=
  mapped_fill (halo_keys (pr_halos p)) (pr_htable p) /\
  match pr_ptable p with
  | PMapped t => mapped_fill (part_keys (pr_ids p)) t
  | PFlat t => exists order, Permutation order (part_keys (pr_ids p)) /\ flat_fill (-1) (part_keys (pr_ids p)) order = Some t
  end.
(** A process after loading: tables filled, ids not negative, no particle twice. *)
Definition ready (p : proc) : Prop :=
  filled p /\ Forall (fun id => 0 <= id)%Z (concat (pr_halos p)) /\ Forall (fun id => 0 <= id)%Z (pr_ids p) /\ NoDup (pr_ids p).
(** Process [r] is the right place for [s], and its host field is right. *)
Definition right_place {X R} (procs : list proc) (r : nat) (s : sub X R) : Prop :=
  match s_parts s with
  | [] => s_host s = (-1)%Z
  | q :: _ => (exists h, in_halo procs (fst q) r h /\ s_host s = Z.of_nat h) \/
              ((forall r' h, ~ in_halo procs (fst q) r' h) /\ held_by procs (fst q) r /\ s_host s = (-1)%Z)
  end.
(** The data of a subhalo except its host field. *)
Definition data {X R} (s : sub X R) : sub X R := set_host 0 s.
(** The most bound particle is in some halo or held by some process. *)
Definition known {X R} (procs : list proc) (s : sub X R) : Prop :=
  match s_parts s with [] => True | q :: _ => exists r, (exists h, in_halo procs (fst q) r h) \/ held_by procs (fst q) r end.
