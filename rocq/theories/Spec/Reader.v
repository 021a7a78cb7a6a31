(** What a user of the Python reader expects. *)
From Coq Require Import List ZArith QArith.
Import ListNotations.

(** The files of a snapshot, numbered from 0. *)
Definition holds {F} (disk : Z -> option nat -> option F) (snap : Z) (fs : list F) : Prop := forall i, disk snap (Some i) = nth_error fs i.

(** Subhalo j is the smallest with several particles that has particle x; among equals the first. *)
Definition smallest_holder (parts : list (list Z)) (x : Z) (j : nat) : Prop :=
  exists p, nth_error parts j = Some p /\ (1 < length p)%nat /\ In x p /\
    forall k q, nth_error parts k = Some q -> (1 < length q)%nat -> In x q -> (length p < length q)%nat \/ length p = length q /\ (j <= k)%nat.

(** w is the smallest periodic image of a difference d. *)
Definition least_image (box d w : Q) : Prop :=
  (exists k : Z, w == d + inject_Z k * box)%Q /\ forall k : Z, (w * w <= (d + inject_Z k * box) * (d + inject_Z k * box))%Q.

(** The squared distance of x to the image of y that is moved by a number of boxes per axis. *)
Fixpoint image_distance2 (box : Q) (x y : list Q) (ks : list Z) : Q :=
  match x, y, ks with
  | a :: x', b :: y', k :: ks' => ((a - b + inject_Z k * box) * (a - b + inject_Z k * box) + image_distance2 box x' y' ks')%Q
  | _, _, _ => 0%Q
  end.
