(** Vocabulary for cursors moving over sorted lists and for redistribution into id ranges. *)
From Coq Require Import List ZArith Sorting.Sorted Sorting.Permutation.
Import ListNotations.

(** Elements at positions [a <= i < b]. *)
Definition between {A} (a b : nat) (l : list A) : list A := firstn (b - a) (skipn a l).

(** A process = (its list, its cursor).  [passed rs rs' x]: some process' cursor went over [x] between [rs] and [rs'].
    [ahead rs y]: [y] lies at or after some process' cursor. *)
Definition passed (rs rs' : list (list Z * nat)) (x : Z) : Prop :=
  exists i r r', nth_error rs i = Some r /\ nth_error rs' i = Some r' /\ In x (between (snd r) (snd r') (fst r)).
Definition ahead (rs : list (list Z * nat)) (y : Z) : Prop :=
  exists i r, nth_error rs i = Some r /\ In y (skipn (snd r) (fst r)).

(** Cursors only move forward, inside their lists. *)
Definition forward (r r' : list Z * nat) : Prop :=
  fst r' = fst r /\ (snd r <= snd r' <= length (fst r))%nat.

(** Number of elements not yet passed. *)
Fixpoint left_over (rs : list (list Z * nat)) : nat :=
  match rs with [] => O | r :: rest => ((length (fst r) - snd r) + left_over rest)%nat end.

(** Share of process [i] when [n] items are dealt to [W] processes: the first [n mod W] get one more. *)
Definition share (n W i : nat) : nat := n / W + (if i <? n mod W then 1 else 0).

(** What a redistribution of [parts] (one list of particles per process) into id ranges must achieve: nothing lost or
    duplicated, equal shares, each process sorted, processes ordered by id, and the published [ranges] locating every
    particle: it is on process [i] exactly when its id lies between entries [i] (included) and [i+1] (excluded). *)
Definition redistributed {P} (pid : P -> Z) (parts new : list (list P)) (ranges : list Z) : Prop :=
  length new = length parts /\
  Permutation (concat new) (concat parts) /\
  (forall i l, nth_error new i = Some l -> length l = share (length (concat parts)) (length parts) i) /\
  (forall i l, nth_error new i = Some l -> StronglySorted Z.lt (map pid l)) /\
  (forall i j l l' x y, nth_error new i = Some l -> nth_error new j = Some l' -> (i < j)%nat -> In x l -> In y l' ->
     (pid x < pid y)%Z) /\
  length ranges = S (length parts) /\
  (forall i l lo hi x, nth_error new i = Some l -> nth_error ranges i = Some lo -> nth_error ranges (S i) = Some hi ->
     In x (concat parts) -> (In x l <-> (lo <= pid x < hi)%Z)).
