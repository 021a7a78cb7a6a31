(** Vocabulary for updating particle lists from a distributed snapshot. *)
From Coq Require Import List ZArith Sorting.Sorted.
Import ListNotations.
Local Open Scope Z_scope.

(** The published [ranges] locate every particle of the snapshot ([parts]: one list per process): it is on process [i]
    exactly when its id lies between entries [i] (included) and [i+1] (excluded). *)
Definition located {X} (ranges : list Z) (parts : list (list (Z * X))) : Prop :=
  length ranges = S (length parts) /\ StronglySorted Z.le ranges /\
  forall i l lo hi x, nth_error parts i = Some l -> nth_error ranges i = Some lo -> nth_error ranges (S i) = Some hi ->
    In x (concat parts) -> (In x l <-> lo <= fst x < hi).

(** The record with the given id, anywhere in the snapshot. *)
Definition record_of {X} (parts : list (list (Z * X))) (id : Z) : option (Z * X) :=
  find (fun s => fst s =? id) (concat parts).

(** A particle after the update: its snapshot record, or marked with the null id when it has none. *)
Definition refreshed {X} (null : Z) (parts : list (list (Z * X))) (p : Z * X) : Z * X :=
  match record_of parts (fst p) with Some s => s | None => (null, snd p) end.
(** The same with ids below the first range left as they are (they are never sent to anyone). *)
Definition refreshed_above {X} (null lo : Z) (parts : list (list (Z * X))) (p : Z * X) : Z * X :=
  if fst p <? lo then p else refreshed null parts p.
