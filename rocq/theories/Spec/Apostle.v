(** What a loaded group catalogue must contain, stated without reference to how it is assembled. *)
From Coq Require Import List ZArith Sorting.Permutation Sorting.Sorted.
Import ListNotations.

(** What std::sort may return for a comparison of the keys: the same elements in increasing order of the key. *)
Definition sorts {A} (key : A -> Z) (sort : list A -> list A) : Prop :=
  forall l, Permutation (sort l) l /\ StronglySorted (fun a b => (key a <= key b)%Z) (sort l).

(** The particles of a catalogue [all] whose group number is [id]. *)
Definition members {P} (id : Z) (all : list (Z * P)) : list P := map snd (filter (fun x => Z.eqb (fst x) id) all).

(** [out] (one list of halos per process) is the catalogue of the groups with the numbers in [0, limit): every group with
    particles is on exactly one process, once, with exactly its particles; there is nothing else. *)
Definition assembled {P} (limit : Z) (all : list (Z * P)) (out : list (list (Z * list P))) : Prop :=
  NoDup (map fst (concat out)) /\
  (forall id ps, In (id, ps) (concat out) -> (0 <= id < limit)%Z /\ ps <> [] /\ Permutation ps (members id all)) /\
  (forall id p, In (id, p) all -> (0 <= id < limit)%Z -> exists ps, In (id, ps) (concat out)).
