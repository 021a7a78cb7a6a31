(** What a file with all subhalos of a snapshot should hold. *)
From Coq Require Import List ZArith Sorting.Sorted Sorting.Permutation.
From Verif.Model Require Import Subhalo Combine.
Import ListNotations.

Section Combine.
  Context {X R : Type}.
  (** The indices are put in an order in which the tracks do not decrease. *)
  Definition sorts_tracks (argsort : list (sub X R) -> list nat) : Prop := forall l,
    Permutation (argsort l) (seq 0 (length l)) /\
    StronglySorted (fun i j => forall s t, nth_error l i = Some s -> nth_error l j = Some t -> (s_track s <= s_track t)%Z) (argsort l).
  (** Row [t] of every dataset belongs to the subhalo with track [t]: its members outside the vectors, the ids of its bound
      particles and its nest. *)
  Record row_of (out : combined X R) (s : sub X R) : Prop := {
    ro_track : (0 <= s_track s)%Z;
    ro_sub : nth_error (c_subs out) (Z.to_nat (s_track s)) = Some (set_parts [] (set_nest [] s));
    ro_ids : nth_error (c_ids out) (Z.to_nat (s_track s)) = Some (map fst (firstn (s_nbound s) (s_parts s)));
    ro_nest : nth_error (c_nests out) (Z.to_nat (s_track s)) = Some (s_nest s) }.
  (** All subhalos of the catalogue, and no other rows. *)
  Definition combines (cat : list (list (sub X R))) (out : combined X R) : Prop :=
    Forall (row_of out) (concat cat) /\ length (c_subs out) = length (concat cat) /\
    length (c_ids out) = length (concat cat) /\ length (c_nests out) = length (concat cat).
End Combine.
