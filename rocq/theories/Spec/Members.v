(** Vocabulary for the membership table and the centrals. *)
From Coq Require Import List ZArith QArith Sorting.Permutation Sorting.Sorted.
From Verif.Model Require Import Subhalo.
Import ListNotations.
Local Open Scope nat_scope.

Section Spec.
  Context {X R H : Type}.
  Variable subs : list (sub X R).
  (** Subhalo [i] is hosted by halo [host] (-1 = field). *)
  Definition hosted_by (i : nat) (host : Z) : Prop := exists s, nth_error subs i = Some s /\ s_host s = host.
  Definition heavier (i j : nat) : Prop :=
    forall a b, nth_error subs i = Some a -> nth_error subs j = Some b -> (s_mass b <= s_mass a)%Q.
  (** What the standard guarantees of sorting subhalo indices by decreasing mass. *)
  Definition sorts_by_mass (sort : list nat -> list nat) : Prop :=
    forall l, Permutation l (sort l) /\ ((forall i, In i l -> i < length subs) -> StronglySorted heavier (sort l)).
  (** [c] is the best massive member of the group of [host]: heavy enough compared to every member, and no heavy enough
      member is closer. *)
  Definition best_member (ratio : Q) (dist : sub X R -> Q) (host : Z) (c : nat) : Prop :=
    exists sc, nth_error subs c = Some sc /\ s_host sc = host /\
    exists top, (exists t, hosted_by t host /\ nth_error subs t = Some top) /\
      (forall i s, nth_error subs i = Some s -> s_host s = host -> (s_mass s <= s_mass top)%Q) /\
      (s_mass top * ratio <= s_mass sc)%Q /\
      (forall i s, nth_error subs i = Some s -> s_host s = host -> (s_mass top * ratio <= s_mass s)%Q -> (dist sc <= dist s)%Q).
End Spec.
