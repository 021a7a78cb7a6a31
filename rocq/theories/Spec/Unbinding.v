(** What unbinding a subhalo does. *)
From Coq Require Import List ZArith QArith Bool Sorting.Permutation Sorting.Sorted.
From Verif.Model Require Import ListMem Subhalo.
Import ListNotations.
Local Open Scope nat_scope.

(** [ascending lt f l]: no element of [l] is below an earlier one. *)
Definition ascending {A E} (lt : E -> E -> bool) (f : A -> E) (l : list A) : Prop := StronglySorted (fun a b => lt (f b) (f a) = false) l.

Section Unbinding.
  Context {X R E : Type}.
  Local Notation entry := (nat * E)%type.
  Variables neg pos : E -> bool.
  Variable lt : E -> E -> bool.
  Variable energy : list (Z * X) * R -> nat -> list entry -> nat -> E.
  Variable inner : list (Z * X) * R -> list entry -> nat -> E.
  Variable no_energy : E.
  Variables (min_part : nat) (converged : nat -> nat -> bool) (max_sample : nat) (refine : bool) (snap : Z).

  (** Round [k], of the first [n] entries of [l], finds [bound] bound and [unbound] not. *)
  Definition cut (w : list (Z * X) * R) (k : nat) (l : list entry) (n : nat) (bound unbound : list entry) : Prop :=
    (exists ev, length ev = n /\ (forall i e, i < n -> nth_error l i = Some e -> nth_error ev i = Some (fst e, energy w k l i)) /\ Permutation (bound ++ unbound) ev) /\
    Forall (fun e => pos (snd e) = false) bound /\ Forall (fun e => neg (snd e) = false) unbound.
  Definition enough (n nb : nat) : Prop := converged n nb = true.
  (** [rounds w k l n]: the state before round [k]: entries [l], of which the first [n] are not yet found unbound. *)
  Inductive rounds (w : list (Z * X) * R) : nat -> list entry -> nat -> Prop :=
  | rounds_start : rounds w 0 (map (fun i => (i, no_energy)) (seq 0 (length (fst w)))) (length (fst w))
  | rounds_next k l n a b : rounds w k l n -> cut w k l n a b -> min_part <= length a -> ~ enough n (length a) -> rounds w (S k) (a ++ b ++ skipn n l) (length a).

  (** [core] is [a] in its final order, given what follows it. *)
  Definition final_order (w : list (Z * X) * R) (a after core : list entry) : Prop :=
    exists sorted, Permutation sorted a /\ ascending lt snd sorted /\
      (if (0 <? max_sample) && refine && (max_sample <? length a) then
         exists idx c1, Permutation idx (seq 0 max_sample) /\ ascending lt (inner w (sorted ++ after)) idx /\
           Forall2 (fun i e => nth_error sorted i = Some e) idx c1 /\ core = c1 ++ skipn max_sample sorted
       else core = sorted).
  (** The subhalo [s] was found bound and is now [s']; [parts]: its particles in the order used while unbinding. *)
  Definition bound_by (s s' : sub X R) : Prop :=
    exists parts k l n a b core, Permutation parts (s_parts s) /\ ((max_sample = 0 \/ length parts <= max_sample) -> parts = s_parts s) /\
      let w := (parts, s_rest s) in
      rounds w k l n /\ cut w k l n a b /\ min_part <= length a /\ enough n (length a) /\ final_order w a (b ++ skipn n l) core /\
      s_nbound s' = length a /\ Forall2 (fun e p => nth_error parts (fst e) = Some p) (core ++ b ++ skipn n l) (s_parts s').
  (** In some round fewer than the minimum were found bound. *)
  Definition disrupted (s : sub X R) : Prop :=
    exists parts k l n a b, Permutation parts (s_parts s) /\ rounds (parts, s_rest s) k l n /\ cut (parts, s_rest s) k l n a b /\ length a < min_part.

  Definition same_otherwise (s s' : sub X R) : Prop :=
    s' = set_rest (s_rest s') (set_mass (s_mass s') (set_nbound (s_nbound s') (set_parts (s_parts s') (set_death (s_death s') (set_sink (s_sink s') (s_snapsink s') s))))).
  (** The two ways in which unbinding ends. *)
  Record found_bound (s s' : sub X R) : Prop := {
    fb_min : length (s_parts s) >= min_part; fb_by : bound_by s s'; fb_alive : s_death s' = (-1)%Z;
    fb_sink : s_sink s' = (-1)%Z /\ s_snapsink s' = if Z.eqb (s_sink s) (-1) then s_snapsink s else (-1)%Z }.
  Record found_lost (s s' : sub X R) : Prop := {
    fl_why : length (s_parts s) < min_part \/ disrupted s; fl_nbound : s_nbound s' = Nat.min 1 (length (s_parts s));
    fl_front : forall p r, s_parts s = p :: r -> exists p' r', s_parts s' = p' :: r' /\ fst p' = fst p;
    fl_dead : s_death s' = if Z.eqb (s_death s) (-1) then snap else s_death s;
    fl_sink : s_sink s' = s_sink s /\ s_snapsink s' = s_snapsink s }.
  Variable pmass : Z * X -> Q.
  (** All that unbinding does to a subhalo. *)
  Definition unbinding (s s' : sub X R) : Prop :=
    same_otherwise s s' /\ Permutation (s_parts s') (s_parts s) /\ s_nbound s' <= length (s_parts s') /\
    s_mass s' = fold_right (fun p q => (pmass p + q)%Q) 0%Q (firstn (s_nbound s') (s_parts s')) /\ (found_bound s s' \/ found_lost s s').
  (** The subhalo [i] was unbound after it received the leftovers of the subhalos [children]; one of at most one bound
      particle only passes them on. *)
  Definition leftover (subs : list (sub X R)) (i : Z) : list (Z * X) := match zget subs i with Some s => skipn (s_nbound s) (s_parts s) | None => [] end.
  Definition bound_parts (subs : list (sub X R)) (i : Z) : list (Z * X) := match zget subs i with Some s => firstn (s_nbound s) (s_parts s) | None => [] end.
  Definition held_by (subs : list (sub X R)) (i : Z) : list (Z * X) := match zget subs i with Some s => s_parts s | None => [] end.
  Definition stripped (subs' : list (sub X R)) (i : Z) (s : sub X R) (children : list Z) : Prop :=
    let given := flat_map (leftover subs') children in
    exists u, if s_nbound s <=? 1 then unbinding s u /\ zget subs' i = Some (set_parts (s_parts s ++ given) u)
              else unbinding (set_parts (s_parts s ++ given) s) u /\ zget subs' i = Some u.
End Unbinding.

(** Lives of a subhalo: it starts alive; it is unbound any number of times, or merged into another one; in between its
    other properties may change in any way, and it may be marked as sinking. *)
Section Life.
  Context {X R : Type}.
  Variable unbind : Z -> sub X R -> sub X R -> Prop.
  Inductive life : list (Z * sub X R) -> sub X R -> Prop :=
  | life_start s : s_death s = (-1)%Z -> life [] s
  | life_unbind h s (s0 : sub X R) snap s' : life h s -> s_death s0 = s_death s -> (0 <= snap)%Z -> unbind snap s0 s' -> life (h ++ [(snap, s')]) s'
  | life_merge h s (s0 : sub X R) snap (s' : sub X R) : life h s -> s_death s0 = s_death s -> (0 <= snap)%Z -> s_death s0 = (-1)%Z -> s_death s' = snap -> s_nbound s' = 1 -> life (h ++ [(snap, s')]) s'.
End Life.
