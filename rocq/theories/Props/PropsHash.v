(** Properties C09 and C10: id lookup tables. *)
From Coq Require Import List ZArith Bool Sorting.Permutation Sorting.Sorted.
From Verif.Spec Require Import Lookup.
From Verif.Model Require Import Hash.
From Verif.Proofs Require Import HashProofs.
Import ListNotations.
Local Open Scope Z_scope.

(** C09, sorted table: every outcome [table] of the (unstable) sort answers every query correctly. *)
Theorem C09_mapped_lookup (null : Z) (kv table : list (Z * Z)) (key : Z) :
  mapped_fill kv table -> Forall (fun p => 0 <= fst p) kv ->
  exists r, mapped_get null table key = Some r /\ lookup_result null kv key r.
Proof. exact (mapped_lookup null kv table key). Qed.
Print Assumptions C09_mapped_lookup.
(** Non-negative queries are also right when negative keys are present (as for new-born tracks). *)
Theorem C09_mapped_lookup_negative_keys (null : Z) (kv table : list (Z * Z)) (key : Z) :
  mapped_fill kv table -> 0 <= key ->
  exists r, mapped_get null table key = Some r /\ lookup_result null kv key r.
Proof. exact (mapped_lookup_nonneg null kv table key). Qed.
Print Assumptions C09_mapped_lookup_negative_keys.
(** C09, flat table: every order in which the parallel loop writes answers every query correctly. *)
Theorem C09_flat_lookup (null : Z) (kv order : list (Z * Z)) (key : Z) :
  Permutation order kv -> NoDup (map fst kv) ->
  exists t r, flat_fill null kv order = Some t /\ flat_get null t key = Some r /\ lookup_result null kv key r.
Proof. exact (flat_lookup null kv order key). Qed.
Print Assumptions C09_flat_lookup.
(** C09: both tables give the same answer, and it is the only right one. *)
Theorem C09_tables_agree (null : Z) (kv order table : list (Z * Z)) (key : Z) :
  Permutation order kv -> mapped_fill kv table -> NoDup (map fst kv) -> Forall (fun p => 0 <= fst p) kv ->
  exists t, flat_fill null kv order = Some t /\ mapped_get null table key = flat_get null t key.
Proof. exact (tables_agree null kv order table key). Qed.
Print Assumptions C09_tables_agree.
Theorem C09_answer_unique (null : Z) (kv : list (Z * Z)) (k r r' : Z) : NoDup (map fst kv) ->
  lookup_result null kv k r -> lookup_result null kv k r' -> r = r'.
Proof. exact (lookup_fun null kv k r r'). Qed.
Print Assumptions C09_answer_unique.
Example C09_witness : let kv := [(17, 0); (3, 1); (9, 2)] in
  mapped_fill kv [(3, 1); (9, 2); (17, 0)] /\ NoDup (map fst kv) /\ Forall (fun p => 0 <= fst p) kv /\
  mapped_get (-1) [(3, 1); (9, 2); (17, 0)] 17 = Some 0 /\ mapped_get (-1) [(3, 1); (9, 2); (17, 0)] 5 = Some (-1).
Proof.
  split; [split|split; [|split]].
  - apply perm_trans with [(3,1); (17,0); (9,2)].
    + apply perm_skip. apply perm_swap.
    + apply perm_swap.
  - repeat constructor; discriminate.
  - repeat constructor; simpl; intuition discriminate.
  - repeat constructor; discriminate.
  - split; reflexivity.
Qed.
(** Why the keys must be non-negative: with negative keys the two tables disagree. *)
Theorem C09_negative_keys_disagree_refuted : exists kv table t, mapped_fill kv table /\ NoDup (map fst kv) /\
  flat_fill (-1) kv kv = Some t /\ mapped_get (-1) table (-5) <> flat_get (-1) t (-5).
Proof.
  exists [(-5, 7)], [(-5, 7)], (mkflat 1 (-5) (-5) [7]).
  split; [split; [apply Permutation_refl|repeat constructor]|].
  split; [repeat constructor; simpl; tauto|]. split; [reflexivity|discriminate].
Qed.
Print Assumptions C09_negative_keys_disagree_refuted.

(** C10: the batch search on queries sorted by id gives, query by query, the single-lookup answer, and leaves the
    rest of each queried particle alone. *)
Theorem C10_batch_equals_single {X} (null : Z) (kv table : list (Z * Z)) (ps : list (Z * X)) :
  mapped_fill kv table -> NoDup (map fst kv) -> Forall (fun p => 0 <= fst p) kv -> sorted_by_key ps ->
  exists ps', mapped_get_indices null table ps = Some ps' /\
    Forall2 (fun p q => mapped_get null table (fst p) = Some (fst q) /\ snd q = snd p) ps ps'.
Proof. exact (mapped_batch_single null kv table ps). Qed.
Print Assumptions C10_batch_equals_single.
Theorem C10_batch_answers {X} (null : Z) (kv table : list (Z * Z)) (ps : list (Z * X)) :
  mapped_fill kv table -> NoDup (map fst kv) -> sorted_by_key ps ->
  exists ps', mapped_get_indices null table ps = Some ps' /\
    Forall2 (fun p q => lookup_result null kv (fst p) (fst q) /\ snd q = snd p) ps ps'.
Proof. exact (mapped_batch null kv table ps). Qed.
Print Assumptions C10_batch_answers.
Theorem C10_flat_batch {X} (null : Z) (kv order : list (Z * Z)) (ps : list (Z * X)) :
  Permutation order kv -> NoDup (map fst kv) ->
  exists t ps', flat_fill null kv order = Some t /\ flat_get_indices null t ps = Some ps' /\
    Forall2 (fun p q => flat_get null t (fst p) = Some (fst q) /\
       lookup_result null kv (fst p) (fst q) /\ snd q = snd p) ps ps'.
Proof. exact (flat_batch_single null kv order ps). Qed.
Print Assumptions C10_flat_batch.
Example C10_witness : mapped_get_indices (-1) [(3, 1); (9, 2); (17, 0)]
    [(0, 10); (3, 20); (3, 30); (9, 40); (11, 50); (17, 60); (99, 70)] =
  Some [(-1, 10); (1, 20); (1, 30); (2, 40); (-1, 50); (0, 60); (-1, 70)].
Proof. reflexivity. Qed.
