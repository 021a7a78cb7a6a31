(** C19: halos stored in pieces over many files are assembled exactly once. *)
From Coq Require Import List ZArith Bool Lia QArith Sorting.Permutation Sorting.Sorted.
From Verif.Model Require Import Mymath Mpi Apostle.
From Verif.Spec Require Import Apostle.
From Verif.Proofs Require Import ApostleProofs3.
Import ListNotations.
Local Open Scope Z_scope.

(** For any number of processes arranged in a grid, any files, any behaviour of the sorts within their contract, any mean
    positions of the pieces: loading ends without a crash, every group with a number in [0, NullGroupId) that has particles is
    on exactly one process, once, and holds exactly its particles; no other halo exists. *)
Theorem C19_assembled : forall (P X : Type) average position step d0 d1 d2 chunk sort_host sort_info sort_order sort_rank sort_halo W (files : list (list (Z * P))),
  0 < d0 -> 0 < d1 -> 0 < d2 -> Z.of_nat W = d0 * d1 * d2 -> (1 <= chunk)%nat ->
  sorts fst sort_host -> sorts (fun x => fst (snd x)) sort_info -> sorts (fun x => Z.of_nat (fst x)) sort_order -> sorts snd sort_rank -> sorts fst sort_halo ->
  (forall x, In x (concat files) -> fst x <= 2 ^ 30) ->
  exists out, load_groups P X average position step (d0, d1, d2) chunk sort_host sort_info sort_order sort_rank sort_halo W files = Some out /\
    length out = W /\ assembled (2 ^ 30) (concat files) out.
Proof. intros. apply load_ok; assumption. Qed.
Print Assumptions C19_assembled.

(** A group number above NullGroupId in any file fails the assertion of src/io/apostle_io.cpp:446. *)
Theorem C19_large_id_stops : forall (P X : Type) average position step d0 d1 d2 chunk sort_host sort_info sort_order sort_rank sort_halo W (files : list (list (Z * P))) x,
  0 < d0 -> 0 < d1 -> 0 < d2 -> Z.of_nat W = d0 * d1 * d2 -> sorts fst sort_host ->
  In x (concat files) -> 2 ^ 30 < fst x ->
  load_groups P X average position step (d0, d1, d2) chunk sort_host sort_info sort_order sort_rank sort_halo W files = None.
Proof. intros. eapply load_large; eassumption. Qed.
Print Assumptions C19_large_id_stops.

(** A sort for the examples. *)
Fixpoint insert {A} (key : A -> Z) (x : A) (l : list A) : list A :=
  match l with [] => [x] | y :: r => if key x <=? key y then x :: l else y :: insert key x r end.
Definition isort {A} (key : A -> Z) (l : list A) : list A := fold_right (insert key) [] l.
Lemma insert_perm {A} (key : A -> Z) x l : Permutation (insert key x l) (x :: l).
Proof. induction l as [|y r IH]; [reflexivity|]. cbn. destruct (key x <=? key y); [reflexivity|]. rewrite IH. apply perm_swap. Qed.
Lemma insert_sorted {A} (key : A -> Z) x l : StronglySorted (fun a b => key a <= key b) l -> StronglySorted (fun a b => key a <= key b) (insert key x l).
Proof.
  induction 1 as [|y r Hs IH HF]; [repeat constructor|]. cbn. destruct (Z.leb_spec (key x) (key y)).
  - constructor; [constructor; assumption|]. constructor; [assumption|]. rewrite Forall_forall in *. intros z Hz. specialize (HF z Hz). lia.
  - constructor; [exact IH|]. apply Forall_forall. intros z Hz. apply (Permutation_in _ (insert_perm key x r)) in Hz. rewrite Forall_forall in HF. destruct Hz as [<-|Hz]; [lia|apply HF, Hz].
Qed.
Lemma isort_sorts {A} (key : A -> Z) : sorts key (isort key).
Proof.
  intros l. induction l as [|x l [IH1 IH2]]; [split; [reflexivity|constructor]|]. cbn. split; [rewrite insert_perm; constructor; exact IH1|apply insert_sorted, IH2].
Qed.

(** Three processes in a row, four files, ids in several files; one unbound particle and one particle carrying NullGroupId. *)
Definition example_load (files : list (list (Z * Z))) :=
  load_groups Z nat (@length Z) (fun l => (inject_Z (Z.of_nat (fold_right plus 0%nat l)), 0, 0)%Q) (1, 1, 1)%Q (3, 1, 1) 2
    (isort fst) (isort (fun x => fst (snd x))) (isort (fun x => Z.of_nat (fst x))) (isort snd) (isort fst) 3 files.
Example C19_witness :
  let files := [[(5,1);(2,2);(5,3)]; [(-1,4);(7,5)]; [(2,6);(0,7)]; [(5,8);(1073741824,9);(0,10);(5,11)]] in
  example_load files = Some [[]; [(7, [5])]; [(0, [7; 10]); (2, [2; 6]); (5, [1; 3; 8; 11])]] /\
  (forall x, In x (concat files) -> fst x <= 2 ^ 30) /\ sorts fst (@isort (Z * Z) fst).
Proof.
  split; [vm_compute; reflexivity|]. split; [|apply isort_sorts].
  intros x Hx. cbn in Hx. repeat (destruct Hx as [<-|Hx]; [cbn; lia|]). destruct Hx.
Qed.

(** Finding: the statement fails for "every set of non-negative ids".  A group with the number [NullGroupId] is a legal
    non-negative number, but its particles are taken for particles outside groups and the group is on no process. *)
Theorem C19_null_id_refuted : exists (files : list (list (Z * Z))) id p out,
  0 <= id /\ In (id, p) (concat files) /\ example_load files = Some out /\ ~ exists ps, In (id, ps) (concat out).
Proof.
  exists [[(3, 1); (1073741824, 2)]], 1073741824, 2, [[]; [(3, [1])]; []]. split; [lia|]. split; [right; left; reflexivity|]. split; [vm_compute; reflexivity|].
  intros [ps [E|[]]]. injection E as E _. discriminate E.
Qed.
Print Assumptions C19_null_id_refuted.
