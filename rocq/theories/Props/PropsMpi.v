(** Properties of the communication wrappers: C13, C14, C15. *)
From Coq Require Import List ZArith Ascii Lia.
From Verif.Model Require Import Mpi.
From Verif.Spec Require Import Comm.
From Verif.Proofs Require Import MpiProofs.
Import ListNotations.
Local Open Scope nat_scope.

(** C13: for any number of processes, any counts and any chunk size, the chunked exchange finishes without touching
    memory outside its buffers, and the sequence stored by process [r] for source [s] is exactly the first
    [counts s r] elements process [s] offered to [r], in order. *)
Theorem C13_all_to_all_delivers : forall (A : Type) chunk W (data : list (list (list A))) counts,
  1 <= chunk -> well_formed W data counts ->
  exists outs, my_all_to_all chunk data counts = Some outs /\ square W outs /\
    forall s r xs c, cell data s r = Some xs -> cell counts s r = Some c -> cell outs r s = Some (firstn c xs).
Proof. exact @all_to_all_correct. Qed.
Print Assumptions C13_all_to_all_delivers.

(** Three processes, chunk of 2 so that several rounds are needed, a remainder and an empty pair. *)
Example C13_witness :
  let data := [[[1;2;3;4;5]; [6]; []]; [[7;8]; [9;10;11]; [12]]; [[]; [13]; [14;15;16;17]]] in
  let counts := [[5;1;0]; [2;3;1]; [0;1;4]] in
  well_formed 3 data counts /\
  my_all_to_all 2 data counts = Some [[[1;2;3;4;5]; [7;8]; []]; [[6]; [9;10;11]; [13]]; [[]; [12]; [14;15;16;17]]].
Proof.
  split.
  - split; [|split].
    + split; [reflexivity|]. repeat constructor.
    + split; [reflexivity|]. repeat constructor.
    + intros [|[|[|s]]] [|[|[|r]]] xs c H1 H2; cbn in H1, H2; try (destruct s; discriminate); try (destruct r; discriminate);
        injection H1 as <-; injection H2 as <-; cbn; lia.
  - vm_compute. reflexivity.
Qed.

(** C14: the chunked broadcast stores the first [count] elements of the root's input on every process. *)
Theorem C14_bcast_delivers : forall (A : Type) chunk W (input : list A) count,
  1 <= chunk -> count <= length input ->
  my_bcast chunk W input count = Some (repeat (firstn count input) W).
Proof. exact @bcast_correct. Qed.
Print Assumptions C14_bcast_delivers.

Example C14_witness : 1 <= 2 /\ 5 <= length [1;2;3;4;5;6] /\ my_bcast 2 3 [1;2;3;4;5;6] 5 = Some (repeat [1;2;3;4;5] 3).
Proof. split; [lia|]. split; [cbn; lia|]. vm_compute. reflexivity. Qed.

(** C15: after the call every process holds the root's list of strings, provided no string contains a line break. *)
Theorem C15_strings_synchronised : forall root xs x,
  nth_error xs root = Some x -> Forall no_newline x -> sync_vector_string root xs = Some (repeat x (length xs)).
Proof. exact sync_strings_correct. Qed.
Print Assumptions C15_strings_synchronised.

(** The hypothesis on line breaks is needed: a string holding one is split on the other processes. *)
Theorem C15_line_break_refuted : exists root xs x, nth_error xs root = Some x /\
  sync_vector_string root xs <> Some (repeat x (length xs)).
Proof. exists 0, [[["a"%char; "010"%char; "b"%char]]; []], [["a"%char; "010"%char; "b"%char]]. split; [reflexivity|]. vm_compute. discriminate. Qed.
Print Assumptions C15_line_break_refuted.

Example C15_witness :
  let x := [["a"%char; "b"%char]; []; ["c"%char]] in
  nth_error [[]; x; []] 1 = Some x /\ Forall no_newline x /\ sync_vector_string 1 [[]; x; []] = Some [x; x; x].
Proof.
  split; [reflexivity|]. split; [|vm_compute; reflexivity].
  repeat constructor; unfold no_newline; cbn; intuition discriminate.
Qed.
