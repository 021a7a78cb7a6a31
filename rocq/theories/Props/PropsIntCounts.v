(** Properties of the communication with machine integers: C82. *)
From Coq Require Import List ZArith Bool Lia Sorting.Sorted Sorting.Permutation.
From Verif.Model Require Import Run Mpi Exchange IntCounts.
From Verif.Spec Require Import Comm Exchange.
From Verif.Proofs Require Import MpiProofs IntCountsProofs.
From Verif.Props Require Import PropsExchange.
Import ListNotations.
Local Open Scope nat_scope.

(** The chunked exchange with counts, displacements and totals held in integers of at most [max], and the number of
    elements a process sends in an integer of at most [hmax]: nothing overflows and everything is delivered when a process
    sends at most [hmax] elements, and either [W * chunk <= max] or every process receives at most [max] elements. *)
Theorem C82_all_to_all : forall (A : Type) max hmax chunk W (data : list (list (list A))) counts,
  1 <= chunk -> well_formed W data counts ->
  Forall (fun cs => list_sum cs <= hmax) counts -> chunk + W <= max ->
  (W * chunk <= max \/ forall r, r < W -> list_sum (map (fun cs => nth r cs 0) counts) <= max) ->
  exists outs, my_all_to_all_int max hmax chunk data counts = Some outs /\ square W outs /\
    forall s r xs c, cell data s r = Some xs -> cell counts s r = Some c -> cell outs r s = Some (firstn c xs).
Proof. intros. rewrite (all_to_all_int_eq _ _ _ W) by assumption. apply all_to_all_correct; assumption. Qed.
Print Assumptions C82_all_to_all.

(** The limits of the code: 32-bit counts and chunks of 2^20 elements.  Up to 2047 processes never overflow, whatever
    they send. *)
Theorem C82_all_to_all_2047 : forall (A : Type) hmax W (data : list (list (list A))) counts,
  well_formed W data counts -> Forall (fun cs => list_sum cs <= hmax) counts -> W <= 2047 ->
  exists outs, my_all_to_all_int (Z.to_nat (2 ^ 31 - 1)) hmax (Z.to_nat (2 ^ 20)) data counts = Some outs /\ square W outs /\
    forall s r xs c, cell data s r = Some xs -> cell counts s r = Some c -> cell outs r s = Some (firstn c xs).
Proof. intros A hmax W data counts Hwf Hh HW. apply C82_all_to_all; try assumption; [lia|lia|left; lia]. Qed.
Print Assumptions C82_all_to_all_2047.

(** The bound on the number of processes is sharp: with one more, sending one chunk each to the same process overflows the
    count of what that process receives in a pass, although each message is small. *)
Theorem C82_all_to_all_refuted : forall max hmax chunk W, 1 <= chunk -> 1 <= W -> max < W * chunk ->
  exists (data : list (list (list nat))) counts, well_formed W data counts /\ Forall (fun cs => list_sum cs = chunk) counts /\
    my_all_to_all_int max hmax chunk data counts = None.
Proof.
  intros max hmax chunk W Hc HW Ho.
  exists (repeat (repeat 0 chunk :: repeat [] (W - 1)) W), (repeat (chunk :: repeat 0 (W - 1)) W).
  split; [|split; [|apply all_to_all_overflow; assumption]].
  - split; [|split].
    + split; [apply repeat_length|]. apply Forall_forall. intros row Hr. apply repeat_spec in Hr. subst row. cbn [length]. rewrite repeat_length. lia.
    + split; [apply repeat_length|]. apply Forall_forall. intros row Hr. apply repeat_spec in Hr. subst row. cbn [length]. rewrite repeat_length. lia.
    + intros s r xs c H1 H2. apply cell_nth in H1 as (row & R1 & R2). apply cell_nth in H2 as (cs & S1 & S2).
      apply nth_error_In, repeat_spec in R1. apply nth_error_In, repeat_spec in S1. subst row cs.
      destruct r as [|r]; cbn [nth_error] in R2, S2.
      * injection R2 as <-. injection S2 as <-. rewrite repeat_length. lia.
      * apply nth_error_In, repeat_spec in S2. subst c. lia.
  - apply Forall_forall. intros cs Hin. apply repeat_spec in Hin. subst cs. cbn [list_sum fold_right].
    change (chunk + list_sum (repeat 0 (W - 1)) = chunk). rewrite <- nsum_list_sum, nsum_repeat. lia.
Qed.
Print Assumptions C82_all_to_all_refuted.

(** 2048 processes. *)
Example C82_all_to_all_2048 : exists (data : list (list (list nat))) counts, well_formed (Z.to_nat 2048) data counts /\
  my_all_to_all_int (Z.to_nat (2 ^ 31 - 1)) (Z.to_nat (2 ^ 63 - 1)) (Z.to_nat (2 ^ 20)) data counts = None.
Proof.
  destruct (C82_all_to_all_refuted (Z.to_nat (2 ^ 31 - 1)) (Z.to_nat (2 ^ 63 - 1)) (Z.to_nat (2 ^ 20)) (Z.to_nat 2048)) as (d & c & H & _ & E); [lia..|].
  exists d, c. auto.
Qed.

(** The chunked broadcast: its two [int] variables never overflow up to [chunk * max] elements. *)
Theorem C82_bcast : forall (A : Type) max chunk W (input : list A) count,
  1 <= chunk -> chunk < max -> count <= chunk * max -> count <= length input ->
  my_bcast_int max chunk W input count = Some (repeat (firstn count input) W).
Proof. intros. rewrite bcast_int_eq by assumption. apply bcast_correct; assumption. Qed.
Print Assumptions C82_bcast.

(** Sharing the particles out: if no process reads more than [max] particles (and their total fits an [HBTInt]), no offset
    or size overflows, on the receiving side either, and the outcome is that of C11. *)
Theorem C82_redistribution : forall (P : Type) (pid : P -> Z) (sort : list P -> list P) max hmax,
  (forall l, Permutation (sort l) l) -> (forall l, StronglySorted Z.le (map pid (sort l))) ->
  forall parts, NoDup (map pid (concat parts)) -> 1 <= length parts -> length parts <= length (concat parts) ->
  length (concat parts) <= hmax -> length parts <= max -> Forall (fun l => length l <= max) parts ->
  forall fuel, length (concat parts) + length parts < fuel ->
  exists new ranges, exchange_particles_int pid sort max hmax fuel parts = Done (new, ranges) /\ redistributed pid parts new ranges.
Proof. exact @exchange_int_correct. Qed.
Print Assumptions C82_redistribution.

(** A process that reads more than [max] particles overflows. *)
Theorem C82_redistribution_refuted : forall (P : Type) (pid : P -> Z) (sort : list P -> list P) max hmax fuel parts l,
  (forall l, Permutation (sort l) l) -> In l parts -> max < length l -> exchange_particles_int pid sort max hmax fuel parts = Crash.
Proof. intros. eapply exchange_int_overflow; eassumption. Qed.
Print Assumptions C82_redistribution_refuted.

(** Containers of fewer than 2^31 - 1 elements are given to every process; one of exactly 2^31 - 1 is rejected. *)
Theorem C82_container : forall (A : Type) root (xs : list (list A)) x, nth_error xs root = Some x ->
  ((Z.of_nat (length x) < 2 ^ 31 - 1)%Z -> sync_container root xs = Synced (repeat x (length xs))) /\
  ((Z.of_nat (length x) = 2 ^ 31 - 1)%Z -> sync_container root xs = Threw).
Proof.
  intros A root xs x Hx. unfold sync_container. rewrite Hx. split; intros H; rewrite to_int_small by lia.
  - unfold int_max. destruct (Z.leb_spec (2 ^ 31 - 1) (Z.of_nat (length x))); [lia|]. destruct (Z.ltb_spec (Z.of_nat (length x)) 0); [lia|].
    f_equal. rewrite Nat2Z.id, firstn_all. generalize (length xs) 0. induction n as [|n IH]; intros k; cbn [seq map repeat]; [reflexivity|].
    rewrite IH. destruct (k =? root); reflexivity.
  - unfold int_max. rewrite H, Z.leb_refl. reflexivity.
Qed.
Print Assumptions C82_container.

(** Above that the check does not protect: it looks at the size after the conversion to [int].  A size between 2^31 and
    2^32 becomes negative; a size of 2^32 + n is taken for n, and the other processes are left with the first n
    elements. *)
Theorem C82_container_refuted : forall (A : Type) root (xs : list (list A)) x n, nth_error xs root = Some x ->
  ((2 ^ 31 <= Z.of_nat (length x) < 2 ^ 32)%Z -> sync_container root xs = Faulted) /\
  ((Z.of_nat (length x) = 2 ^ 32 + Z.of_nat n)%Z -> (Z.of_nat n < 2 ^ 31 - 1)%Z ->
   exists ys, sync_container root xs = Synced ys /\ length ys = length xs /\
     forall i, i < length xs -> nth_error ys i = Some (if i =? root then x else firstn n x)).
Proof.
  intros A root xs x n Hx. unfold sync_container. rewrite Hx. split.
  - intros H. change (Z.of_nat (length x)) with (0 * 2 ^ 32 + Z.of_nat (length x))%Z. rewrite to_int_negative by lia.
    unfold int_max. destruct (Z.leb_spec (2 ^ 31 - 1) (Z.of_nat (length x) - 2 ^ 32)); [lia|].
    destruct (Z.ltb_spec (Z.of_nat (length x) - 2 ^ 32) 0); [reflexivity|lia].
  - intros H Hn. rewrite H. change (2 ^ 32 + Z.of_nat n)%Z with (1 * 2 ^ 32 + Z.of_nat n)%Z. rewrite to_int_wrap by lia.
    unfold int_max. destruct (Z.leb_spec (2 ^ 31 - 1) (Z.of_nat n)); [lia|]. destruct (Z.ltb_spec (Z.of_nat n) 0); [lia|].
    rewrite Nat2Z.id. eexists. split; [reflexivity|]. split; [rewrite map_length, seq_length; reflexivity|].
    intros i Hi. rewrite nth_error_map, (nth_error_nth' _ 0) by (rewrite seq_length; exact Hi). rewrite seq_nth by exact Hi. reflexivity.
Qed.
Print Assumptions C82_container_refuted.

(** Three processes with chunks of 2 and integers up to 9; a redistribution with integers up to 4; a broadcast; a container
    of 2^32 + 5 elements of which the second process gets 5. *)
Example C82_witness :
  (let data := [[[1;2;3;4;5]; [6]; []]; [[7;8]; [9;10;11]; [12]]; [[]; [13]; [14;15;16;17]]] in
   let counts := [[5;1;0]; [2;3;1]; [0;1;4]] in
   well_formed 3 data counts /\ Forall (fun cs => list_sum cs <= 6) counts /\ 3 * 2 <= 9 /\
   my_all_to_all_int 9 6 2 data counts = Some [[[1;2;3;4;5]; [7;8]; []]; [[6]; [9;10;11]; [13]]; [[]; [12]; [14;15;16;17]]] /\
   my_all_to_all_int 9 5 2 data counts = None /\ my_all_to_all_int 2 6 2 data counts = None) /\
  my_bcast_int 3 2 2 [1;2;3;4;5] 5 = Some [[1;2;3;4;5]; [1;2;3;4;5]] /\
  (let x := repeat tt (Z.to_nat (2 ^ 32 + 5)) in
   exists ys, sync_container 0 [x; []] = Synced ys /\ nth_error ys 1 = Some (firstn 5 x)).
Proof.
  split; [|split].
  - split; [|split; [repeat constructor|split; [lia|vm_compute; auto]]].
    split; [|split].
    + split; [reflexivity|]. repeat constructor.
    + split; [reflexivity|]. repeat constructor.
    + intros [|[|[|s]]] [|[|[|r]]] xs c H1 H2; cbn in H1, H2; try (destruct s; discriminate); try (destruct r; discriminate);
        injection H1 as <-; injection H2 as <-; cbn; lia.
  - vm_compute. reflexivity.
  - intros x. destruct (C82_container_refuted unit 0 [x; []] x 5 eq_refl) as [_ H].
    destruct H as (ys & E & _ & Hn); [unfold x; rewrite repeat_length, Z2Nat.id by lia; lia|lia|]. exists ys. split; [exact E|]. apply (Hn 1). cbn. lia.
Qed.

(** The placement of C11_witness with integers up to 4 and 7, which is just enough, and up to 3 and 6. *)
Example C82_redistribution_witness :
  let parts := [[30; 2; 14]; []; [7; 1; 22; 9]]%Z in
  NoDup (map id (concat parts)) /\ 1 <= length parts <= length (concat parts) /\ length (concat parts) <= 7 /\
  Forall (fun l => length l <= 4) parts /\
  exchange_particles_int id isort 4 7 40 parts = Done ([[1; 2; 7]; [9; 14]; [22; 30]], [1; 9; 22; 31])%Z /\
  exchange_particles_int id isort 3 7 40 parts = Crash /\ exchange_particles_int id isort 4 6 40 parts = Crash.
Proof.
  split; [cbn; unfold id; repeat (apply NoDup_cons; [cbn; lia|]); apply NoDup_nil|].
  split; [cbn; lia|]. split; [cbn; lia|]. split; [repeat constructor|]. vm_compute. auto.
Qed.
