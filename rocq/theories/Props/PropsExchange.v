(** Properties of the redistribution of particles over processes: C11, C12. *)
From Coq Require Import List ZArith Lia Sorting.Sorted Sorting.Permutation.
From Verif.Model Require Import Run Exchange.
From Verif.Spec Require Import Exchange.
From Verif.Proofs Require Import ExchangeProofs ExchangeProofs2 ExchangeProofs3.
Import ListNotations.
Local Open Scope Z_scope.

(** C11: for every placement of particles with distinct ids, at least one per process on average, the redistribution
    ends without fault (after at most N + W iterations of each loop) and achieves [redistributed].  [sort] is any function that
    returns a sorted permutation. *)
Theorem C11_redistribution : forall (P : Type) (pid : P -> Z) (sort : list P -> list P),
  (forall l, Permutation (sort l) l) -> (forall l, StronglySorted Z.le (map pid (sort l))) ->
  forall parts, NoDup (map pid (concat parts)) -> (1 <= length parts)%nat -> (length parts <= length (concat parts))%nat ->
  forall fuel, (length (concat parts) + length parts < fuel)%nat ->
  exists new ranges, exchange_particles pid sort fuel parts = Done (new, ranges) /\ redistributed pid parts new ranges.
Proof. exact @exchange_correct. Qed.
Print Assumptions C11_redistribution.

Fixpoint insert (x : Z) (l : list Z) : list Z := match l with [] => [x] | y :: r => if x <=? y then x :: y :: r else y :: insert x r end.
Definition isort (l : list Z) : list Z := fold_right insert [] l.

(** Non-contiguous ids and an empty process; contiguous ids. *)
Example C11_witness :
  let parts := [[30; 2; 14]; []; [7; 1; 22; 9]] in
  NoDup (map id (concat parts)) /\
  exchange_particles id isort 40 parts = Done ([[1; 2; 7]; [9; 14]; [22; 30]], [1; 9; 22; 31]) /\
  exchange_particles id isort 40 [[5; 3; 9]; [4; 8]; [6; 7]] = Done ([[3; 4; 5]; [6; 7]; [8; 9]], [3; 6; 8; 10]).
Proof.
  split; [|split; vm_compute; reflexivity].
  cbn. unfold id. repeat (apply NoDup_cons; [cbn; lia|]). apply NoDup_nil.
Qed.

(** With fewer particles than processes the last processes stay empty and reading their first particle is undefined. *)
Theorem C11_fewer_particles_than_processes_refuted : exists parts : list (list Z), NoDup (concat parts) /\
  (1 <= length parts)%nat /\ exchange_particles id isort 40 parts = Crash.
Proof.
  exists [[5]; []]. split; [cbn; repeat (apply NoDup_cons; [cbn; tauto|]); apply NoDup_nil|]. split; [cbn; lia|]. vm_compute. reflexivity.
Qed.
Print Assumptions C11_fewer_particles_than_processes_refuted.

(** C12: from any cursors over strictly sorted lists whose remaining ids are all distinct, asking for [steps] of what
    is left ends after at most [steps] iterations, having moved the cursors forward by exactly [steps] in total, and every id
    passed is smaller than every id still ahead. *)
Theorem C12_stride_terminates_exact : forall rs steps fuel,
  Forall (fun r => StronglySorted Z.lt (fst r) /\ (snd r <= length (fst r))%nat) rs ->
  NoDup (concat (map (fun r => skipn (snd r) (fst r)) rs)) ->
  0 <= steps <= Z.of_nat (left_over rs) -> (Z.to_nat steps <= fuel)%nat ->
  exists rs', parallel_stride fuel rs steps = Done rs' /\ Forall2 forward rs rs' /\
    Z.of_nat (left_over rs) = Z.of_nat (left_over rs') + steps /\
    forall x y, passed rs rs' x -> ahead rs' y -> x < y.
Proof.
  intros rs steps fuel H1 H2 H3 H4. destruct (parallel_stride_spec fuel rs steps H1 H2 H3 H4) as (rs' & E & A & _ & _ & B & C).
  exists rs'. auto.
Qed.
Print Assumptions C12_stride_terminates_exact.

Example C12_witness :
  let rs := [([1; 3; 10; 11], 0%nat); ([2; 4; 5; 6], 1%nat); ([], 0%nat)] in
  Forall (fun r => StronglySorted Z.lt (fst r) /\ (snd r <= length (fst r))%nat) rs /\
  NoDup (concat (map (fun r => skipn (snd r) (fst r)) rs)) /\ 0 <= 4 <= Z.of_nat (left_over rs) /\
  parallel_stride 4 rs 4 = Done [([1; 3; 10; 11], 2%nat); ([2; 4; 5; 6], 3%nat); ([], 0%nat)].
Proof.
  split; [repeat constructor; cbn; lia|]. split; [cbn; repeat (apply NoDup_cons; [cbn; lia|]); apply NoDup_nil|]. split; [cbn; lia|]. vm_compute. reflexivity.
Qed.

(** The same id on two processes: the request is overshot and no number of iterations ends the loop. *)
Theorem C12_duplicates_never_stop : forall fuel, parallel_stride fuel [([1], O); ([1], O)] 1 = Running.
Proof. exact stride_duplicates_loop. Qed.
Print Assumptions C12_duplicates_never_stop.
