(** timing.log and [Timer_t]: C95. *)
From Coq Require Import List ZArith Lia.
From Verif.Model Require Import ListMem Timing.
From Verif.Spec Require Import Timing.
Import ListNotations.
Local Open Scope Z_scope.

Lemma loop_ok clock count : forall isnap b log, timing_loop clock isnap count (b, []) log =
  Some (log ++ map (fun m => (isnap + Z.of_nat m, stages clock (b + 9 * m))) (seq 0 count)).
Proof.
  induction count as [|c IH]; intros isnap b log; [cbn; rewrite app_nil_r; reflexivity|].
  cbn [timing_loop tick fst snd app].
  assert (E : timing_columns [clock b; clock (S b); clock (S (S b)); clock (S (S (S b))); clock (S (S (S (S b)))); clock (S (S (S (S (S b))))); clock (S (S (S (S (S (S b)))))); clock (S (S (S (S (S (S (S b))))))); clock (S (S (S (S (S (S (S (S b))))))))] = Some (stages clock b)).
  { unfold stages. replace (b + 1)%nat with (S b) by lia. replace (b + 2)%nat with (S (S b)) by lia. replace (b + 3)%nat with (S (S (S b))) by lia. replace (b + 4)%nat with (S (S (S (S b)))) by lia. replace (b + 5)%nat with (S (S (S (S (S b))))) by lia. replace (b + 6)%nat with (S (S (S (S (S (S b)))))) by lia. replace (b + 7)%nat with (S (S (S (S (S (S (S b))))))) by lia. replace (b + 8)%nat with (S (S (S (S (S (S (S (S b)))))))) by lia. reflexivity. }
  rewrite E, IH. f_equal. rewrite <- app_assoc. f_equal. cbn [seq map app]. f_equal; [f_equal; [lia|f_equal; lia]|].
  rewrite <- seq_shift, map_map. apply map_ext. intros m. f_equal; [lia|f_equal; lia].
Qed.

(** C95: for every clock and every range of snapshots, a run appends to timing.log one line for each snapshot, in order: its
    number and the eight times between the nine readings of the clock that belong to this snapshot.  The eight times add up to
    the time from the first to the last reading of the snapshot, and none is negative if the clock does not go back. *)
Theorem C95_log : forall clock start count old,
  timing_log clock start count old = Some (old ++ map (fun m => (start + Z.of_nat m, stages clock (9 * m))) (seq 0 count)) /\
  (forall b, fold_right Z.add 0 (stages clock b) = clock (b + 8)%nat - clock b) /\
  ((forall n, clock n <= clock (S n)) -> forall b, Forall (fun x => 0 <= x) (stages clock b)).
Proof.
  intros clock start count old. split; [exact (loop_ok clock count start 0%nat old)|]. split.
  - intros b. unfold stages. cbn [fold_right]. lia.
  - intros H b. unfold stages. pose proof (H b). pose proof (H (b + 1)%nat). pose proof (H (b + 2)%nat). pose proof (H (b + 3)%nat). pose proof (H (b + 4)%nat). pose proof (H (b + 5)%nat). pose proof (H (b + 6)%nat). pose proof (H (b + 7)%nat).
    rewrite <- !Nat.add_succ_r in *. replace (S b) with (b + 1)%nat in * by lia. repeat constructor; lia.
Qed.
Print Assumptions C95_log.

(** C95: [GetSeconds(i, j)] with i and j from -n to n-1, n the number of ticks, is the time between the two ticks, whichever
    is first and whether counted from the front or (negative) from the end; it is never negative. *)
Theorem C95_seconds : forall tickers i j, in_order tickers -> let n := Z.of_nat (length tickers) in - n <= i < n -> - n <= j < n ->
  exists a b, nth_error tickers (Z.to_nat (i mod n)) = Some a /\ nth_error tickers (Z.to_nat (j mod n)) = Some b /\ get_seconds tickers i j = Some (Z.abs (a - b)).
Proof.
  intros tickers i j Ho n Hi Hj.
  assert (F : forall k, - n <= k < n -> fix_tick tickers k = k mod n /\ 0 <= k mod n < n).
  { intros k Hk. split; [|apply Z.mod_pos_bound; lia]. unfold fix_tick. fold n. destruct (Z.ltb_spec k 0); [|symmetry; apply Z.mod_small; lia]. rewrite <- (Z.mod_add k 1 n) by lia. rewrite Z.mod_small by lia. lia. }
  destruct (F i Hi) as [Ei Bi], (F j Hj) as [Ej Bj].
  assert (G : forall k, 0 <= k < n -> exists a, nth_error tickers (Z.to_nat k) = Some a /\ zget tickers k = Some a).
  { intros k Hk. destruct (nth_error tickers (Z.to_nat k)) as [a|] eqn:E; [|apply nth_error_None in E; lia]. exists a. split; [reflexivity|]. unfold zget. destruct (Z.ltb_spec k 0); [lia|exact E]. }
  destruct (G _ Bi) as (a & A1 & A2), (G _ Bj) as (b & B1 & B2). exists a, b. split; [exact A1|]. split; [exact B1|].
  unfold get_seconds. rewrite Ei, Ej. destruct (Z.ltb_spec (i mod n) (j mod n)) as [H|H]; rewrite A2, B2; f_equal.
  - assert (Hle : (Z.to_nat (i mod n) <= Z.to_nat (j mod n))%nat) by lia; pose proof (Ho _ _ _ _ Hle A1 B1). lia.
  - assert (Hle : (Z.to_nat (j mod n) <= Z.to_nat (i mod n))%nat) by lia; pose proof (Ho _ _ _ _ Hle B1 A1). lia.
Qed.
Print Assumptions C95_seconds.

(** C95: [GetSeconds(i)] is the time since the tick before i, except for the first tick: there it is the whole time to the
    last tick, although no tick is before it. *)
Theorem C95_interval : forall tickers, in_order tickers -> let n := length tickers in
  (forall i, (1 <= i < n)%nat -> exists a b, nth_error tickers i = Some a /\ nth_error tickers (i - 1) = Some b /\ get_interval tickers (Z.of_nat i) = Some (a - b)) /\
  (forall i, (1 <= i <= n)%nat -> get_interval tickers (- Z.of_nat i) = get_interval tickers (Z.of_nat (n - i))) /\
  ((1 <= n)%nat -> exists a b, nth_error tickers 0 = Some a /\ nth_error tickers (n - 1) = Some b /\ get_interval tickers 0 = Some (b - a)).
Proof.
  intros tickers Ho n. split; [|split].
  - intros i Hi. unfold get_interval. assert (Ef : fix_tick tickers (Z.of_nat i) = Z.of_nat i) by (unfold fix_tick; destruct (Z.ltb_spec (Z.of_nat i) 0); lia). rewrite Ef.
    destruct (C95_seconds tickers (Z.of_nat i) (Z.of_nat i - 1) Ho) as (a & b & A & B & E); [lia..|]. rewrite Z.mod_small in A, B by lia. rewrite Nat2Z.id in A. replace (Z.to_nat (Z.of_nat i - 1)) with (i - 1)%nat in B by lia.
    exists a, b. split; [exact A|]. split; [exact B|]. rewrite E. f_equal. assert (Hle : (i - 1 <= i)%nat) by lia; pose proof (Ho _ _ _ _ Hle B A). lia.
  - intros i Hi. unfold get_interval. assert (E1 : fix_tick tickers (- Z.of_nat i) = Z.of_nat (n - i)) by (unfold fix_tick; fold n; destruct (Z.ltb_spec (- Z.of_nat i) 0); lia).
    assert (E2 : fix_tick tickers (Z.of_nat (n - i)) = Z.of_nat (n - i)) by (unfold fix_tick; destruct (Z.ltb_spec (Z.of_nat (n - i)) 0); lia). rewrite E1, E2. reflexivity.
  - intros Hn. unfold get_interval. change (fix_tick tickers 0) with 0. change (0 - 1) with (-1).
    destruct (C95_seconds tickers 0 (-1) Ho) as (a & b & A & B & E); [lia..|]. rewrite Z.mod_0_l in A by lia.
    assert (Em : (-1) mod Z.of_nat (length tickers) = Z.of_nat n - 1) by (rewrite <- (Z.mod_add (-1) 1) by lia; rewrite Z.mod_small by lia; lia).
    rewrite Em in B. replace (Z.to_nat (Z.of_nat n - 1)) with (n - 1)%nat in B by lia. exists a, b. split; [exact A|]. split; [exact B|]. rewrite E. f_equal. assert (Hle : (0 <= n - 1)%nat) by lia; pose proof (Ho _ _ _ _ Hle A B). lia.
Qed.
Print Assumptions C95_interval.

(** Two snapshots with a clock that is not regular, appended to an old line; and a timer with four ticks. *)
Example C95_witness : timing_log (fun n => Z.of_nat (n * n)) 7 2 [(6, [1])] = Some [(6, [1]); (7, [1; 3; 5; 7; 9; 11; 13; 15]); (8, [19; 21; 23; 25; 27; 29; 31; 33])] /\
  in_order [2; 5; 5; 9] /\ get_interval [2; 5; 5; 9] (-1) = Some 4 /\ get_interval [2; 5; 5; 9] 0 = Some 7 /\ get_seconds [2; 5; 5; 9] 1 (-1) = Some 4.
Proof.
  split; [reflexivity|]. split; [|repeat split]. intros i j a b Hij Ha Hb.
  destruct i as [|[|[|[|i]]]], j as [|[|[|[|j]]]]; cbn in Ha, Hb; try lia; try (injection Ha as <-); try (injection Hb as <-); try lia; try (destruct i; discriminate); try (destruct j; discriminate).
Qed.
