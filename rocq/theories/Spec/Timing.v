(** What timing.log should hold: for every snapshot eight differences of neighbouring readings of the clock. *)
From Coq Require Import List ZArith.
Import ListNotations.
Local Open Scope Z_scope.
(** The durations of the eight stages between the nine readings from number [b] on. *)
Definition stages (clock : nat -> Z) (b : nat) : list Z :=
  [clock (b + 1)%nat - clock b; clock (b + 2)%nat - clock (b + 1)%nat; clock (b + 3)%nat - clock (b + 2)%nat; clock (b + 4)%nat - clock (b + 3)%nat;
   clock (b + 5)%nat - clock (b + 4)%nat; clock (b + 6)%nat - clock (b + 5)%nat; clock (b + 7)%nat - clock (b + 6)%nat; clock (b + 8)%nat - clock (b + 7)%nat].
(** Times in the order of the readings. *)
Definition in_order (tickers : list Z) : Prop := forall i j a b, (i <= j)%nat -> nth_error tickers i = Some a -> nth_error tickers j = Some b -> a <= b.
