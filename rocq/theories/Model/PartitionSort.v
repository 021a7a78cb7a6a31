(** Model of [psort] (src/mymath.cpp:145-191), the partition sort of Numerical Recipes.
    Simplifications: the pointer one before the array (line 154) is not itself taken as an error; the elements, which are only compared and copied, are integers in the same order; no NaN. *)
From Coq Require Import List ZArith.
From Verif.Model Require Import ListMem Run.
Import ListNotations.
Local Open Scope Z_scope.

(** Access to the array after [arr--] (line 154): subscripts start at 1. *)
Definition get1 (arr : list Z) (i : Z) : run Z := of_opt (zget arr (i - 1)).
Definition put1 (arr : list Z) (i x : Z) : run (list Z) := of_opt (zupd arr (i - 1) x).
(** The macro SWAP of line 152. *)
Definition swap1 (arr : list Z) (i j : Z) : run (list Z) :=
  rbind (get1 arr i) (fun temp => rbind (get1 arr j) (fun b => rbind (put1 arr i b) (fun arr1 => put1 arr1 j temp))).
(** [if (arr[i] > arr[j]) SWAP(arr[i], arr[j])] (lines 166-174). *)
Definition order1 (arr : list Z) (i j : Z) : run (list Z) :=
  rbind (get1 arr i) (fun x => rbind (get1 arr j) (fun y => if y <? x then swap1 arr i j else Done arr)).
(** Line 179: [do i++; while (arr[i] < a);]. *)
Fixpoint scan_up (fuel : nat) (arr : list Z) (a i : Z) : run Z :=
  match fuel with
  | O => Running
  | S f => rbind (get1 arr (i + 1)) (fun x => if x <? a then scan_up f arr a (i + 1) else Done (i + 1))
  end.
(** Line 180: [do j--; while (arr[j] > a);]. *)
Fixpoint scan_down (fuel : nat) (arr : list Z) (a j : Z) : run Z :=
  match fuel with
  | O => Running
  | S f => rbind (get1 arr (j - 1)) (fun x => if a <? x then scan_down f arr a (j - 1) else Done (j - 1))
  end.
(** Lines 178-183. *)
Fixpoint partition1 (fuel : nat) (arr : list Z) (a i j : Z) : run (list Z * Z * Z) :=
  match fuel with
  | O => Running
  | S f =>
      rbind (scan_up fuel arr a i) (fun i' =>
      rbind (scan_down fuel arr a j) (fun j' =>
      if j' <? i' then Done (arr, i', j') else rbind (swap1 arr i' j') (fun arr' => partition1 f arr' a i' j')))
  end.
(** Lines 157-189; the result is the value and the array. *)
Fixpoint psort_loop (fuel : nat) (k : Z) (arr : list Z) (l ir : Z) : run (Z * list Z) :=
  match fuel with
  | O => Running
  | S f =>
      if ir <=? l + 1 then
        rbind (if ir =? l + 1 then rbind (get1 arr ir) (fun x => rbind (get1 arr l) (fun y => if x <? y then swap1 arr l ir else Done arr)) else Done arr)
          (fun arr' => rbind (get1 arr' k) (fun v => Done (v, arr')))
      else
        let mid := Z.shiftr (l + ir) 1 in
        rbind (swap1 arr mid (l + 1)) (fun arr =>
        rbind (order1 arr (l + 1) ir) (fun arr =>
        rbind (order1 arr l ir) (fun arr =>
        rbind (order1 arr (l + 1) l) (fun arr =>
        rbind (get1 arr l) (fun a =>
        rbind (partition1 fuel arr a (l + 1) ir) (fun r =>
        let '(arr, i, j) := r in
        rbind (get1 arr j) (fun b =>
        rbind (put1 arr l b) (fun arr =>
        rbind (put1 arr j a) (fun arr =>
        psort_loop f k arr (if j <=? k then i else l) (if k <=? j then j - 1 else ir))))))))))
  end.
(** Lines 145-156. *)
Definition psort (fuel : nat) (k numel : Z) (arr : list Z) : run (Z * list Z) := psort_loop fuel k arr 1 numel.
