(** Model of [Timer_t] (src/mymath.h:64-112) and of the file timing.log written by the main program (HBT.cpp:46-95).
    Simplifications: times are integers in units of the clock and the conversion to seconds is left out; a tick is read from
    the clock of process 0 (the only one that writes) and the barrier before it is not modelled; the snapshots themselves are
    in Model/Program.v. *)
From Coq Require Import List ZArith.
From Verif.Model Require Import ListMem.
Import ListNotations.
Local Open Scope Z_scope.

(** [Timer_t::FixTickNum] (src/mymath.h:90-93). *)
Definition fix_tick (tickers : list Z) (itick : Z) : Z := if itick <? 0 then itick + Z.of_nat (length tickers) else itick.
(** [Timer_t::GetSeconds(itick, itick0)] (src/mymath.h:102-111); [None] is an access outside [tickers]. *)
Definition get_seconds (tickers : list Z) (itick itick0 : Z) : option Z :=
  let itick := fix_tick tickers itick in
  let itick0 := fix_tick tickers itick0 in
  let '(itick, itick0) := if itick <? itick0 then (itick0, itick) else (itick, itick0) in
  match zget tickers itick, zget tickers itick0 with Some a, Some b => Some (a - b) | _, _ => None end.
(** [Timer_t::GetSeconds(itick)] (src/mymath.h:94-101). *)
Definition get_interval (tickers : list Z) (itick : Z) : option Z :=
  let itick := fix_tick tickers itick in get_seconds tickers itick (itick - 1).

(** [Timer_t::Tick] (src/mymath.h:72-75): the clock is a sequence of readings, of which [fst] have been used. *)
Definition tick (clock : nat -> Z) (s : nat * list Z) : nat * list Z := (S (fst s), snd s ++ [clock (fst s)]).
(** HBT.cpp:87-93: [for(int i=1;i<timer.Size();i++) time_log<<timer.GetSeconds(i)]. *)
Definition timing_columns (tickers : list Z) : option (list Z) :=
  fold_right (fun i r => match get_interval tickers (Z.of_nat i), r with Some x, Some l => Some (x :: l) | _, _ => None end) (Some []) (seq 1 (length tickers - 1)).
(** The main loop (HBT.cpp:53-95) reduced to its ticks (lines 55, 62, 65, 69, 73, 77, 80, 83, 86), the line of the log and
    [timer.Reset()] (line 94). *)
Fixpoint timing_loop (clock : nat -> Z) (isnap : Z) (count : nat) (s : nat * list Z) (log : list (Z * list Z)) : option (list (Z * list Z)) :=
  match count with
  | O => Some log
  | S c =>
      let s := tick clock s in (* before loading *)
      let s := tick clock s in (* after loading *)
      let s := tick clock s in (* after HaloSnapshot_t::UpdateParticles *)
      let s := tick clock s in (* after SubhaloSnapshot_t::UpdateParticles *)
      let s := tick clock s in (* after AssignHosts and PrepareCentrals *)
      let s := tick clock s in (* after RefineParticles *)
      let s := tick clock s in (* after MergeSubhalos *)
      let s := tick clock s in (* after UpdateTracks *)
      let s := tick clock s in (* after Save *)
      match timing_columns (snd s) with
      | Some l => timing_loop clock (isnap + 1) c (fst s, []) (log ++ [(isnap, l)])
      | None => None
      end
  end.
(** HBT.cpp:46-53: [snapshot_start] to [snapshot_end], appending to the log. *)
Definition timing_log (clock : nat -> Z) (snapshot_start : Z) (count : nat) (log : list (Z * list Z)) : option (list (Z * list Z)) :=
  timing_loop clock snapshot_start count (0%nat, []) log.
