(** The layout of Gadget group files, for C65. *)
From Coq Require Import List ZArith NArith Bool.
From Verif.Model Require Import GroupFiles.
From Verif.Spec Require Import Basic Gadget.
Import ListNotations.
Local Open Scope Z_scope.

(** One pair of files: the lengths of its groups, their offsets (not used), the ids, the other entries of the headers and what
    follows in the first file. *)
Record group_file := mkgf { g_lens : list nat; g_offsets : list Z; g_ids : list Z; g_tot_groups : Z; g_tot_ids : Z; g_nsub : Z; g_tot_sub : Z;
  g_rest : list N; g_ids_head : list N }.

Section Layout.
  (** Version 3 or 2 of the format, 8-byte or 4-byte ids, byte order, number of files. *)
  Variables (v3 wide swap : bool) (nfiles : nat).
  Definition in_order (es : list (list N)) : list N := concat (map (stored swap) es).
  Definition tab_head (sub : bool) (g : group_file) : list (list N) :=
    let n := bytes_of_int 4 (Z.of_nat (length (g_lens g))) in
    let ids := bytes_of_int 4 (Z.of_nat (length (g_ids g))) in
    let tot := bytes_of_int 4 (g_tot_groups g) in
    (if v3 then [n; tot; ids; bytes_of_int 8 (g_tot_ids g)] else [n; ids; tot]) ++ [bytes_of_int 4 (Z.of_nat nfiles)] ++
    (if sub then [bytes_of_int 4 (g_nsub g); bytes_of_int 4 (g_tot_sub g)] else []).
  Definition tab_bytes (sub : bool) (g : group_file) : list N :=
    in_order (tab_head sub g) ++ in_order (map (fun n => bytes_of_int 4 (Z.of_nat n)) (g_lens g)) ++ in_order (map (bytes_of_int 4) (g_offsets g)) ++ g_rest g.
  Definition ids_bytes (g : group_file) : list N := g_ids_head g ++ in_order (map (bytes_of_int (if wide then 8 else 4)) (g_ids g)).
  Definition int_range (z : Z) : Prop := - 2 ^ 31 <= z < 2 ^ 31.
  Definition valid_group_file (g : group_file) : Prop :=
    Z.of_nat (length (g_lens g)) < 2 ^ 31 /\ Z.of_nat (length (g_ids g)) < 2 ^ 31 /\ Forall (fun n => Z.of_nat n < 2 ^ 31) (g_lens g) /\
    length (g_offsets g) = length (g_lens g) /\ Forall int_range (g_offsets g) /\ Forall int_range [g_tot_groups g; g_nsub g; g_tot_sub g] /\
    Forall (fun z => if wide then - 2 ^ 63 <= z < 2 ^ 63 else int_range z) (g_ids g) /\ length (g_ids_head g) = if v3 then 28%nat else 16%nat.
End Layout.

(** The files are stored under convention [c], and there is no table under a convention tried before. *)
Definition before (c : convention) : list convention :=
  match c with SubNumbered => [] | GroupNumbered => [SubNumbered] | SnapdirNumbered => [SubNumbered; GroupNumbered]
  | SubSingle => [SubNumbered; GroupNumbered; SnapdirNumbered] | GroupSingle => [SubNumbered; GroupNumbered; SnapdirNumbered; SubSingle] end.
(** Files named after subhalos, whose tables have two more numbers in front; files of which there are several. *)
Definition of_subhalos (c : convention) : bool := match c with SubNumbered | SubSingle => true | GroupNumbered | SnapdirNumbered | GroupSingle => false end.
Definition in_parts (c : convention) : bool := match c with SubNumbered | GroupNumbered | SnapdirNumbered => true | SubSingle | GroupSingle => false end.
Definition stored_as (disk : convention -> kind -> Z -> option (list N)) (pattern_count : convention -> Z) (v3 wide swap : bool) (c : convention) (gs : list group_file) : Prop :=
  (forall c', In c' (before c) -> disk c' Tab 0 = None) /\
  (forall i g, nth_error gs i = Some g -> disk c Tab (Z.of_nat i) = Some (tab_bytes v3 swap (length gs) (of_subhalos c) g) /\ disk c Ids (Z.of_nat i) = Some (ids_bytes wide swap g)) /\
  if in_parts c then pattern_count c = Z.of_nat (length gs) else length gs = 1%nat.
(** An id after the mask of the configuration (0: none), which is cut to the width of the ids. *)
Definition masked (wide : bool) (m : Z) (z : Z) : Z :=
  if wide then if m =? 0 then z else Z.land z m else if m mod 2 ^ 32 =? 0 then z else Z.land z ((m + 2 ^ 31) mod 2 ^ 32 - 2 ^ 31).
