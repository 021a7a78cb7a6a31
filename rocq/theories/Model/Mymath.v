(** Model of the helper routines in src/mymath.h and src/mymath.cpp. *)
From Coq Require Import List ZArith NArith QArith Qround Bool.
From Coq Require Import Floats.SpecFloat.
Import ListNotations.
Local Open Scope Z_scope.

(** src/mymath.cpp:215-227 [AssignTasks].  Result [Some (task_begin, task_end)].
    [None] when the C++ code divides by zero ([nworkers] = 0) or the assertion of line 226 fails.
    C++ integer [/] and [%] truncate toward zero: [Z.quot], [Z.rem].
    Simplification: HBTInt is unbounded. *)
Definition assign_tasks (worker_id nworkers ntasks : Z) : option (Z * Z) :=
  if nworkers =? 0 then None else
  let ntask_remainder := Z.rem ntasks nworkers in
  let ntask_this := Z.quot ntasks nworkers in
  let task_begin := ntask_this * worker_id + Z.min ntask_remainder worker_id in
  let ntask_this := if worker_id <? ntask_remainder then ntask_this + 1 else ntask_this in
  let task_end := ntask_this + task_begin in
  if task_end <=? ntasks then Some (task_begin, task_end) else None.

(** src/mymath.h:32-43 and 45-56 [CompileOffsets] (both overloads, same loop) and
    src/mymath.cpp:40-49 [compile_offset].
    Returns the list of offsets and the total.  [offset] is the loop variable. *)
Fixpoint compile_offsets_from (offset : Z) (counts : list Z) : list Z * Z :=
  match counts with
  | [] => ([], offset)
  | c :: cs => let '(offs, tot) := compile_offsets_from (offset + c) cs in (offset :: offs, tot)
  end.
Definition compile_offsets (counts : list Z) : list Z * Z := compile_offsets_from 0 counts.

(** ** Byte swapping.  A byte is an [N] below 256; memory is a list of bytes. *)

(** src/mymath.cpp:51,53 [SWAP_2]/[FIX_SHORT] on an unsigned short loaded from two bytes
    (little-endian host) and stored back; the store keeps 16 bits. *)
Definition load16 (b0 b1 : N) : N := N.lor b0 (N.shiftl b1 8).
Definition swap_2 (x : N) : N := N.lor (N.shiftl (N.land x 0xff) 8) (N.shiftr x 8).
Definition store16 (x : N) : list N := [N.land x 0xff; N.land (N.shiftr x 8) 0xff].

(** src/mymath.cpp:52,54 [SWAP_4]/[FIX_LONG] on a 32-bit unsigned loaded from four bytes
    (little-endian host) and stored back; the store keeps 32 bits. *)
Definition load32 (b0 b1 b2 b3 : N) : N :=
  N.lor b0 (N.lor (N.shiftl b1 8) (N.lor (N.shiftl b2 16) (N.shiftl b3 24))).
Definition swap_4 (x : N) : N :=
  N.lor (N.shiftl x 24)
    (N.lor (N.land (N.shiftl x 8) 0x00ff0000)
       (N.lor (N.land (N.shiftr x 8) 0x0000ff00) (N.shiftr x 24))).
Definition store32 (x : N) : list N :=
  [N.land x 0xff; N.land (N.shiftr x 8) 0xff; N.land (N.shiftr x 16) 0xff; N.land (N.shiftr x 24) 0xff].

(** src/mymath.cpp:76-85, inner loop of the default case: [old_data] holds a copy of the element,
    byte [i] becomes [old_data[mbyte-i-1]].  [None] on an out-of-bounds read of [old_data]. *)
Fixpoint swap_generic_from (old_data : list N) (mbyte i : nat) (left : nat) : option (list N) :=
  match left with
  | O => Some []
  | S left' =>
      match nth_error old_data (mbyte - i - 1), swap_generic_from old_data mbyte (S i) left' with
      | Some b, Some r => Some (b :: r)
      | _, _ => None
      end
  end.
Definition swap_generic (old_data : list N) (mbyte : nat) : option (list N) :=
  swap_generic_from old_data mbyte 0 mbyte.

(** One element, the [switch] of src/mymath.cpp:65-87.  The C++ code frees a [new[]] buffer with a
    scalar [delete] (line 86); this undefined behaviour is not represented here. *)
Definition swap_element (mbyte : nat) (elem : list N) : option (list N) :=
  match mbyte with
  | 1%nat => Some elem
  | 2%nat => match elem with
         | [b0; b1] => Some (store16 (swap_2 (load16 b0 b1)))
         | _ => None
         end
  | 4%nat => match elem with
         | [b0; b1; b2; b3] => Some (store32 (swap_4 (load32 b0 b1 b2 b3)))
         | _ => None
         end
  | _ => swap_generic elem mbyte
  end.

(** src/mymath.cpp:57-88 [swap_Nbyte]: loop over [nel] elements of [mbyte] bytes starting at the
    pointer; the list is the memory from the pointer onwards.  [None]: memory too short. *)
Fixpoint swap_Nbyte (nel mbyte : nat) (data : list N) : option (list N) :=
  match nel with
  | O => Some data
  | S nel' =>
      if (length data <? mbyte)%nat then None else
      match swap_element mbyte (firstn mbyte data), swap_Nbyte nel' mbyte (skipn mbyte data) with
      | Some e, Some r => Some (e ++ r)
      | _, _ => None
      end
  end.

(** ** Spatial cells.  Coordinates are exact rationals. *)

(** src/mymath.cpp:7-13 [GetGrid].  Simplification: exact division; the conversion of the floor to
    [int] is assumed to fit. *)
Definition get_grid (x step : Q) (dim : Z) : Z :=
  let i := Qfloor (x / step)%Q in
  let i := if i <? 0 then 0 else i in
  let i := if dim <=? i then dim - 1 else i in
  i.

(** src/mymath.cpp:14-21 [AssignCell], with [GRIDtoRank] and [GID] expanded.
    Vectors of length 3 are triples. *)
Definition assign_cell (pos step : Q * Q * Q) (dims : Z * Z * Z) : Z :=
  let '(p0, p1, p2) := pos in
  let '(s0, s1, s2) := step in
  let '(d0, d1, d2) := dims in
  ((get_grid p0 s0 d0 * d1) + get_grid p1 s1 d1) * d2 + get_grid p2 s2 d2.

(** ** Factorisation.  [root N dim] stands for [floor(pow(N, 1./dim))]. *)
Section Factors.
  Variable root : nat -> nat -> nat.

  (** src/mymath.cpp:197-198: decrease [x] until it divides [N]; 0 when none does. *)
  Fixpoint factor_down (N x : nat) : nat :=
    match x with
    | O => O
    | S x' => if (N mod x =? 0)%nat then x else factor_down N x'
    end.

  (** src/mymath.cpp:193-200 [LargestRootFactor]. *)
  Definition largest_root_factor (N dim : nat) : nat := factor_down N (root N dim).

  (** src/mymath.cpp:201-213 [ClosestFactors]; [None] = division by zero. *)
  Fixpoint closest_factors (N dim : nat) : option (list nat) :=
    match dim with
    | O => Some []
    | S dim' =>
        let x := largest_root_factor N dim in
        if (x =? 0)%nat then None else
        match closest_factors (N / x) dim' with
        | Some fs => Some (x :: fs)
        | None => None
        end
    end.
End Factors.

(** ** Fortran unformatted records.  A file is a list of bytes with a cursor. *)
Record file := mkfile { bytes : list N; pos : Z }.

(** src/mymath.h:147 [fread]: reads [n] bytes at the cursor.
    [None] stands for a short read (the C++ code then continues with stale data: not modelled further)
    or a cursor before the start of the file. *)
Definition fread (n : nat) (f : file) : option (list N * file) :=
  if pos f <? 0 then None else
  let avail := skipn (Z.to_nat (pos f)) (bytes f) in
  if (length avail <? n)%nat then None
  else Some (firstn n avail, mkfile (bytes f) (pos f + Z.of_nat n)).

(** [fseek(fp, off, SEEK_CUR)]; a negative target is an error ([None]). *)
Definition fseek_cur (off : Z) (f : file) : option file :=
  if pos f + off <? 0 then None else Some (mkfile (bytes f) (pos f + off)).

(** src/mymath.h:144-151 [fread_swap]. *)
Definition fread_swap (member_size member_count : nat) (swap : bool) (f : file) : option (list N * file) :=
  match fread (member_size * member_count) f with
  | None => None
  | Some (buf, f') =>
      if swap then
        match swap_Nbyte member_count member_size buf with
        | Some buf' => Some (buf', f')
        | None => None
        end
      else Some (buf, f')
  end.

(** A 4-byte [int] in memory, little-endian host, two's complement. *)
Definition int32_of_bytes (b : list N) : option Z :=
  match b with
  | [b0; b1; b2; b3] =>
      let u := Z.of_N (load32 b0 b1 b2 b3) in
      Some (if u <? 2147483648 then u else u - 4294967296)
  | _ => None
  end.

(** src/mymath.h:221 [ReadBlockSize]: one [int] through [fread_swap]. *)
Definition read_block_size (swap : bool) (f : file) : option (Z * file) :=
  match fread_swap 4 1 swap f with
  | Some (b, f') => match int32_of_bytes b with Some z => Some (z, f') | None => None end
  | None => None
  end.

(** Cut a buffer into [n] members of [sz] bytes (the typed view [Data] of the raw buffer). *)
Fixpoint members (sz n : nat) (b : list N) : list (list N) :=
  match n with
  | O => []
  | S n' => firstn sz b :: members sz n' (skipn sz b)
  end.

(** src/mymath.h:214-233 [FortranBlock::Read]; [sz] = sizeof(T).
    The [size_t] expression of line 228 is converted to [long] by [fseek], i.e. it is the signed
    difference.  [None] includes the failed assertion of line 230. *)
Definition fortran_read (sz n_read n_skip : nat) (swap : bool) (f : file) : option (list (list N) * file) :=
  match read_block_size swap f with
  | None => None
  | Some (blocksize, f1) =>
  match fseek_cur (Z.of_nat (n_skip * sz)) f1 with
  | None => None
  | Some f2 =>
  match fread_swap sz n_read swap f2 with
  | None => None
  | Some (buf, f3) =>
  match fseek_cur (blocksize - Z.of_nat ((n_skip + n_read) * sz)) f3 with
  | None => None
  | Some f4 =>
  match read_block_size swap f4 with
  | None => None
  | Some (blocksize2, f5) =>
      if blocksize =? blocksize2 then Some (members sz n_read buf, f5) else None
  end end end end end.

(** src/mymath.cpp:260-270 [SkipFortranBlock]: returns the block size (converted to [size_t] in C++). *)
Definition skip_fortran_block (swap : bool) (f : file) : option (Z * file) :=
  match read_block_size swap f with
  | None => None
  | Some (blocksize, f1) =>
  match fseek_cur blocksize f1 with
  | None => None
  | Some f2 =>
  match read_block_size swap f2 with
  | None => None
  | Some (blocksize2, f3) => if blocksize =? blocksize2 then Some (blocksize, f3) else None
  end end end.

(** ** Periodic coordinates. *)

(** src/mymath.h:169-175 [position_modulus] in exact arithmetic. *)
Definition position_modulus (x boxsize : Q) : Q :=
  if Qle_bool 0 x && negb (Qle_bool boxsize x) then x
  else let y := (x / boxsize)%Q in ((y - inject_Z (Qfloor y)) * boxsize)%Q.

(** src/config_parser.h:142 [NEAREST] macro, [L] = BoxSize, BoxHalf = L/2
    (src/config_parser.cpp ParseConfigFile: BoxHalf=BoxSize/2). *)
Definition nearest (L x : Q) : Q :=
  let half := (L / 2)%Q in
  if negb (Qle_bool x half) then (x - L)%Q
  else if negb (Qle_bool (- half) x) then (x + L)%Q
  else x.

(** [position_modulus] in IEEE-754 arithmetic, parameterised by precision and exponent range
    (binary64: 53, 1024; binary32: 24, 128), round to nearest even. *)
Section FloatModulus.
  Variables prec emax : Z.

  (** libm [floor] on the float format (exact for integers representable in the format). *)
  Definition sf_floor (x : spec_float) : spec_float :=
    match x with
    | S754_finite s m e =>
        if 0 <=? e then x
        else
          let z := (if s then Z.neg m else Z.pos m) / 2 ^ (- e) in
          match z with
          | Z0 => S754_zero s
          | Zpos p => binary_normalize prec emax (Zpos p) 0 false
          | Zneg p => binary_normalize prec emax (Zneg p) 0 true
          end
    | _ => x
    end.

  (** src/mymath.h:169-175 in floating point. *)
  Definition position_modulus_f (x boxsize : spec_float) : spec_float :=
    if SFleb (S754_zero false) x && SFltb x boxsize then x
    else let y := SFdiv prec emax x boxsize in
         SFmul prec emax (SFsub prec emax y (sf_floor y)) boxsize.
End FloatModulus.

(** src/config_parser.h:143-156 [PeriodicDistance], squared (the final [sqrt] is not applied);
    [periodic] = HBTConfig.PeriodicBoundaryOn. *)
Definition periodic_distance2 (periodic : bool) (L : Q) (x y : Q * Q * Q) : Q :=
  let '(x0, x1, x2) := x in
  let '(y0, y1, y2) := y in
  let d0 := (x0 - y0)%Q in
  let d1 := (x1 - y1)%Q in
  let d2 := (x2 - y2)%Q in
  let '(d0, d1, d2) := if periodic then (nearest L d0, nearest L d1, nearest L d2) else (d0, d1, d2) in
  (d0 * d0 + d1 * d1 + d2 * d2)%Q.
