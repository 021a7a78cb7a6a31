(** Properties C01-C08: arithmetic helpers, byte order, Fortran records, periodic coordinates. *)
From Coq Require Import List ZArith NArith QArith Qabs Bool.
From Coq Require Import Floats.SpecFloat.
From Verif.Spec Require Import Basic.
From Verif.Model Require Import Mymath.
From Verif.Proofs Require Import MymathProofs MymathProofs2.
Import ListNotations.
Local Open Scope Z_scope.

(** C01: the intervals returned for workers 0..n-1 tile [0,t) in worker order, every task is in exactly
    one of them, and they differ in length by at most one, longer ones first. *)
Theorem C01_assign_tasks_tile (n : nat) (t : Z) : (0 < n)%nat -> 0 <= t ->
  exists ivs,
    map (fun w => assign_tasks (Z.of_nat w) (Z.of_nat n) t) (seq 0 n) = map Some ivs /\
    length ivs = n /\
    tiles 0 t ivs /\
    (forall k, 0 <= k < t -> exactly_one (in_interval k) ivs) /\
    (forall i j a b c d, (i <= j)%nat -> nth_error ivs i = Some (a, b) -> nth_error ivs j = Some (c, d) ->
        d - c <= b - a <= (d - c) + 1).
Proof. exact (assign_tasks_correct n t). Qed.
Print Assumptions C01_assign_tasks_tile.
Example C01_witness :
  map (fun w => assign_tasks (Z.of_nat w) 3 8) (seq 0 3) = map Some [(0, 3); (3, 6); (6, 8)].
Proof. reflexivity. Qed.

(** C02: the total is the sum, offset i is the sum of the counts before i, and the segments tile [0,total). *)
Theorem C02_offsets_are_prefix_sums (counts : list Z) :
  Forall (fun c => 0 <= c) counts ->
  let '(offs, tot) := compile_offsets counts in
  tot = zsum counts /\ length offs = length counts /\
  (forall i o, nth_error offs i = Some o -> o = zsum (firstn i counts)) /\
  tiles 0 tot (map (fun p => (fst p, fst p + snd p)) (combine offs counts)).
Proof. exact (compile_offsets_correct counts). Qed.
Print Assumptions C02_offsets_are_prefix_sums.
Example C02_witness : compile_offsets [3; 0; 2] = ([0; 3; 3], 5) /\ Forall (fun c => 0 <= c) [3; 0; 2].
Proof. split; [reflexivity|]. repeat constructor; discriminate. Qed.

(** C03: every element is reversed and the memory behind the array is left alone. *)
Theorem C03_swap_reverses_elements (m : nat) (elems : list (list N)) (tail : list N) :
  all_length m elems -> Forall is_byte (concat elems) ->
  swap_Nbyte (length elems) m (concat elems ++ tail) = Some (concat (map (@rev N) elems) ++ tail).
Proof. exact (swap_Nbyte_correct m elems tail). Qed.
Print Assumptions C03_swap_reverses_elements.
Theorem C03_swap_involutive (m : nat) (elems : list (list N)) (tail : list N) :
  all_length m elems -> Forall is_byte (concat elems) ->
  exists mid, swap_Nbyte (length elems) m (concat elems ++ tail) = Some mid /\
    swap_Nbyte (length elems) m mid = Some (concat elems ++ tail).
Proof. exact (swap_Nbyte_involutive m elems tail). Qed.
Print Assumptions C03_swap_involutive.
Example C03_witness : let elems := [[1;2;3;4]; [250;0;255;7]]%N in
  all_length 4 elems /\ Forall is_byte (concat elems) /\
  swap_Nbyte 2 4 (concat elems ++ [9]%N) = Some [4;3;2;1;7;255;0;250;9]%N.
Proof. repeat split; repeat constructor. Qed.

(** C04: the rank is valid for every position, and is the row-major number of the clamped cell. *)
Theorem C04_rank_in_range (p0 p1 p2 s0 s1 s2 : Q) (d0 d1 d2 : Z) :
  0 < d0 -> 0 < d1 -> 0 < d2 ->
  0 <= assign_cell (p0,p1,p2) (s0,s1,s2) (d0,d1,d2) < d0 * d1 * d2.
Proof. exact (assign_cell_range p0 p1 p2 s0 s1 s2 d0 d1 d2). Qed.
Print Assumptions C04_rank_in_range.
Theorem C04_same_rank_iff_same_cell (p0 p1 p2 q0 q1 q2 s0 s1 s2 : Q) (d0 d1 d2 : Z) :
  0 < d0 -> 0 < d1 -> 0 < d2 -> (0 < s0)%Q -> (0 < s1)%Q -> (0 < s2)%Q ->
  (assign_cell (p0,p1,p2) (s0,s1,s2) (d0,d1,d2) = assign_cell (q0,q1,q2) (s0,s1,s2) (d0,d1,d2) <->
   exists g0 g1 g2, in_clamped_cell s0 d0 g0 p0 /\ in_clamped_cell s0 d0 g0 q0 /\
     in_clamped_cell s1 d1 g1 p1 /\ in_clamped_cell s1 d1 g1 q1 /\
     in_clamped_cell s2 d2 g2 p2 /\ in_clamped_cell s2 d2 g2 q2).
Proof. exact (assign_cell_same p0 p1 p2 q0 q1 q2 s0 s1 s2 d0 d1 d2). Qed.
Print Assumptions C04_same_rank_iff_same_cell.
Theorem C04_rank_is_cell_number (p0 p1 p2 s0 s1 s2 : Q) (d0 d1 d2 r : Z) :
  0 < d0 -> 0 < d1 -> 0 < d2 -> (0 < s0)%Q -> (0 < s1)%Q -> (0 < s2)%Q ->
  (assign_cell (p0,p1,p2) (s0,s1,s2) (d0,d1,d2) = r <->
   exists g0 g1 g2, in_clamped_cell s0 d0 g0 p0 /\ in_clamped_cell s1 d1 g1 p1 /\ in_clamped_cell s2 d2 g2 p2 /\
     r = (g0 * d1 + g1) * d2 + g2).
Proof. exact (assign_cell_iff p0 p1 p2 s0 s1 s2 d0 d1 d2 r). Qed.
Print Assumptions C04_rank_is_cell_number.
Example C04_witness : assign_cell (7#2, -5#1, 100#1)%Q (1, 1, 1)%Q (4, 3, 2) = (3 * 3 + 0) * 2 + 1.
Proof. reflexivity. Qed.

(** C05: for every estimate [root N d] of the d-th root that is at least 1 (and exact for d = 1). *)
Theorem C05_factors_multiply (root : nat -> nat -> nat) :
  (forall N d, (1 <= N)%nat -> (1 <= d)%nat -> (1 <= root N d)%nat) ->
  (forall N, root N 1%nat = N) ->
  forall dim N, (1 <= N)%nat -> (1 <= dim)%nat ->
    exists fs, closest_factors root N dim = Some fs /\ length fs = dim /\
      Forall (fun f => (1 <= f)%nat) fs /\ nprod fs = N.
Proof. exact (closest_factors_correct root). Qed.
Print Assumptions C05_factors_multiply.
Example C05_witness :
  closest_factors (fun N d => match d with 1%nat => N | _ => Nat.min N 3%nat end) 12 3 = Some [3; 2; 2]%nat /\
  closest_factors (fun N d => match d with 1%nat => N | _ => 1%nat end) 12 3 = Some [1; 1; 12]%nat.
Proof. split; reflexivity. Qed.

(** C06: reading inside a well-formed record. *)
Theorem C06_fortran_read_exact (pre post : list N) (sw : bool) (sz : nat) (es : list (list N)) (n_read n_skip : nat) :
  all_length sz es -> Forall is_byte (concat es) ->
  Z.of_nat (length es * sz) < 2147483648 ->
  (n_skip + n_read <= length es)%nat ->
  fortran_read sz n_read n_skip sw (mkfile (pre ++ record sw es ++ post) (Z.of_nat (length pre))) =
  Some (firstn n_read (skipn n_skip es),
        mkfile (pre ++ record sw es ++ post) (Z.of_nat (length (pre ++ record sw es)))).
Proof. exact (fortran_read_correct pre post sw sz es n_read n_skip). Qed.
Print Assumptions C06_fortran_read_exact.
Theorem C06_skip_block (pre post : list N) (sw : bool) (sz : nat) (es : list (list N)) :
  all_length sz es -> Forall is_byte (concat es) ->
  Z.of_nat (length es * sz) < 2147483648 ->
  skip_fortran_block sw (mkfile (pre ++ record sw es ++ post) (Z.of_nat (length pre))) =
  Some (Z.of_nat (length es * sz),
        mkfile (pre ++ record sw es ++ post) (Z.of_nat (length (pre ++ record sw es)))).
Proof. exact (skip_fortran_block_correct pre post sw sz es). Qed.
Print Assumptions C06_skip_block.
Theorem C06_marker_mismatch_rejected (pre post : list N) (sw : bool) (sz : nat) (es : list (list N)) (n_read n_skip : nat) (z2 : Z) :
  all_length sz es -> Forall is_byte (concat es) ->
  Z.of_nat (length es * sz) < 2147483648 -> 0 <= z2 < 2147483648 ->
  z2 <> Z.of_nat (length es * sz) ->
  (n_skip + n_read <= length es)%nat ->
  let payload := concat (map (stored sw) es) in
  let m1 := stored sw (bytes_of_int32 (Z.of_nat (length payload))) in
  let m2 := stored sw (bytes_of_int32 z2) in
  fortran_read sz n_read n_skip sw (mkfile (pre ++ m1 ++ payload ++ m2 ++ post) (Z.of_nat (length pre))) = None.
Proof. exact (fortran_read_mismatch pre post sw sz es n_read n_skip z2). Qed.
Print Assumptions C06_marker_mismatch_rejected.
Example C06_witness : let es := [[1;2]; [3;4]; [5;6]]%N in
  all_length 2 es /\
  fortran_read 2 1 1 true (mkfile ([7;7]%N ++ record true es ++ [9]%N) 2) =
    Some ([[3;4]]%N, mkfile ([7;7]%N ++ record true es ++ [9]%N) 16).
Proof. split; [repeat constructor|reflexivity]. Qed.
(** Finding: a request longer than the record is accepted and the closing marker is returned as data. *)
Theorem C06_overlong_request_refuted :
  exists es post out f', all_length 4 es /\
    fortran_read 4 2 0 false (mkfile (record false es ++ post) 0) = Some (out, f') /\
    length es = 1%nat /\ length out = 2%nat /\ nth_error out 1 = Some (bytes_of_int32 4).
Proof.
  exists [[1;2;3;4]]%N, [], [[1;2;3;4]; [4;0;0;0]]%N, (mkfile (record false [[1;2;3;4]]%N ++ []) 12).
  repeat split; repeat constructor.
Qed.
Print Assumptions C06_overlong_request_refuted.

(** C07: the separation on one axis. *)
Theorem C07_minimum_image (L x y : Q) : (0 < L)%Q -> near_range L x y ->
  let s := nearest L (x - y) in
  (- (L / 2) <= s <= L / 2)%Q /\ same_image L s (x - y) /\
  (forall e, same_image L e (x - y) -> (Qabs s <= Qabs e)%Q) /\
  (Qabs s == Qabs (nearest L (y - x)))%Q /\
  ((s == 0)%Q <-> same_image L x y).
Proof.
  exact (fun HL Hn => conj (proj1 (nearest_spec L (x - y) HL Hn)) (conj (proj2 (nearest_spec L (x - y) HL Hn))
    (conj (fun e => nearest_le L x y e HL Hn) (conj (nearest_sym L x y HL Hn) (nearest_zero L x y HL Hn))))).
Qed.
Print Assumptions C07_minimum_image.
Theorem C07_axis_triangle (L x y z : Q) : (0 < L)%Q -> near_range L x y -> near_range L y z -> near_range L x z ->
  (Qabs (nearest L (x - z)) <= Qabs (nearest L (x - y)) + Qabs (nearest L (y - z)))%Q.
Proof. exact (nearest_triangle L x y z). Qed.
Print Assumptions C07_axis_triangle.
(** Three dimensions: the squared distance is the least one over all images, and it is attained. *)
Theorem C07_distance_minimal (L x0 x1 x2 y0 y1 y2 : Q) : (0 < L)%Q ->
  near_range L x0 y0 -> near_range L x1 y1 -> near_range L x2 y2 ->
  (forall e0 e1 e2, same_image L e0 (x0 - y0) -> same_image L e1 (x1 - y1) -> same_image L e2 (x2 - y2) ->
     (periodic_distance2 true L (x0,x1,x2) (y0,y1,y2) <= e0*e0 + e1*e1 + e2*e2)%Q) /\
  (exists e0 e1 e2, same_image L e0 (x0 - y0) /\ same_image L e1 (x1 - y1) /\ same_image L e2 (x2 - y2) /\
     (periodic_distance2 true L (x0,x1,x2) (y0,y1,y2) == e0*e0 + e1*e1 + e2*e2)%Q).
Proof.
  exact (fun HL H0 H1 H2 => conj (fun e0 e1 e2 => periodic_distance2_minimal L x0 x1 x2 y0 y1 y2 e0 e1 e2 HL H0 H1 H2)
    (periodic_distance2_attained L x0 x1 x2 y0 y1 y2 HL H0 H1 H2)).
Qed.
Print Assumptions C07_distance_minimal.
(** Triangle inequality without square roots: if y is within r of x and z within s of y, z is within r+s of x. *)
Theorem C07_distance_triangle (periodic : bool) (L x0 x1 x2 y0 y1 y2 z0 z1 z2 r s : Q) : (0 < L)%Q ->
  (near_range L x0 y0 /\ near_range L x1 y1 /\ near_range L x2 y2) ->
  (near_range L y0 z0 /\ near_range L y1 z1 /\ near_range L y2 z2) ->
  (near_range L x0 z0 /\ near_range L x1 z1 /\ near_range L x2 z2) ->
  (0 <= r)%Q -> (0 <= s)%Q ->
  (periodic_distance2 periodic L (x0,x1,x2) (y0,y1,y2) <= r*r)%Q ->
  (periodic_distance2 periodic L (y0,y1,y2) (z0,z1,z2) <= s*s)%Q ->
  (periodic_distance2 periodic L (x0,x1,x2) (z0,z1,z2) <= (r+s)*(r+s))%Q.
Proof. exact (periodic_distance2_triangle periodic L x0 x1 x2 y0 y1 y2 z0 z1 z2 r s). Qed.
Print Assumptions C07_distance_triangle.
Example C07_witness : near_range 100 99 1 /\ (nearest 100 (99 - 1) == -2)%Q /\
  (periodic_distance2 true 100 (99,99,99) (1,1,1) == 12)%Q.
Proof. unfold near_range. repeat split; try reflexivity; intro H; inversion H. Qed.

(** C08, in exact arithmetic.  Partial: see the refutation in floating point below. *)
Theorem C08_position_modulus_partial (x L : Q) : (0 < L)%Q ->
  (0 <= position_modulus x L < L)%Q /\ same_image L (position_modulus x L) x /\
  ((0 <= x < L)%Q -> position_modulus x L = x).
Proof.
  exact (fun HL => conj (proj1 (position_modulus_spec x L HL)) (conj (proj2 (position_modulus_spec x L HL))
    (position_modulus_id x L))).
Qed.
Print Assumptions C08_position_modulus_partial.
Example C08_witness : (position_modulus (-1) 100 == 99)%Q /\ (position_modulus 250 100 == 50)%Q.
Proof. split; reflexivity. Qed.
(** Finding: in IEEE arithmetic (double and single) a coordinate just below zero is wrapped to exactly L,
    which is not in [0,L). *)
Theorem C08_position_modulus_float_refuted :
  (exists x L, position_modulus_f 53 1024 x L = L /\ SFltb x (S754_zero false) = true /\
     SFltb (S754_zero false) L = true) /\
  (exists x L, position_modulus_f 24 128 x L = L /\ SFltb x (S754_zero false) = true /\
     SFltb (S754_zero false) L = true).
Proof.
  split.
  - exists (S754_finite true 4503599627370496 (-120)), (S754_finite false 7036874417766400 (-46)).
    vm_compute. auto.
  - exists (S754_finite true 8388608 (-60)), (S754_finite false 13107200 (-17)).
    vm_compute. auto.
Qed.
Print Assumptions C08_position_modulus_float_refuted.
