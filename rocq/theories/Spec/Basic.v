(** Model-independent vocabulary used in the statements of the properties. *)
From Coq Require Import List ZArith NArith QArith Sorting.Permutation Sorting.Sorted.
Import ListNotations.
Local Open Scope Z_scope.

(** [tiles lo hi ivs]: the half-open intervals of [ivs] follow one another without gap or overlap,
    the first starts at [lo], the last ends at [hi]. *)
Fixpoint tiles (lo hi : Z) (ivs : list (Z * Z)) : Prop :=
  match ivs with
  | [] => lo = hi
  | (a, b) :: r => a = lo /\ a <= b /\ tiles b hi r
  end.

(** Position [k] lies in the half-open interval. *)
Definition in_interval (k : Z) (iv : Z * Z) : Prop := fst iv <= k < snd iv.

(** Exactly one element of the list satisfies the predicate. *)
Definition exactly_one {A} (P : A -> Prop) (l : list A) : Prop :=
  exists i x, nth_error l i = Some x /\ P x /\
    forall j y, nth_error l j = Some y -> P y -> j = i.

(** Sum of a list of integers. *)
Fixpoint zsum (l : list Z) : Z := match l with [] => 0 | x :: r => x + zsum r end.

(** Product of a list of naturals. *)
Fixpoint nprod (l : list nat) : nat := match l with [] => 1%nat | x :: r => (x * nprod r)%nat end.

(** A byte. *)
Definition is_byte (b : N) : Prop := (b < 256)%N.

(** All elements have length [m]. *)
Definition all_length {A} (m : nat) (l : list (list A)) : Prop := Forall (fun e => length e = m) l.

(** Two coordinates are images of each other in a box of length [L]. *)
Definition same_image (L x y : Q) : Prop := exists k : Z, (x == y + inject_Z k * L)%Q.

(** The two coordinates are at most 1.5 box lengths apart. *)
Definition near_range (L x y : Q) : Prop := (- (3#2) * L <= x - y <= (3#2) * L)%Q.

(** Cell [g] of [dim] cells of length [step] on an axis, the first and last one extended to infinity. *)
Definition in_clamped_cell (step : Q) (dim g : Z) (x : Q) : Prop :=
  0 <= g < dim /\ ((inject_Z g * step <= x /\ x < inject_Z (g + 1) * step)%Q \/
    (g = 0 /\ (x < 0)%Q) \/ (g = dim - 1 /\ (inject_Z dim * step <= x)%Q)).

(** Little-endian bytes of a 4-byte unsigned number. *)
Definition bytes_of_int32 (z : Z) : list N :=
  map (fun k => Z.to_N ((z / 2 ^ (8 * k)) mod 256)) [0; 1; 2; 3].

(** The stored form of an element under native ([false]) or swapped ([true]) byte order. *)
Definition stored (swap : bool) (e : list N) : list N := if swap then rev e else e.

(** A Fortran unformatted record holding the elements [es]: byte count, payload, byte count. *)
Definition record (swap : bool) (es : list (list N)) : list N :=
  let payload := concat (map (stored swap) es) in
  let marker := stored swap (bytes_of_int32 (Z.of_nat (length payload))) in
  marker ++ payload ++ marker.
