(** Symmetric matrices of order three, their eigenvectors, and what the axes of a subhalo should be. *)
From Coq Require Import List Reals Sorting.Permutation.
Import ListNotations.
Local Open Scope R_scope.

Definition dot (a b : R * R * R) : R := let '(a1, a2, a3) := a in let '(b1, b2, b3) := b in a1 * b1 + a2 * b2 + a3 * b3.
Definition stretch (c : R) (a : R * R * R) : R * R * R := let '(a1, a2, a3) := a in (c * a1, c * a2, c * a3).
Definition size (a : R * R * R) : R := sqrt (dot a a).
Definition apply_matrix (m : (R * R * R) * (R * R * R) * (R * R * R)) (v : R * R * R) : R * R * R :=
  let '(r1, r2, r3) := m in (dot r1 v, dot r2 v, dot r3 v).
Definition symmetric (m : (R * R * R) * (R * R * R) * (R * R * R)) : Prop :=
  let '((_, a12, a13), (a21, _, a23), (a31, a32, _)) := m in a12 = a21 /\ a13 = a31 /\ a23 = a32.
(** Documentation of gsl_eigen_symmv: eigenvectors "mutually orthogonal and normalised to unit magnitude". *)
Definition solves (symmv : (R * R * R) * (R * R * R) * (R * R * R) -> list (R * (R * R * R))) (m : (R * R * R) * (R * R * R) * (R * R * R)) : Prop := symmetric m ->
  exists a u b v c w, symmv m = [(a, u); (b, v); (c, w)] /\
    apply_matrix m u = stretch a u /\ apply_matrix m v = stretch b v /\ apply_matrix m w = stretch c w /\
    dot u u = 1 /\ dot v v = 1 /\ dot w w = 1 /\ dot u v = 0 /\ dot u w = 0 /\ dot v w = 0.
(** gsl_eigen_symmv_sort with GSL_EIGEN_SORT_VAL_DESC. *)
Definition descending_sort (f : list (R * (R * R * R)) -> list (R * (R * R * R))) : Prop := forall l,
  Permutation (f l) l /\ forall i j p q, (i < j)%nat -> nth_error (f l) i = Some p -> nth_error (f l) j = Some q -> fst q <= fst p.
(** The matrix of a reported tensor {Ixx, Ixy, Ixz, Iyy, Iyz, Izz}. *)
Definition matrix_of (t : list R) : (R * R * R) * (R * R * R) * (R * R * R) :=
  match t with [xx; xy; xz; yy; yz; zz] => ((xx, xy, xz), (xy, yy, yz), (xz, yz, zz)) | _ => ((0, 0, 0), (0, 0, 0), (0, 0, 0)) end.
(** Three orthogonal axes of the tensor [t], longest first, with sizes [M] times the eigenvalues of [t] and the sum [s]. *)
Definition axes_of (t : list R) (M s : R) (axes : list (R * R * R)) : Prop := exists u v w, axes = [u; v; w] /\
  (forall x, In x axes -> apply_matrix (matrix_of t) x = stretch (size x / M) x) /\
  dot u v = 0 /\ dot u w = 0 /\ dot v w = 0 /\ size w <= size v <= size u /\ size u + size v + size w = s.
(** The mass times squared distance, and the mass, of all particles of a list. *)
Definition total (f : R -> R * R * R -> R) (l : list (R * (R * R * R))) : R := fold_right (fun p acc => f (fst p) (snd p) + acc) 0 l.
