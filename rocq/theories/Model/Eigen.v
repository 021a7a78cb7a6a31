(** Model of [EigenAxis] (src/mymath.cpp:232-257, with HAS_GSL) and of its use in [Subhalo_t::CalculateShape]
    (src/subhalo.cpp:337-398).
    Simplifications: real numbers for double, HBTReal and float; the sums of the OpenMP reduction (exact, so their order does
    not matter) are taken in the order of the list; particles are given by their mass and their offset (dx, dy, dz) from the
    most bound one, after NEAREST (lines 360-370, see C68).  The GSL routines are arbitrary functions. *)
From Coq Require Import List Reals.
Import ListNotations.
Local Open Scope R_scope.

Definition vec3 := (R * R * R)%type.
Section Eigen.
  (** [gsl_eigen_symmv]: eigenvalues with the columns of the matrix of eigenvectors; [gsl_eigen_symmv_sort]. *)
  Variables (symmv : vec3 * vec3 * vec3 -> list (R * vec3)) (sort_desc : list (R * vec3) -> list (R * vec3)).

  (** src/mymath.cpp:232-257. *)
  Definition eigen_axis (Ixx Ixy Ixz Iyy Iyz Izz : R) : list vec3 :=
    map (fun p => let '(lambda, (x, y, z)) := p in (lambda * x, lambda * y, lambda * z))
      (sort_desc (symmv ((Ixx, Ixy, Ixz), (Ixy, Iyy, Iyz), (Ixz, Iyz, Izz)))).

  (** One sum of src/subhalo.cpp:358-389. *)
  Definition reduction (l : list (R * vec3)) (f : R -> R -> R -> R -> R) : R :=
    fold_right (fun p acc => let '(m, (dx, dy, dz)) := p in f m dx dy dz + acc) 0 l.
  (** Lines 381-382. *)
  Definition dr2_over_m (m dx dy dz : R) : R := (dx * dx + dy * dy + dz * dz) / m.
  (** [CalculateShape] for the particles 1..Nbound-1 in [l]: InertialTensor, InertialTensorWeighted (lines 390-393) and
      InertialEigenVector, InertialEigenVectorWeighted (lines 394-396).  [nil] is Nbound<=1 (lines 339-352). *)
  Definition shape (l : list (R * vec3)) (Mbound : R) : list R * list R * list vec3 * list vec3 :=
    match l with
    | [] => ([0; 0; 0; 0; 0; 0], [0; 0; 0; 0; 0; 0], [(0, 0, 0); (0, 0, 0); (0, 0, 0)], [(0, 0, 0); (0, 0, 0); (0, 0, 0)])
    | _ =>
        let Ixx := reduction l (fun m dx dy dz => dx * dx * m) in
        let Iyy := reduction l (fun m dx dy dz => dy * dy * m) in
        let Izz := reduction l (fun m dx dy dz => dz * dz * m) in
        let Ixy := reduction l (fun m dx dy dz => dx * dy * m) in
        let Ixz := reduction l (fun m dx dy dz => dx * dz * m) in
        let Iyz := reduction l (fun m dx dy dz => dy * dz * m) in
        let Ixxw := reduction l (fun m dx dy dz => dx * dx / dr2_over_m m dx dy dz) in
        let Iyyw := reduction l (fun m dx dy dz => dy * dy / dr2_over_m m dx dy dz) in
        let Izzw := reduction l (fun m dx dy dz => dz * dz / dr2_over_m m dx dy dz) in
        let Ixyw := reduction l (fun m dx dy dz => dx * dy / dr2_over_m m dx dy dz) in
        let Ixzw := reduction l (fun m dx dy dz => dx * dz / dr2_over_m m dx dy dz) in
        let Iyzw := reduction l (fun m dx dy dz => dy * dz / dr2_over_m m dx dy dz) in
        (map (fun I => I / Mbound) [Ixx; Ixy; Ixz; Iyy; Iyz; Izz], map (fun I => I / Mbound) [Ixxw; Ixyw; Ixzw; Iyyw; Iyzw; Izzw],
         eigen_axis Ixx Ixy Ixz Iyy Iyz Izz, eigen_axis Ixxw Ixyw Ixzw Iyyw Iyzw Izzw)
    end.
End Eigen.
