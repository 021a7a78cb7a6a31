(** Model of the density-profile properties of a subhalo (src/subhalo.cpp:242-330) and of the spherical overdensity sizes
    (src/snapshot.cpp:239-281).  Distances and masses are exact rationals; sqrt and the cube root are arbitrary functions;
    std::sort is any function returning a sorted permutation. *)
From Coq Require Import List ZArith QArith Bool.
From Verif.Model Require Import ListMem Tree.
Import ListNotations.
Local Open Scope Q_scope.

(** src/snapshot.cpp:250-253 and 270-280 share the loop from the outermost particle inwards; entries are (r, enclosed mass). *)
Fixpoint scan (rho : Q) (outer_first : list (Q * Q)) : option (Q * Q) :=
  match outer_first with
  | [] => None
  | p :: t => if Qgtb (snd p) (rho * fst p * fst p * fst p) then Some p else scan rho t
  end.
Section Sizes.
  Variable cbrt : Q -> Q.
  (** src/snapshot.cpp:259-281 [SphericalOverdensitySize] for a profile: (Mvir, Rvir) are output parameters, returned as they
      are left. *)
  Definition so_profile (rho : Q) (prof : list (Q * Q)) (old : Q * Q) : Q * Q :=
    match scan rho (rev prof) with Some p => (snd p, cbrt (snd p / rho)) | None => old end.
  (** src/snapshot.cpp:239-258 [SphericalOverdensitySize] for equal masses: the loop over i = np ... 1. *)
  Fixpoint so_count (rho : Q) (outer_first : list Q) : nat :=
    match outer_first with
    | [] => 0
    | r :: t => if Qgtb (inject_Z (Z.of_nat (S (length t)))) (rho * r * r * r) then S (length t) else so_count rho t
    end.
  Definition so_equal (rho mass : Q) (rsorted : list Q) : Q * Q :=
    let i := inject_Z (Z.of_nat (so_count rho (rev rsorted))) in (i * mass, cbrt (i / rho)).
End Sizes.

(** src/subhalo.cpp:298-299. *)
Fixpoint cumulate (acc : Q) (l : list (Q * Q)) : list (Q * Q) :=
  match l with [] => [] | p :: t => let a := acc + snd p in (fst p, a) :: cumulate a t end.
(** src/subhalo.cpp:304. *)
Definition soften (soft : Q) (p : Q * Q) : Q * Q := (if Qgtb soft (fst p) then soft else fst p, snd p).
(** src/subhalo.cpp:305: v**2. *)
Definition v2 (p : Q * Q) : Q := snd p / fst p.
(** std::max_element with CompProfVel (src/subhalo.cpp:237-240, 308): the first of the largest. *)
Fixpoint max_from (best : Q * Q) (l : list (Q * Q)) : Q * Q :=
  match l with [] => best | p :: t => max_from (if Qgtb (v2 p) (v2 best) then p else best) t end.
Record props := { o_rmax : Q; o_vmax : Q; o_r2sigma : Q; o_rhalf : Q; o_r200 : Q; o_m200 : Q; o_lastv : Q; o_lastsnap : Z }.
Section Profile.
  Variables (cbrt sqrt : Q -> Q) (sort : list (Q * Q) -> list (Q * Q)).
  (** SofteningHalo; RhoVirial of src/snapshot.cpp:268 for virialF_c200; VelocityUnit (src/subhalo.cpp:282); the snapshot. *)
  Variables (soft rho unit : Q) (snap : Z).
  (** src/subhalo.cpp:286-307: [ps] are the (distance to the most bound particle, mass) of the bound particles. *)
  Definition profile (ps : list (Q * Q)) : list (Q * Q) := map (soften soft) (cumulate 0 (sort ps)).
  (** src/subhalo.cpp:242-324 [CalculateProfileProperties]; [old] are the fields before.  (HBTInt)(Nbound*0.955) is taken in
      exact arithmetic.  [None]: access out of the profile. *)
  Definition calc (old : props) (ps : list (Q * Q)) : option props :=
    let n := length ps in
    if (n <=? 1)%nat then Some {| o_rmax := 0; o_vmax := 0; o_r2sigma := 0; o_rhalf := 0; o_r200 := 0; o_m200 := 0; o_lastv := o_lastv old; o_lastsnap := o_lastsnap old |}
    else
      let prof := profile ps in
      match prof, nth_error prof (n / 2), nth_error prof (955 * n / 1000) with
      | p0 :: t, Some ph, Some p2 =>
          let best := max_from p0 t in
          let vmax := sqrt (v2 best * unit) in
          let so := so_profile cbrt rho prof (o_m200 old, o_r200 old) in
          let new := Qle_bool (o_lastv old) vmax in
          Some {| o_rmax := fst best; o_vmax := vmax; o_r2sigma := fst p2; o_rhalf := fst ph; o_r200 := snd so; o_m200 := fst so;
                  o_lastv := if new then vmax else o_lastv old; o_lastsnap := if new then snap else o_lastsnap old |}
      | _, _, _ => None
      end.
End Profile.
