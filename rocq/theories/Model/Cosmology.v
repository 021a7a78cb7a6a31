(** Model of the cosmology of a snapshot (src/snapshot.h:17-39), of the units (src/config_parser.cpp:95-96), of the virial factors
    and of the spherical overdensity sizes (src/snapshot.cpp:239-337).  Numbers are exact real numbers: rounding to double and
    HBTReal is not modelled, and [sqrt] of the standard library gives 0 where the code gets NaN for a negative argument. *)
From Coq Require Import List Reals.
From Verif.Model Require Import Run.
Import ListNotations.
Local Open Scope R_scope.

(** src/snapshot.h:19-25. *)
Record cosmology := mkcosmology { OmegaM0 : R; OmegaLambda0 : R; ScaleFactor : R; Hz : R; OmegaZ : R }.

(** src/config_parser.cpp:95. *)
Definition set_G (mass_in_msunh vel_in_kms length_in_mpch : R) : R :=
  430071 / 10000 * (mass_in_msunh / 10000000000) / vel_in_kms / vel_in_kms / length_in_mpch.
(** src/config_parser.cpp:96. *)
Definition set_H0 (vel_in_kms length_in_mpch : R) : R := 100 * (1 / vel_in_kms) / (1 / length_in_mpch).

(** src/snapshot.h:32-34. *)
Definition Hratio (scalefactor omega0 omegaLambda0 : R) : R :=
  sqrt (omega0 / (scalefactor * scalefactor * scalefactor) + (1 - omega0 - omegaLambda0) / (scalefactor * scalefactor) + omegaLambda0).
(** src/snapshot.h:27-38 [Cosmology_t::Set]. *)
Definition Set_cosmology (H0 scalefactor omega0 omegaLambda0 : R) : cosmology :=
  let h := Hratio scalefactor omega0 omegaLambda0 in
  mkcosmology omega0 omegaLambda0 scalefactor (h * H0) (omega0 / (scalefactor * scalefactor * scalefactor) / h / h).

(** src/io/subhalo_io.cpp:307-311: the numbers stored in the group Cosmology of a catalogue: OmegaM0, OmegaLambda0, HubbleParam,
    ScaleFactor. *)
Definition save_cosmology (c : cosmology) : R * R * R * R := (OmegaM0 c, OmegaLambda0 c, Hz c, ScaleFactor c).
(** src/io/subhalo_io.cpp:184-188: HubbleParam is read into Hz, which Set then overwrites. *)
Definition load_cosmology (H0 : R) (file : R * R * R * R) : cosmology :=
  let '(om, ol, hz, a) := file in Set_cosmology H0 a om ol.

(** src/snapshot.cpp:328-337 [Snapshot_t::HaloVirialFactors]: (tophat, b200, c200).  Hratio of line 331 is never used. *)
Definition HaloVirialFactors (c : cosmology) : R * R * R :=
  let x := OmegaZ c - 1 in
  (18 * (31416 / 10000) * (31416 / 10000) + 82 * x - 39 * x * x, 200 * OmegaZ c, 200).

(** pow(x, 1.0/3) for x >= 0; for x < 0 the code gets NaN, which is not modelled.  src/snapshot.cpp:257, 277, 298, 319. *)
Definition pow_third (x : R) : R := if Rlt_dec 0 x then Rpower x (/ 3) else 0.

Section Sizes.
  (** PhysicalConst::G and the cosmology of the snapshot. *)
  Variables (G : R) (c : cosmology).

  (** src/snapshot.cpp:268. *)
  Definition rho_virial (factor : R) : R := factor * Hz c * Hz c / 2 / G * ScaleFactor c * ScaleFactor c * ScaleFactor c.
  (** src/snapshot.cpp:270-280: the loop from the outermost particle inwards; entries are (r, enclosed mass). *)
  Fixpoint scan (rho : R) (outer_first : list (R * R)) : option (R * R) :=
    match outer_first with
    | [] => None
    | p :: t => if Rlt_dec (rho * fst p * fst p * fst p) (snd p) then Some p else scan rho t
    end.
  (** src/snapshot.cpp:259-281 [SphericalOverdensitySize] for a profile: (Mvir, Rvir); None when they are left as they were. *)
  Definition size_of_profile (factor : R) (prof : list (R * R)) : option (R * R) :=
    match scan (rho_virial factor) (rev prof) with
    | Some p => Some (snd p, pow_third (snd p / rho_virial factor))
    | None => None
    end.

  (** src/snapshot.cpp:250. *)
  Definition rho_virial_number (factor particle_mass : R) : R :=
    factor * Hz c * Hz c / 2 / G / particle_mass * ScaleFactor c * ScaleFactor c * ScaleFactor c.
  (** src/snapshot.cpp:251-255: the loop for i = np ... 1; the list runs from the outermost particle inwards, so i is the number
      of its remaining elements. *)
  Fixpoint scan_number (rho : R) (outer_first : list R) : nat :=
    match outer_first with
    | [] => 0
    | r :: t => if Rlt_dec (rho * r * r * r) (INR (S (length t))) then S (length t) else scan_number rho t
    end.
  (** src/snapshot.cpp:239-258 [SphericalOverdensitySize] for equal masses. *)
  Definition size_of_sorted (factor particle_mass : R) (rsorted : list R) : R * R :=
    let i := scan_number (rho_virial_number factor particle_mass) (rev rsorted) in
    (INR i * particle_mass, pow_third (INR i / rho_virial_number factor particle_mass)).

  (** src/snapshot.cpp:298, 319. *)
  Definition radius_of (factor particle_mass : R) (ndiv : nat) : R :=
    pow_third (2 * G * INR ndiv * particle_mass / factor / Hz c / Hz c) / ScaleFactor c.
  (** src/snapshot.cpp:303-307: i = ndiv-1 ... 0 until RSorted[i] < rvir; returns i+1. *)
  Fixpoint reduce_guess (rsorted : list R) (rvir : R) (ndiv : nat) : option nat :=
    match ndiv with
    | O => Some O
    | S i => match nth_error rsorted i with
             | None => None
             | Some r => if Rlt_dec r rvir then Some (S i) else reduce_guess rsorted rvir i
             end
    end.
  (** src/snapshot.cpp:311-315: i = ndiv ... np-1 until RSorted[i] >= rvir; returns i.  The list is RSorted from ndiv on. *)
  Fixpoint raise_guess (rest : list R) (rvir : R) (i : nat) : nat :=
    match rest with
    | [] => i
    | r :: t => if Rle_dec rvir r then i else raise_guess t rvir (S i)
    end.
  (** src/snapshot.cpp:299-322: the loop; one unit of fuel per iteration, [Running] when the fuel is used up, [Crash] for an
      access outside RSorted.  The conditions of line 321 are evaluated from left to right. *)
  Fixpoint guess_loop (fuel : nat) (factor particle_mass : R) (rsorted : list R) (ndiv : nat) (rdiv rvir : R) : run (nat * R) :=
    match fuel with
    | O => Running
    | S fuel =>
        match (if Rlt_dec rvir rdiv then reduce_guess rsorted rvir ndiv
               else if Rlt_dec rdiv rvir then Some (raise_guess (skipn ndiv rsorted) rvir ndiv)
               else Some ndiv) with
        | None => Crash
        | Some ndiv' =>
            let rdiv' := rvir in
            let rvir' := radius_of factor particle_mass ndiv' in
            if (ndiv' =? 0)%nat then Done (ndiv', rvir')
            else if (length rsorted =? ndiv')%nat then Done (ndiv', rvir')
            else if Rlt_dec (Rabs ((rvir' - rdiv') / rvir')) (1 / 100000) then Done (ndiv', rvir')
            else guess_loop fuel factor particle_mass rsorted ndiv' rdiv' rvir'
        end
    end.
  (** src/snapshot.cpp:282-326 [SphericalOverdensitySize2]: (Mvir, Rvir); RSorted[np-1] is read also when np is 0. *)
  Definition size_of_sorted2 (fuel : nat) (factor particle_mass : R) (rsorted : list R) : run (R * R) :=
    match rsorted with
    | [] => Crash
    | r0 :: _ =>
        let ndiv := length rsorted in
        rbind (guess_loop fuel factor particle_mass rsorted ndiv (last rsorted r0) (radius_of factor particle_mass ndiv))
             (fun out => Done (INR (fst out) * particle_mass, snd out))
    end.
End Sizes.
