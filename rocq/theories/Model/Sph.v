(** The density estimate of the spatial tree, src/geometric_tree.cpp and src/geometric_tree.h.  Positions, distances and radii are
    exact rationals. *)
From Coq Require Import List ZArith QArith Bool.
From Verif.Model Require Import Run Mymath Tree.
Import ListNotations.
Local Open Scope Z_scope.

Section Sph.
  (** src/geometric_tree.h:15-30 [NumNeighbourSPH], 64 unless [SetNumNeighbourSPH] changes it. *)
  Variable num : Z.
  (** Library functions: src/geometric_tree.cpp:168 pow(., 1.0/3.0), src/geometric_tree.cpp:179,187 sqrt, src/geometric_tree.cpp:178
      nth_element with src/datatypes.h:199-202 [CompLocatedDistance]: any functions. *)
  Variable root3 root2 : Q -> Q.
  Variable nth_element : nat -> list (Z * Q) -> list (Z * Q).
  Variable ps : list vec.
  Variable periodic : bool.
  Variable L : Q.

  (** src/geometric_tree.cpp:167-170: the next radius. *)
  Definition next_guess (h : Q) (numngb : Z) : Q :=
    if numngb =? 0 then (h * 2)%Q else (h * (root3 (inject_Z num / inject_Z numngb) * (11 # 10)))%Q.
  (** src/geometric_tree.cpp:163-175: the searches, with src/datatypes.h:208-224 [LocatedParticleCollector_t], which appends what
      is found and is cleared before each search.  [fuel] bounds the number of searches, [fuel1] each of them. *)
  Fixpoint sph_loop (fuel fuel1 : nat) (st : list (cell (vec * Z)) * list Z) (x : vec) (h : Q) (found : list (Z * Q)) : run (list (Z * Q)) :=
    let numngb := Z.of_nat (length found) in
    if numngb <? num then
      match fuel with
      | O => Running
      | S f => let h' := next_guess h numngb in
               rbind (search ps periodic L fuel1 st x h') (fun found => sph_loop f fuel1 st x h' found)
      end
    else Done found.

  (** src/geometric_tree.cpp:190-193: the weight of a particle, without the factor [hinv3]. *)
  Definition sph_weight (u : Q) : Q :=
    if Qgtb (1 # 2) u then ((2546479089470 # 1000000000000) + (15278874536822 # 1000000000000) * (u - 1) * u * u)%Q
    else ((5092958178941 # 1000000000000) * (1 - u) * (1 - u) * (1 - u))%Q.
  (** src/geometric_tree.cpp:182-198: the sum over the particles up to the pivot.  With h = 0 the code divides by zero and what
      it returns is not a number: None. *)
  Definition sph_sum (h : Q) (near : list (Z * Q)) : option Q :=
    if Qeq_bool h 0 then None
    else let hinv3 := (1 / (h * h * h))%Q in
         Some (fold_left (fun rho p => rho + hinv3 * sph_weight (root2 (snd p) / h))%Q near 0%Q).
  (** src/geometric_tree.cpp:159-199 [SphDensity]: the density and the new value of hguess.  With fewer than one neighbour the
      pivot lies before the vector. *)
  Definition sph_density (fuel fuel1 : nat) (st : list (cell (vec * Z)) * list Z) (x : vec) (hguess : Q) : run (option Q * Q) :=
    rbind (search ps periodic L fuel1 st x hguess) (fun found =>
    rbind (sph_loop fuel fuel1 st x hguess found) (fun founds =>
      if num <=? 0 then Crash
      else let pivot := Z.to_nat (num - 1) in
           let sorted := nth_element pivot founds in
           match nth_error sorted pivot with
           | None => Crash
           | Some p => let h := root2 (snd p) in Done (sph_sum h (firstn (S pivot) sorted), (h * (101 # 100))%Q)
           end)).
End Sph.
