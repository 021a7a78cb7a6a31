(** Model of the counting of bound particles by type (src/subhalo.cpp:400-444 and 479-499), without DM_ONLY.  Masses are exact
    rationals (float and HBTReal in the code). *)
From Coq Require Import List ZArith QArith Bool.
From Verif.Model Require Import ListMem.
Import ListNotations.
Local Open Scope nat_scope.

(** src/datatypes.h:179-188: TypeMax. *)
Definition type_max : nat := 6.
(** What the functions look at in a particle: Id, Type and Mass. *)
Record particle := mkpart { q_id : Z; q_type : nat; q_mass : Q }.
(** NboundType and MboundType. *)
Definition tallies : Type := list nat * list Q.
Definition no_tallies : tallies := (repeat 0 type_max, repeat 0%Q type_max).
(** src/subhalo.cpp:421-423 = 438-440 = 492-494: one particle; a type beyond TypeMax is written out of bounds. *)
Definition tally (p : particle) (t : tallies) : option tallies :=
  match nth_error (fst t) (q_type p), nth_error (snd t) (q_type p) with
  | Some n, Some m => match upd (fst t) (q_type p) (S n), upd (snd t) (q_type p) (m + q_mass p)%Q with Some ns, Some ms => Some (ns, ms) | _, _ => None end
  | _, _ => None
  end.

(** src/subhalo.cpp:479-499 [CountParticles]: (NboundType, MboundType) and Mbound.  Particles.begin()+Nbound past the end is
    undefined. *)
Definition count_particles (parts : list particle) (nbound : nat) : option (tallies * Q) :=
  if length parts <? nbound then None
  else option_map (fun t => (t, fold_left Qplus (snd t) 0%Q)) (for_each (firstn nbound parts) tally no_tallies).

(** src/subhalo.cpp:434-441: the loop for few particles, which skips consumed ones. *)
Definition count_serial (parts : list particle) (nbound : nat) : option tallies :=
  if length parts <? nbound then None
  else for_each (firstn nbound parts) (fun p t => if Z.eqb (q_id p) (-1) then Some t else tally p t) no_tallies.
(** src/subhalo.cpp:412-424: the part of one thread; [indices]: the turns of the loop it is given. *)
Definition count_thread (parts : list particle) (indices : list nat) : option tallies :=
  for_each indices (fun i t => match nth_error parts i with Some p => tally p t | None => None end) no_tallies.
(** src/subhalo.cpp:425-430: the critical section. *)
Definition add_tallies (a b : tallies) : tallies :=
  (map (fun xy => fst xy + snd xy) (combine (fst a) (fst b)), map (fun xy => fst xy + snd xy)%Q (combine (snd a) (snd b))).
(** src/subhalo.cpp:410-431: [threads] in the order in which they reach the critical section. *)
Definition count_parallel (parts : list particle) (threads : list (list nat)) : option tallies :=
  for_each threads (fun ix t => option_map (add_tallies t) (count_thread parts ix)) no_tallies.
(** src/subhalo.cpp:400-444 [CountParticleTypes]. *)
Definition count_types (parts : list particle) (nbound : nat) (threads : list (list nat)) : option tallies :=
  if 100 <? nbound then count_parallel parts threads else count_serial parts nbound.
