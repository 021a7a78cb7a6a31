(** Model of the averages reported for a subhalo: coordinates (src/snapshot.cpp:155-236, src/subhalo.cpp:223-233), the core used
    to detect sinking (src/subhalo_merge.cpp:29-120), energies and angular momentum (src/subhalo_unbind.cpp:190-233) and the
    tensors of inertia (src/subhalo.cpp:338-396).  Numbers are exact; a division by zero, which gives NaN or infinities, is None.
    Roots are left out: dispersions are squared here. *)
From Coq Require Import List ZArith QArith Bool.
From Verif.Model Require Import Mymath Tree.
Import ListNotations.
Local Open Scope nat_scope.

(** Particle_t: ComovingPosition, PhysicalVelocity, Mass. *)
Record body := mkbody { b_x : vec; b_v : vec; b_m : Q }.

(** A loop with OpenMP's reduction(+:...): each thread adds up the turns it is given, then the sums of the threads are added.
    [threads] lists the elements of each thread; a serial loop is one thread. *)
Definition reduce {A} (threads : list (list A)) (f : A -> Q) : Q :=
  fold_left Qplus (map (fun l => fold_left (fun a x => (a + f x)%Q) l 0%Q) threads) 0%Q.
Definition reduce3 {A} (threads : list (list A)) (f : A -> vec) : vec :=
  (reduce threads (fun x => let '(a, _, _) := f x in a), reduce threads (fun x => let '(_, b, _) := f x in b), reduce threads (fun x => let '(_, _, c) := f x in c)).
Definition over (s : vec) (m : Q) : vec := vmap (fun a => (a / m)%Q) s.
Definition times (c : Q) (a : vec) : vec := vmap (fun x => (x * c)%Q) a.

Section Means.
  (** HBTConfig.PeriodicBoundaryOn, HBTConfig.BoxSize. *)
  Variables (periodic : bool) (L : Q).

  (** src/snapshot.cpp:155-193 = 74-106 [AveragePosition] (serial) and src/subhalo_unbind.cpp:139-189 (parallel): the position and
      the returned mass; [before] is the old content of CoM. *)
  Definition average_position (parts : list body) (threads : list (list body)) (before : vec) : option (vec * Q) :=
    match parts with
    | [] => Some (before, 0%Q)
    | [p] => Some (b_x p, b_m p)
    | o :: _ =>
        let msum := reduce threads b_m in
        if Qeq_bool msum 0 then None
        else Some (if periodic then vmap2 Qplus (over (reduce3 threads (fun p => times (b_m p) (apart true L (b_x p) (b_x o)))) msum) (b_x o)
                   else over (reduce3 threads (fun p => times (b_m p) (b_x p))) msum, msum)
    end.
  (** src/snapshot.cpp:194-224 = 107-133 [AverageVelocity] (serial) and src/subhalo_unbind.cpp:108-138 (parallel). *)
  Definition average_velocity (parts : list body) (threads : list (list body)) (before : vec) : option (vec * Q) :=
    match parts with
    | [] => Some (before, 0%Q)
    | [p] => Some (b_v p, b_m p)
    | _ => let msum := reduce threads b_m in
           if Qeq_bool msum 0 then None else Some (over (reduce3 threads (fun p => times (b_m p) (b_v p))) msum, msum)
    end.

  (** src/subhalo.cpp:223-233 [AverageCoordinates]: most bound position and velocity, average position and velocity, with the
      old values [mb], [mbv], [av], [avv].  Nbound beyond the end of Particles is undefined. *)
  Definition average_coordinates (parts : list body) (nbound : nat) (mb mbv av avv : vec) : option (vec * vec * vec * vec) :=
    if length parts <? nbound then None else
    let bound := firstn nbound parts in
    let '(x0, v0) := match parts with [] => (mb, mbv) | p :: _ => (b_x p, b_v p) end in
    match average_position bound [bound] av, average_velocity bound [bound] avv with
    | Some (x, _), Some (v, _) => Some (x0, v0, x, v)
    | _, _ => None
    end.

  (** src/subhalo_merge.cpp:11: NumPartCoreMax. *)
  Definition core_max : nat := 20.
  (** One coordinate of lines 66-79 and 112-119: mean and dispersion of [dx], whose sums are [sx] and [sx2]. *)
  Definition spread (sx sx2 msum : Q) : Q * Q := let mean := (sx / msum)%Q in (mean, (sx2 / msum - mean * mean)%Q).
  Definition spreads (core : list body) (dx : body -> vec) : option (vec * Q) :=
    let msum := reduce [core] b_m in
    let '(s0, s1, s2) := reduce3 [core] (fun p => times (b_m p) (dx p)) in
    let '(t0, t1, t2) := reduce3 [core] (fun p => times (b_m p) (vmap (fun d => (d * d)%Q) (dx p))) in
    if Qeq_bool msum 0 then None
    else let '(a0, d0) := spread s0 t0 msum in let '(a1, d1) := spread s1 t1 msum in let '(a2, d2) := spread s2 t2 msum in
         Some ((a0, a1, a2), (d0 + d1 + d2)%Q).
  (** src/subhalo_merge.cpp:29-80 [SubHelper_t::BuildPosition]: ComovingPosition (with old value [before]) and the square of
      ComovingSigmaR. *)
  Definition build_position (parts : list body) (nbound : nat) (before : vec) : option (vec * Q) :=
    if length parts <? nbound then None else
    match firstn (Nat.min nbound core_max) parts with
    | [] => Some (before, 0%Q)
    | [p] => Some (b_x p, 0%Q)
    | (o :: _) as core =>
        option_map (fun r => (if periodic then vmap2 Qplus (fst r) (b_x o) else fst r, snd r))
          (spreads core (fun p => if periodic then apart true L (b_x p) (b_x o) else b_x p))
    end.
  (** src/subhalo_merge.cpp:81-120 [SubHelper_t::BuildVelocity]: PhysicalVelocity and the square of PhysicalSigmaV. *)
  Definition build_velocity (parts : list body) (nbound : nat) (before : vec) : option (vec * Q) :=
    if length parts <? nbound then None else
    match firstn (Nat.min nbound core_max) parts with
    | [] => Some (before, 0%Q)
    | [p] => Some (b_v p, 0%Q)
    | core => spreads core b_v
    end.

  (** src/subhalo_unbind.cpp:190-233 [AverageKinematics] for particles with their energies Elist[i].E: specific potential energy,
      specific kinetic energy and specific angular momentum. *)
  Definition cross (a b : vec) : vec :=
    let '(a0, a1, a2) := a in let '(b0, b1, b2) := b in (a1 * b2 - a2 * b1, a2 * b0 - a0 * b2, a0 * b1 - a1 * b0)%Q.
  Definition average_kinematics (scale hz : Q) (ref_pos ref_vel : vec) (parts : list (body * Q)) (threads : list (list (body * Q))) : option (Q * Q * vec) :=
    if length parts <=? 1 then Some (0%Q, 0%Q, (0, 0, 0)%Q)
    else
      let dx := fun p => times scale (apart periodic L (b_x (fst p)) ref_pos) in
      let dv := fun p => vmap2 Qplus (vmap2 Qminus (b_v (fst p)) ref_vel) (times hz (dx p)) in
      let m := reduce threads (fun p => b_m (fst p)) in
      let e := reduce threads (fun p => (snd p * b_m (fst p))%Q) in
      let k := reduce threads (fun p => (norm2 (dv p) * b_m (fst p))%Q) in
      let am := reduce3 threads (fun p => times (b_m (fst p)) (cross (dx p) (dv p))) in
      if Qeq_bool m 0 then None
      else let e := (e / m)%Q in let k := (k * ((1 # 2) / m))%Q in Some ((e - k)%Q, k, over am m).

  (** src/subhalo.cpp:338-396 [CalculateShape] without the eigenvectors (HAS_GSL): InertialTensor and InertialTensorWeighted, as
      (xx, xy, xz, yy, yz, zz); [mbound] is Mbound, [c] ComovingMostBoundPosition.  [threads] divides the particles
      1..Nbound-1. *)
  Definition tensor := (Q * Q * Q * Q * Q * Q)%type.
  Definition tensor_of (threads : list (list body)) (f : body -> vec -> Q -> Q) (c : vec) (mbound : Q) : tensor :=
    let d := fun p => apart periodic L (b_x p) c in
    let sum := fun g => (reduce threads (fun p => let '(x, y, z) := d p in f p (x, y, z) (g x y z)) / mbound)%Q in
    (sum (fun x y z => x * x)%Q, sum (fun x y z => x * y)%Q, sum (fun x y z => x * z)%Q, sum (fun x y z => y * y)%Q, sum (fun x y z => y * z)%Q, sum (fun x y z => z * z)%Q).
  Definition calculate_shape (parts : list body) (nbound : nat) (threads : list (list body)) (c : vec) (mbound : Q) : option (tensor * tensor) :=
    if nbound <=? 1 then Some ((0, 0, 0, 0, 0, 0)%Q, (0, 0, 0, 0, 0, 0)%Q)
    else if (length parts <? nbound) || Qeq_bool mbound 0 || existsb (fun p => Qeq_bool (norm2 (apart periodic L (b_x p) c)) 0) (concat threads) then None
    else Some (tensor_of threads (fun p _ q => (q * b_m p)%Q) c mbound, tensor_of threads (fun p d q => (q / (norm2 d / b_m p))%Q) c mbound).
End Means.
