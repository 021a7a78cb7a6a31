(** Model of the energies and reference frames of the unbinding loop (src/subhalo_unbind.cpp), with exact numbers.  The loop
    itself is that of Unbind.v, whose energies are left open; here they are computed.  The potential of a tree is the direct
    sum over its particles of a pair function [phi] (C47). *)
From Coq Require Import List ZArith QArith Bool.
From Verif.Model Require Import ListMem Mpi Run Mymath Tree Unbind.
Import ListNotations.
Local Open Scope nat_scope.

(** Particle_t: comoving position, physical velocity, mass, internal energy. *)
Record particle := { p_x : vec; p_v : vec; p_m : Q; p_u : Q }.
(** Comoving position and physical velocity of a reference frame. *)
Definition frame := (vec * vec)%type.
Definition dot (a b : vec) : Q := let '(a0, a1, a2) := a in let '(b0, b1, b2) := b in (a0 * b0 + a1 * b1 + a2 * b2)%Q.
Definition scale (c : Q) (a : vec) : vec := vmap (fun x => (c * x)%Q) a.
Definition Qneg (e : Q) : bool := Qgtb 0 e.
Definition Qpos (e : Q) : bool := Qgtb e 0.

Section Frames.
  Local Notation entry := (nat * Q)%type.
  (** Particles[pid]. *)
  Variable body : nat -> particle.
  (** PeriodicBoundaryOn, BoxSize. *)
  Variables (periodic : bool) (L : Q).
  (** Cosmology.Hz*Cosmology.ScaleFactor; G/ScaleFactor; SofteningHalo; the pair function (source, target). *)
  Variables (hubble unit soft : Q) (phi : vec -> vec -> Q).
  Variable sorter : sort_site -> list entry -> list entry.
  (** MinNumPartOfSub, BoundMassPrecision, MaxSampleSizeOfPotentialEstimate (0: none), RefineMostboundParticle. *)
  Variables (min_part : nat) (converged : nat -> nat -> bool) (max_sample : nat) (refine : bool).

  (** src/snapshot.h:100-111 [RelativeVelocity]. *)
  Definition rel_vel (x v : vec) (f : frame) : vec := vmap2 Qplus (vmap2 Qminus v (snd f)) (scale hubble (apart periodic L x (fst f))).
  (** src/gravity_tree.cpp:79-164 [EvaluatePotential] for the tree of the particles [ids], whose masses are multiplied by
      [factor]; [self] is the mass of the target if it is in the tree. *)
  Definition attraction (factor : Q) (ids : list nat) (self : Q) (x : vec) : Q :=
    (unit * fold_left (fun a i => a + p_m (body i) * factor * phi (p_x (body i)) x) ids (self / soft))%Q.
  (** src/gravity_tree.cpp:166-175 [BindingEnergy]. *)
  Definition binding (factor : Q) (ids : list nat) (self : Q) (f : frame) (p : particle) : Q :=
    (norm2 (rel_vel (p_x p) (p_v p) f) * (1 # 2) + attraction factor ids self (p_x p))%Q.

  Definition on_first (n : nat) (e : nat -> entry -> Q) (l : list entry) : list entry :=
    map (fun ie => if fst ie <? n then (fst (snd ie), e (fst ie) (snd ie)) else snd ie) (combine (seq 0 (length l)) l).
  (** src/subhalo_unbind.cpp:325-348: all energies anew, from a sample if there are many.  InternalEnergy is added if
      UNBIND_WITH_THERMAL_ENERGY is on (otherwise take it as 0). *)
  Definition evaluate_all (f : frame) (nb : nat) (l : list entry) : list entry :=
    let sampled := (0 <? max_sample) && (max_sample <? nb) in
    let np := if sampled then max_sample else nb in
    let factor := if sampled then (inject_Z (Z.of_nat nb) / inject_Z (Z.of_nat max_sample))%Q else 1%Q in
    let tree := map fst (firstn np l) in
    on_first nb (fun i e => let p := body (fst e) in (binding factor tree (if i <? np then p_m p * factor else 0) f p + p_u p)%Q) l.
  (** src/subhalo_unbind.cpp:302-324: the correction for the particles [nb .. last-1], which were removed, and for the change
      of the frame from [old] to [f]. *)
  Definition correct (old f : frame) (last nb : nat) (l : list entry) : list entry :=
    let diff := rel_vel (fst old) (snd old) f in
    let dk := ((1 # 2) * norm2 diff)%Q in
    let removed := map fst (firstn (last - nb) (skipn nb l)) in
    on_first nb (fun _ e => let p := body (fst e) in (snd e + (dot (rel_vel (p_x p) (p_v p) old) diff + dk - attraction 1 removed 0 (p_x p)))%Q) l.

  (** src/subhalo_unbind.cpp:108-138 [AverageVelocity] and 139-188 [AveragePosition]; with no particles nothing is written. *)
  Definition mass_of (ids : list nat) : Q := fold_left (fun a i => (a + p_m (body i))%Q) ids 0%Q.
  Definition weighted (g : nat -> vec) (ids : list nat) : vec :=
    vmap (fun s => (s / mass_of ids)%Q) (fold_left (fun a i => vadd a (g i) (p_m (body i))) ids (0, 0, 0)%Q).
  Definition average_velocity (ids : list nat) (before : vec) : vec :=
    match ids with [] => before | [i] => p_v (body i) | _ => weighted (fun i => p_v (body i)) ids end.
  Definition average_position (ids : list nat) (before : vec) : vec :=
    match ids with
    | [] => before
    | [i] => p_x (body i)
    | o :: _ =>
        if periodic then vmap2 Qplus (weighted (fun i => apart true L (p_x (body i)) (p_x (body o))) ids) (p_x (body o))
        else weighted (fun i => p_x (body i)) ids
    end.
  Definition average_frame (ids : list nat) (before : frame) : frame := (average_position ids (fst before), average_velocity ids (snd before)).

  (** The loop: CorrectionLoop, the frame (RefPos, RefVel), (OldRefPos, OldRefVel), Elist, Nlast of the turn before, Nbound. *)
  Record ustate := { u_corr : bool; u_ref : frame; u_old : frame; u_list : list entry; u_last : nat; u_nb : nat }.
  Definition energies (st : ustate) : list entry :=
    if u_corr st then correct (u_old st) (u_ref st) (u_last st) (u_nb st) (u_list st) else evaluate_all (u_ref st) (u_nb st) (u_list st).
  (** src/subhalo_unbind.cpp:377-383: whether the next turn may correct. *)
  Definition small_change (nb nb1 : nat) : bool := (nb - nb1 <? nb1) && ((max_sample =? 0) || (nb - nb1 <? max_sample)).
  (** src/subhalo_unbind.cpp:300-416, one turn: the next state, or the end with the final frame. *)
  Definition turn (st : ustate) : run (ustate + (ending * frame)) :=
    let nb := u_nb st in
    if (if u_corr st then u_last st =? nb else nb =? 0) then Crash else
    rbind (partition_energy Qneg Qpos (energies st) nb) (fun r =>
    let (l1, nb1) := r in
    if nb1 <? min_part then Done (inr (Disrupted l1, u_ref st))
    else
      let l2 := firstn nb1 l1 ++ sorter SortUnbound (firstn (nb - nb1) (skipn nb1 l1)) ++ skipn nb l1 in
      let small := small_change nb nb1 in
      let f := average_frame (map fst (firstn nb1 l2)) (u_ref st) in
      if converged nb nb1 then
        let l3 := sorter SortBound (firstn nb1 l2) ++ skipn nb1 l2 in
        rbind (of_opt (if (0 <? max_sample) && refine && (max_sample <? nb1)
                       then refine_order sorter (fun _ l i => match nth_error l i with
                                                              | Some e => let p := body (fst e) in binding 1 (map fst (firstn max_sample l)) (p_m p) f p
                                                              | None => 0%Q end) (@nil (Z * Datatypes.unit), tt) max_sample l3
                       else Some l3))
          (fun l4 => Done (inr (Converged l4 nb1, f)))
      else Done (inl {| u_corr := u_corr st || small; u_ref := f; u_old := if small then u_ref st else u_old st; u_list := l2; u_last := nb; u_nb := nb1 |})).
  Fixpoint frames_loop (fuel : nat) (st : ustate) : run (ending * frame) :=
    match fuel with
    | O => Running
    | S n => rbind (turn st) (fun r => match r with inl st' => frames_loop n st' | inr e => Done e end)
    end.
  (** src/subhalo_unbind.cpp:286-300: the first state, with [n] particles; OldRefPos and OldRefVel are not initialised. *)
  Definition first_state (n : nat) (f old : frame) : ustate :=
    {| u_corr := false; u_ref := f; u_old := old; u_list := map (fun i => (i, 0%Q)) (seq 0 n); u_last := 0; u_nb := n |}.
End Frames.
