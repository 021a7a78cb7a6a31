(** Model of [SubhaloSnapshot_t::PurgeMostBoundParticles] (src/subhalo_tracking.cpp:562-594), called from [UpdateTracks] with
    INCLUSIVE_MASS.  Particles are abstract but for id, position and velocity; the set of excluded ids is a list. *)
From Coq Require Import List ZArith Bool Arith.
From Verif.Model Require Import ListMem.
Import ListNotations.

Local Notation "'let?' p := e 'in' k" := (match e with Some p => k | None => None end) (at level 200, p pattern, right associativity).

Section Purge.
  Context {P V : Type}.
  Variables (p_id : P -> Z) (p_pos p_vel : P -> V).
  (** The fields of Subhalo_t that are used: Nbound, Particles, ComovingMostBoundPosition, PhysicalMostBoundVelocity. *)
  Record sub := mksub { u_nbound : Z; u_parts : list P; u_pos : V; u_vel : V }.

  Definition excluded (ex : list Z) (p : P) : bool := existsb (Z.eqb (p_id p)) ex.

  (** src/subhalo_tracking.cpp:579-591: the loop over the particles, at index [i] with [rest] before it.  The swap is followed
      by a break, so [rest] is never changed under the loop. *)
  Fixpoint promote (ex : list Z) (s : sub) (i : nat) (rest : list P) : option sub :=
    match rest with
    | [] => Some s
    | p :: r =>
        if negb (excluded ex p) then
          if negb (i =? 0) then
            let? p0 := nth_error (u_parts s) 0 in
            let? l := upd (u_parts s) 0 p in
            let? l := upd l i p0 in
            Some (mksub (u_nbound s) l (p_pos p) (p_vel p))
          else promote ex s (S i) r
        else promote ex s (S i) r
    end.

  (** src/subhalo_tracking.cpp:580-593: one turn of the loop over the members, with the list of excluded ids. *)
  Definition turn (subid : nat) (st : list sub * list Z) : option (list sub * list Z) :=
    let (subs, ex) := st in
    let? s := nth_error subs subid in
    if (1 <? u_nbound s)%Z then
      let? s' := promote ex s 0 (u_parts s) in
      let? subs' := upd subs subid s' in
      Some (subs', ex ++ map p_id (u_parts s'))
    else Some (subs, ex).
  (** src/subhalo_tracking.cpp:572-594: one group, from its last member to its first. *)
  Definition purge_group (group : list nat) (subs : list sub) : option (list sub) :=
    let? (subs', _) := for_each (rev group) turn (subs, []) in Some subs'.
  (** src/subhalo_tracking.cpp:569-594: [groups] are the groups -1, 0, 1, ... in the order in which the threads get to them;
      they share no member (C21), so that threads do not meet. *)
  Definition purge (groups : list (list nat)) (subs : list sub) : option (list sub) := for_each groups purge_group subs.
End Purge.
Arguments sub : clear implicits.
Arguments mksub {P V}. Arguments u_nbound {P V} _. Arguments u_parts {P V} _. Arguments u_pos {P V} _. Arguments u_vel {P V} _.
