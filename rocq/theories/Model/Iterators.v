(** Model of the iterators over the particles (or nests) of a range of objects (src/halo_particle_iterator.h).  Iterators are
    positions: an object is its number in the range, a particle its number in the list of the object.  Dereferencing or
    comparing at an object that is not in the range is undefined behaviour ([None]). *)
From Coq Require Import List.
From Verif.Model Require Import ListMem Run.
Import ListNotations.

Section Iter.
  Context {A : Type}.
  (** The lists of the objects from [begin] to [end]. *)
  Variable objs : list (list A).
  (** FirstHalo, CurrHalo and CurrPart (src/halo_particle_iterator.h:8-9); EndHalo is the length of [objs]. *)
  Record iter := { it_first : nat; it_halo : nat; it_part : nat }.
  (** src/halo_particle_iterator.h:18-19, the loop that skips the empty objects in front. *)
  Fixpoint skip_empty (from : nat) (l : list (list A)) : nat := match l with [] :: r => skip_empty (S from) r | _ => from end.
  (** src/halo_particle_iterator.h:24-29 [reset]. *)
  Definition reset (it : iter) : iter := {| it_first := it_first it; it_halo := it_first it; it_part := 0 |}.
  (** src/halo_particle_iterator.h:16-23 [init]. *)
  Definition init : iter := reset {| it_first := skip_empty 0 objs; it_halo := 0; it_part := 0 |}.
  (** src/halo_particle_iterator.h:48-51 [is_end]. *)
  Definition is_end (it : iter) : bool := Nat.eqb (it_halo it) (length objs).
  (** src/halo_particle_iterator.h:44-47 [operator *]. *)
  Definition deref (it : iter) : option A := match nth_error objs (it_halo it) with Some l => nth_error l (it_part it) | None => None end.
  (** src/halo_particle_iterator.h:37-42, the loop of [operator ++]; [fuel] bounds its turns by the number of objects. *)
  Fixpoint advance (fuel : nat) (it : iter) : option iter :=
    match fuel with
    | 0 => None
    | S f => match nth_error objs (it_halo it) with
             | None => None
             | Some l => if Nat.eqb (it_part it) (length l)
                         then let it1 := {| it_first := it_first it; it_halo := S (it_halo it); it_part := it_part it |} in
                              if is_end it1 then Some it1 else advance f {| it_first := it_first it; it_halo := S (it_halo it); it_part := 0 |}
                         else Some it
             end
    end.
  (** src/halo_particle_iterator.h:34-43 [operator ++]. *)
  Definition next (it : iter) : option iter :=
    advance (S (length objs)) {| it_first := it_first it; it_halo := it_halo it; it_part := S (it_part it) |}.
  (** for(it.reset(); !it.is_end(); ++it) body( *it ), the use in src/mymath.h and src/particle_exchanger.h; collects what is seen. *)
  Fixpoint collect (fuel : nat) (it : iter) : run (list A) :=
    match fuel with
    | 0 => Running
    | S f => if is_end it then Done []
             else match deref it, next it with
                  | Some x, Some it' => rbind (collect f it') (fun l => Done (x :: l))
                  | _, _ => Crash
                  end
    end.
End Iter.
