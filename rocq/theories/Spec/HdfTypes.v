(** What a catalogue holds of a structure. *)
From Coq Require Import List Arith ZArith Bool String.
From Verif.Model Require Import MpiTypes HdfTypes.
From Verif.Spec Require Import MpiTypes.
Import ListNotations.

(** The members of a structure that are numbers. *)
Definition is_number (m : member) : bool := match m_type m with Other _ => false | _ => true end.
(** A field of the file, as a member. *)
Definition as_member (f : field) : member := mkmember (ctype_of (f_type f)) (f_name f) (f_count f).
(** Fields that follow one another without gaps from byte [start] on. *)
Fixpoint gapless (b : build) (start : nat) (t : list (field * nat)) : Prop :=
  match t with [] => True | (f, o) :: r => o = start /\ gapless b (start + m_size b (as_member f)) r end.
