(** What the transfer of a structure has to do. *)
From Coq Require Import List Arith Bool String.
From Verif.Model Require Import MpiTypes.
Import ListNotations.

(** A layout that a compiler may choose: the members in order, without overlap, from byte [start] on within [extent] bytes. *)
Fixpoint laid_out (b : build) (start : nat) (ms : list member) (offs : list nat) (extent : nat) : Prop :=
  match ms, offs with
  | [], [] => start <= extent
  | m :: ms, o :: offs => start <= o /\ laid_out b (o + m_size b m) ms offs extent
  | _, _ => False
  end.
(** [n] bytes from byte [o] on. *)
Definition part {B} (o n : nat) (l : list B) : list B := firstn n (skipn o l).
(** A structure received over [dst] from [src] has the members [sent] of [src] and the members [kept] of [dst]. *)
Definition arrives (b : build) (s : struct) (sent kept : string -> bool) : Prop :=
  forall (B : Type) offs extent (src dst : list B), laid_out b 0 (members s) offs extent -> length src = extent -> length dst = extent ->
  exists t dst', type_map b (members s) offs (attrs s) = Some t /\ transfer t src dst = Some dst' /\ length dst' = extent /\
    forall m o, In (m, o) (combine (members s) offs) -> (sent (m_name m) = true -> part o (m_size b m) dst' = part o (m_size b m) src) /\
      (kept (m_name m) = true -> part o (m_size b m) dst' = part o (m_size b m) dst).
(** What MPI asks of a datatype used to receive: no byte is received twice, and every attribute has the type and at most the
    length of its member. *)
Definition separate (t : list (nat * nat)) : Prop :=
  forall i j e e' p, nth_error t i = Some e -> nth_error t j = Some e' -> fst e <= p < fst e + snd e -> fst e' <= p < fst e' + snd e' -> i = j.
Definition typed (s : struct) : Prop := forall a, In a (attrs s) -> exists m, In m (members s) /\ m_name m = a_name a /\ m_type m = c_of (a_type a) /\ a_count a <= m_count m.
Definition legal (b : build) (s : struct) : Prop :=
  typed s /\ forall offs extent t, laid_out b 0 (members s) offs extent -> type_map b (members s) offs (attrs s) = Some t -> separate t.
(** The layout of the usual compilers: every number at a multiple of its size, vectors at multiples of 8. *)
Definition align (b : build) (m : member) : nat := match m_type m with Other _ => 8 | t => csize b t end.
Fixpoint natural (b : build) (start : nat) (ms : list member) : list nat :=
  match ms with [] => [] | m :: r => let o := (start + align b m - 1) / align b m * align b m in o :: natural b (o + m_size b m) r end.
(** Names. *)
Definition one_of (l : list string) (n : string) : bool := existsb (String.eqb n) l.
Definition all_but (l : list string) (n : string) : bool := negb (one_of l n).
