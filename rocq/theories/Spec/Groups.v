(** Vocabulary for group catalogues: the [k]-th halo is the next [len] ids of all the files together. *)
From Coq Require Import List ZArith.
Import ListNotations.
Fixpoint cut (lens : list nat) (ids : list Z) : list (list Z) := match lens with [] => [] | n :: t => firstn n ids :: cut t (skipn n ids) end.
Definition numbered {A} (l : list A) : list (nat * A) := combine (seq 0 (length l)) l.
