(** Parallel loops over tables at the level of single reads and writes (see Model/Threads.v): filling a flat index table and merging
    the linked lists of the threads, promoting particles, joining nests. *)
From Coq Require Import List ZArith QArith Bool.
From Verif.Model Require Import ListMem Run Mymath Hash LinkedList Subhalo Nest Threads.
From Verif.Model Require Purge.
Import ListNotations.
Local Open Scope Z_scope.

(** ** FlatIndexTable_t::Fill: a cell is an element of the allocated block.  The keys themselves are only read. *)
(** src/hash.tpp:86-88: the turns of the loop over all keys between the smallest and the largest. *)
Definition clear_turns (null : Z) (span : nat) : list (@prog Z Z unit) := map (fun i => Put (Z.of_nat i) null (Ret tt)) (seq 0 span).
(** src/hash.tpp:90-92: the turns of the loop over the keys. *)
Definition fill_turns (kmin : Z) (keys : list (Z * Z)) : list (@prog Z Z unit) := map (fun kv => Put (fst kv - kmin) (snd kv) (Ret tt)) keys.

(** ** Linkedlist_t::merge *)
(** HOC[c] and List[p] of the main list, LLs[t].HOC[c] and LLs[t].List[p]. *)
Inductive slot := Head (c : Z) | Next (p : Z) | PartHead (t : nat) (c : Z) | PartNext (t : nat) (p : Z).
Definition slot_eqb (a b : slot) : bool :=
  match a, b with
  | Head c, Head d | Next c, Next d => c =? d
  | PartHead t c, PartHead u d | PartNext t c, PartNext u d => Nat.eqb t u && (c =? d)
  | _, _ => false
  end.
Definition slots (parts : list (Z * llist)) (st : list Z * list Z) : slot -> option Z := fun m =>
  match m with
  | Head c => zget (fst st) c
  | Next p => zget (snd st) p
  | PartHead t c => match nth_error parts t with Some q => zget (ll_hoc (snd q)) c | None => None end
  | PartNext t p => match nth_error parts t with Some q => zget (ll_next (snd q)) p | None => None end
  end.
(** src/linkedlist.cpp:84-92: the loop along the chain of one thread; [hoc] is a reference, so that its uses are accesses. *)
Fixpoint walk (fuel : nat) (t : nat) (off c pid : Z) : @prog slot Z unit :=
  if pid <? 0 then Ret tt else
  match fuel with
  | O => Fail
  | S f => Get (Head c) (fun h => Put (Next (off + pid)) h (Put (Head c) (off + pid) (Get (PartNext t pid) (walk f t off c))))
  end.
(** src/linkedlist.cpp:77-94: the turns of the loop over the chains. *)
Definition chain_turn (fuel : nat) (parts : list (Z * llist)) (c : Z) : @prog slot Z unit :=
  peach (combine (seq 0 (length parts)) parts) (fun tp => Get (PartHead (fst tp) c) (walk fuel (fst tp) (fst (snd tp)) c)).
Definition chain_turns (fuel : nat) (parts : list (Z * llist)) (n : nat) : list (@prog slot Z unit) :=
  map (fun c => chain_turn fuel parts (Z.of_nat c)) (seq 0 n).

(** ** PurgeMostBoundParticles: a cell is a subhalo *)
Section Purge.
  Context {P V : Type}.
  Variables (p_id : P -> Z) (p_pos p_vel : P -> V).
  Local Notation code := (@prog Z (Purge.sub P V)).
  (** src/subhalo_tracking.cpp:582-600: one member; [ex] is the set of the turn. *)
  Definition purge_member (m : nat) (ex : list Z) : code (list Z) :=
    Get (Z.of_nat m) (fun s =>
      if (1 <? Purge.u_nbound s)%Z then
        match Purge.promote p_id p_pos p_vel ex s 0 (Purge.u_parts s) with
        | Some s' => Put (Z.of_nat m) s' (Ret (ex ++ map p_id (Purge.u_parts s')))
        | None => Fail
        end
      else Ret ex).
  (** src/subhalo_tracking.cpp:572-601: one group; the first loop (576-577) reads the sizes of all members. *)
  Definition purge_turn (group : list nat) : code unit :=
    pbind (peach group (fun m => Get (Z.of_nat m) (fun _ => Ret tt))) (fun _ => pbind (pfold (rev group) purge_member []) (fun _ => Ret tt)).
  Definition purge_turns (groups : list (list nat)) : list (code unit) := map purge_turn groups.
End Purge.

(** ** GlueHeadNests and UnglueHeadNests: a cell is a subhalo or an element of RootNestSize *)
Section Glue.
  Context {X R : Type}.
  Inductive spot := Body (i : nat) | Size (h : nat).
  Inductive matter := MSub (s : sub X R) | MSize (n : nat).
  Definition spot_eqb (a b : spot) : bool := match a, b with Body i, Body j | Size i, Size j => Nat.eqb i j | _, _ => false end.
  Definition spots (subs : list (sub X R)) (sizes : list nat) : spot -> option matter := fun m =>
    match m with Body i => option_map MSub (nth_error subs i) | Size h => option_map MSize (nth_error sizes h) end.
  Local Notation code := (@prog spot matter unit).
  (** src/subhalo_tracking.cpp:848-860: one halo. *)
  Definition glue_turn (h : nat) (group heads : list nat) : code :=
    match group with
    | [] => Put (Size h) (MSize 0) (Ret tt)
    | c :: _ => Get (Body c) (fun v => match v, heads with
        | MSub s, _ :: others => Put (Size h) (MSize (length (s_nest s))) (Get (Body c) (fun w => match w with
            | MSub s1 => Put (Body c) (MSub (set_nest (s_nest s1 ++ map Z.of_nat others) s1)) (Ret tt)
            | MSize _ => Fail
            end))
        | _, _ => Fail
        end)
    end.
  Definition glue_turns (groups heads : list (list nat)) : list code :=
    map (fun x => glue_turn (fst x) (fst (snd x)) (snd (snd x))) (combine (seq 0 (length groups)) (combine groups heads)).
  (** src/subhalo_tracking.cpp:866-871: one halo. *)
  Definition unglue_turn (h : nat) (group : list nat) : code :=
    match group with
    | [] => Ret tt
    | c :: _ => Get (Size h) (fun v => Get (Body c) (fun w => match v, w with
        | MSize n, MSub s => Put (Body c) (MSub (set_nest (firstn n (s_nest s ++ repeat 0 n)) s)) (Ret tt)
        | _, _ => Fail
        end))
    end.
  Definition unglue_turns (groups : list (list nat)) : list code := map (fun x => unglue_turn (fst x) (snd x)) (combine (seq 0 (length groups)) groups).
End Glue.
