(** Model of src/hash.h, src/hash.tpp and src/hash_remote.tpp: the tables translating particle (or track) ids
    into array indices. *)
From Coq Require Import List ZArith Bool Sorting.Permutation Sorting.Sorted.
From Verif.Model Require Import ListMem.
Import ListNotations.
Local Open Scope Z_scope.

(** src/hash.h:38-44 [IndexedKey_t]: (Key, Index). *)
Definition key_le (a b : Z * Z) : Prop := fst a <= fst b.

(** src/hash.tpp:18-32 [MappedIndexTable_t::Fill]: [Map] is the key list sorted with [CompPair] (lines 13-17).
    [std::sort] is not stable: any sorted permutation is a possible outcome, hence a relation.
    Simplification: [NumQueryCrit] (line 31) is omitted, it is only read by code that is compiled out
    (hash_remote.tpp:13-17). *)
Definition mapped_fill (keys table : list (Z * Z)) : Prop :=
  Permutation table keys /\ StronglySorted key_le table.

(** glibc [bsearch] called at src/hash.tpp:53 with [CompKeyWithPair] (lines 39-47).
    Outer [None]: out-of-bounds read or fuel exhausted.  [Some None]: NULL pointer. *)
Fixpoint bsearch (fuel : nat) (table : list (Z * Z)) (key : Z) (l u : nat) : option (option Z) :=
  match fuel with
  | O => None
  | S fuel' =>
      if (l <? u)%nat then
        let idx := ((l + u) / 2)%nat in
        match nth_error table idx with
        | None => None
        | Some (k, v) =>
            if k <? key then bsearch fuel' table key (S idx) u
            else if key <? k then bsearch fuel' table key l idx
            else Some (Some v)
        end
      else Some None
  end.

(** src/hash.tpp:49-56 [MappedIndexTable_t::GetIndex]. *)
Definition mapped_get (null : Z) (table : list (Z * Z)) (key : Z) : option Z :=
  if key <? 0 then Some null else
  match bsearch (S (length table)) table key 0 (length table) with
  | None => None
  | Some None => Some null
  | Some (Some v) => Some v
  end.

(** src/hash.h:60-68 members of [FlatIndexTable_t].  [Index] is the allocated block before the shift by [Offset];
    element [Index[key]] of the C++ code is element [key - KeyMin] of the block. *)
Record flat_table := mkflat { fl_span : Z; fl_min : Z; fl_max : Z; fl_index : list Z }.

(** src/hash.tpp:66-77: minimum and maximum key. *)
Fixpoint keys_min (k0 : Z) (ks : list (Z * Z)) : Z :=
  match ks with [] => k0 | (k, _) :: r => keys_min (if k <? k0 then k else k0) r end.
Fixpoint keys_max (k0 : Z) (ks : list (Z * Z)) : Z :=
  match ks with [] => k0 | (k, _) :: r => keys_max (if k0 <? k then k else k0) r end.

(** src/hash.tpp:58-94 [FlatIndexTable_t::Fill].  [order] is the order in which the iterations of the parallel
    loop of lines 90-92 write, a permutation of [keys] (properties quantify over it). *)
Definition flat_fill (null : Z) (keys order : list (Z * Z)) : option flat_table :=
  match keys with
  | [] => Some (mkflat 0 0 0 [])
  | (k0, _) :: rest =>
      let kmin := keys_min k0 rest in
      let kmax := keys_max k0 rest in
      let span := kmax - kmin + 1 in
      match for_each order (fun kv block => zupd block (fst kv - kmin) (snd kv)) (repeat null (Z.to_nat span)) with
      | Some block => Some (mkflat span kmin kmax block)
      | None => None
      end
  end.

(** src/hash.tpp:105-110 [FlatIndexTable_t::GetIndex]. *)
Definition flat_get (null : Z) (t : flat_table) (key : Z) : option Z :=
  if (fl_span t =? 0) || (key <? fl_min t) || (fl_max t <? key) then Some null
  else zget (fl_index t) (key - fl_min t).

(** [std::lower_bound] (libstdc++ loop) with [CompPairWithValue], src/hash_remote.tpp:4-8 and 80. *)
Fixpoint lower_bound (fuel : nat) (table : list (Z * Z)) (key : Z) (first len : nat) : option nat :=
  match fuel with
  | O => None
  | S fuel' =>
      if (len =? 0)%nat then Some first else
      let half := (len / 2)%nat in
      match nth_error table (first + half) with
      | None => None
      | Some (k, _) =>
          if k <? key then lower_bound fuel' table key (first + half + 1) (len - half - 1)
          else lower_bound fuel' table key first half
      end
  end.

(** A queried particle: its [Id] field and everything else. *)
Definition set_id {X} (id : Z) (p : Z * X) : Z * X := (id, snd p).

(** src/hash_remote.tpp:58-92 [GetIndicesRecursive].  Iterators are positions in the table.  [fuel] bounds the
    recursion depth; [None] when it is exhausted. *)
Fixpoint get_indices_rec {X} (fuel : nat) (null : Z) (table : list (Z * Z)) (ps : list (Z * X))
    (imin imax map_begin map_end : nat) : option (list (Z * X)) :=
  match fuel with
  | O => None
  | S fuel' =>
      if (map_begin =? map_end)%nat then
        for_range imin (imax - imin) (fun i ps => match nth_error ps i with
          | Some p => upd ps i (set_id null p) | None => None end) ps
      else if (imax <=? imin)%nat then Some ps
      else
        let imid := if (imax - imin =? 1)%nat then imin else ((imin + imax) / 2)%nat in
        match nth_error ps imid with
        | None => None
        | Some p =>
        let key := fst p in
        match lower_bound (S (map_end - map_begin)) table key map_begin (map_end - map_begin) with
        | None => None
        | Some map_mid =>
            let found :=
              if (map_mid =? map_end)%nat then Some None
              else match nth_error table map_mid with
                   | None => None
                   | Some (k, v) => if key <? k then Some None else Some (Some v)
                   end in
            match found with
            | None => None
            | Some hit =>
                let '(new_id, map_end_left) :=
                  match hit with None => (null, map_mid) | Some v => (v, S map_mid) end in
                match upd ps imid (set_id new_id p) with
                | None => None
                | Some ps1 =>
                    match get_indices_rec fuel' null table ps1 imin imid map_begin map_end_left with
                    | None => None
                    | Some ps2 => get_indices_rec fuel' null table ps2 (S imid) imax map_mid map_end
                    end
                end
            end
        end end
  end.

(** src/hash_remote.tpp:9-17 [MappedIndexTable_t::GetIndices]. *)
Definition mapped_get_indices {X} (null : Z) (table : list (Z * Z)) (ps : list (Z * X)) : option (list (Z * X)) :=
  get_indices_rec (S (length ps)) null table ps 0 (length ps) 0 (length table).

(** src/hash_remote.tpp:94-100 [FlatIndexTable_t::GetIndices]. *)
Fixpoint flat_get_indices {X} (null : Z) (t : flat_table) (ps : list (Z * X)) : option (list (Z * X)) :=
  match ps with
  | [] => Some []
  | p :: r => match flat_get null t (fst p), flat_get_indices null t r with
              | Some i, Some r' => Some (set_id i p :: r')
              | _, _ => None
              end
  end.
