(** Model of the octrees (src/oct_tree.tpp, src/gravity_tree.cpp, src/geometric_tree.cpp, NearestNeighbourCollector_t of
    src/datatypes.h).  Coordinates are exact rationals.  Nodes are numbered as in the code: [0 .. N-1] are particles,
    [N + c] is the cell [c] of the vector Cells. *)
From Coq Require Import List ZArith QArith Bool.
From Verif.Model Require Import ListMem Run Mymath.
Import ListNotations.
Local Open Scope Z_scope.

Definition vec := (Q * Q * Q)%type.
Definition vmap (f : Q -> Q) (a : vec) : vec := let '(a0, a1, a2) := a in (f a0, f a1, f a2).
Definition vmap2 (f : Q -> Q -> Q) (a b : vec) : vec := let '(a0, a1, a2) := a in let '(b0, b1, b2) := b in (f a0 b0, f a1 b1, f a2 b2).
(** [a > b]. *)
Definition Qgtb (a b : Q) : bool := negb (Qle_bool a b).

(** src/oct_tree.h:26-41 [TreeCell_t]: a union; reading the member that was not written last is undefined. *)
Inductive cell (W : Type) := Sons (sons : list Z) | Way (len : Q) (pay : W) (sibling nextnode : Z).
Arguments Sons {W} sons.
Arguments Way {W} len pay sibling nextnode.

Section Build.
  Context {W : Type}.
  Variable ps : list vec.
  Local Notation N := (Z.of_nat (length ps)).
  Variable res_half : Q.
  (** (HBTInt)(8.0*drand48()) clipped to 7: the draw made when there are [n] cells. *)
  Variable rnd : nat -> nat.

  (** src/oct_tree.tpp:66-94 and 124-130: index of the son of a cell centred at [c] for a particle at [x]. *)
  Definition son_of (c x : vec) : nat :=
    let '(c0, c1, c2) := c in let '(x0, x1, x2) := x in
    ((if Qgtb x0 c0 then 1 else 0) + (if Qgtb x1 c1 then 2 else 0) + (if Qgtb x2 c2 then 4 else 0))%nat.
  (** src/oct_tree.tpp:66-94: the centre of this son, whose half length is [h]. *)
  Definition son_center (h : Q) (c x : vec) : vec := vmap2 (fun c x => if Qgtb x c then (c + h)%Q else (c - h)%Q) c x.

  Definition get_son (cells : list (cell W)) (node : Z) (k : nat) : option Z :=
    match zget cells (node - N) with Some (Sons l) => nth_error l k | _ => None end.
  Definition set_son (cells : list (cell W)) (node : Z) (k : nat) (v : Z) : option (list (cell W)) :=
    match zget cells (node - N) with
    | Some (Sons l) => match upd l k v with Some l' => zupd cells (node - N) (Sons l') | None => None end
    | _ => None
    end.
  (** src/oct_tree.tpp:9-13 [AppendCell]. *)
  Definition append_cell (cells : list (cell W)) : list (cell W) := cells ++ [Sons (repeat (-1) 8)].

  (** src/oct_tree.tpp:60-135: the loop that inserts particle [i], at the cell [node] with centre [c] and half length [h0];
      [fuel] bounds the number of turns. *)
  Fixpoint insert (fuel : nat) (i : nat) (node : Z) (c : vec) (h0 : Q) (cells : list (cell W)) : run (list (cell W)) :=
    match fuel with
    | O => Running
    | S f =>
        match nth_error ps i with
        | None => Crash
        | Some x =>
            let h := (h0 * (1 # 2))%Q in
            let sub := son_of c x in
            let c1 := son_center h c x in
            match get_son cells node sub with
            | None => Crash
            | Some s =>
                if s <? 0 then of_opt (set_son cells node sub (Z.of_nat i))
                else if s <? N then
                  let new := N + Z.of_nat (length cells) in
                  match zget ps s with
                  | None => Crash
                  | Some xs =>
                      let sub1 := if Qgtb res_half h then rnd (S (length cells)) else son_of c1 xs in
                      rbind (of_opt (set_son (append_cell cells) node sub new)) (fun cells1 =>
                      rbind (of_opt (set_son cells1 new sub1 s)) (insert f i new c1 h))
                  end
                else insert f i s c1 h cells
            end
        end
    end.

  (** src/oct_tree.tpp:29-53: the enclosing cube: its centre and side.  Position 0 of an empty snapshot is out of bounds. *)
  Definition extent (x : vec) (mm : vec * vec) : vec * vec :=
    (vmap2 (fun x mn => if Qgtb mn x then x else mn) x (fst mm), vmap2 (fun x mx => if Qgtb x mx then x else mx) x (snd mm)).
  Definition max_side (mn mx : vec) : Q :=
    let '(d0, d1, d2) := vmap2 Qminus mx mn in
    let l := if Qgtb d1 d0 then d1 else d0 in if Qgtb d2 l then d2 else l.
  Definition cube : option (vec * Q) :=
    match ps with
    | [] => None
    | x :: r => let (mn, mx) := fold_left (fun mm x => extent x mm) r (x, x) in Some (vmap2 (fun a b => (1 # 2) * (a + b))%Q mx mn, max_side mn mx)
    end.
  (** src/oct_tree.tpp:55-136: all insertions. *)
  Definition build_cells (fuel : nat) : run (list (cell W)) :=
    match cube with
    | None => Crash
    | Some (c, len) => run_each (seq 0 (length ps)) (fun i => insert fuel i N c ((1 # 2) * len)%Q) (append_cell [])
    end.
End Build.

Section Update.
  Context {A W : Type}.
  Variable n : nat.
  Local Notation N := (Z.of_nat n).
  (** What the two kinds of trees collect: the sums at the start, a particle, a finished cell; the contents of the finished
      cell; centre and side of a son. *)
  Variable acc0 : A.
  Variable add_part : Z -> A -> A.
  Variable add_cell : W -> A -> A.
  Variable finish : A -> vec -> W.
  Variable son_box : nat -> vec * Q -> vec * Q.

  (** src/gravity_tree.cpp:48-77, src/geometric_tree.cpp:49-77 [UpdateInternalNodes] with [ProcessNode] (25-46; 22-43).  The
      sons are copied first; the cell is written in one step at the end (len, sibling and nextnode are in fact written
      before the sons are treated, which does not read them).  A cell without sons runs beyond the array of sons. *)
  Fixpoint update (fuel : nat) (no sib : Z) (box : vec * Q) (st : list (cell W) * list Z) : run (list (cell W) * list Z) :=
    match fuel with
    | O => Running
    | S f =>
        match zget (fst st) (no - N) with
        | Some (Sons l) =>
            let sons := filter (fun ks => 0 <=? snd ks) (combine (seq 0 8) l) in
            match sons with
            | [] => Crash
            | (_, first) :: _ =>
                rbind ((fix process (sons : list (nat * Z)) (acc : A) (st : list (cell W) * list Z) : run (A * (list (cell W) * list Z)) :=
                          match sons with
                          | [] => Done (acc, st)
                          | (k, p) :: r =>
                              let next := match r with [] => sib | (_, q) :: _ => q end in
                              if p <? N then
                                match zupd (snd st) p next with Some np => process r (add_part p acc) (fst st, np) | None => Crash end
                              else
                                rbind (update f p next (son_box k box) st) (fun st1 =>
                                match zget (fst st1) (p - N) with Some (Way _ w _ _) => process r (add_cell w acc) st1 | _ => Crash end)
                          end) sons acc0 st)
                  (fun r => let '(acc, (cells, np)) := r in
                            match zupd cells (no - N) (Way (snd box) (finish acc (fst box)) sib first) with Some cells' => Done (cells', np) | None => Crash end)
            end
        | _ => Crash
        end
    end.

  (** The loops of src/gravity_tree.cpp:103-166 and src/geometric_tree.cpp:103-156: the particles and closed cells met, in
      order. *)
  Variable opens : Q -> W -> bool.
  Fixpoint walk (fuel : nat) (st : list (cell W) * list Z) (no : Z) : run (list Z) :=
    if no <? 0 then Done [] else
    match fuel with
    | O => Running
    | S f =>
        if no <? N then match zget (snd st) no with Some q => rbind (walk f st q) (fun l => Done (no :: l)) | None => Crash end
        else match zget (fst st) (no - N) with
             | Some (Way len w sib next) => if opens len w then walk f st next else rbind (walk f st sib) (fun l => Done (no :: l))
             | _ => Crash
             end
    end.
End Update.

Section Trees.
  Variable ps : list vec.
  Local Notation n := (length ps).
  Local Notation N := (Z.of_nat (length ps)).
  (** TreeNodeResolution; src/config_parser.cpp:102: TreeNodeResolutionHalf is its half. *)
  Variable res : Q.
  Variable rnd : nat -> nat.
  (** PeriodicBoundaryOn and BoxSize. *)
  Variables (periodic : bool) (L : Q).
  Definition apart (x y : vec) : vec := vmap (fun d => if periodic then nearest L d else d) (vmap2 Qminus x y).
  Definition norm2 (d : vec) : Q := let '(d0, d1, d2) := d in (d0 * d0 + d1 * d1 + d2 * d2)%Q.

  (** src/oct_tree.tpp:17-141 [Build] for a given kind of tree. *)
  Definition build_tree {A W} (acc0 : A) add_part (add_cell : W -> A -> A) finish son_box (fuel : nat) : run (list (cell W) * list Z) :=
    rbind (build_cells ps (res * (1 # 2))%Q rnd fuel) (fun cells =>
    match cube ps with
    | None => Crash
    | Some box => update n acc0 add_part add_cell finish son_box fuel N (-1) box (cells, repeat 0 n)
    end).

  (** *** The gravity tree: cells hold centre and mass. *)
  Variable pmass : Z -> Q.
  Definition position (i : Z) : vec := match zget ps i with Some x => x | None => (0, 0, 0)%Q end.
  Definition vadd (x : vec) (y : vec) (weight : Q) : vec := vmap2 (fun a b => (a + b * weight)%Q) x y.
  (** src/gravity_tree.cpp:27-32, 41-44, 18-23, 37-40. *)
  Definition grav_part (i : Z) (a : Q * vec) : Q * vec := ((fst a + pmass i)%Q, vadd (snd a) (position i) (pmass i)).
  Definition grav_cell (w : vec * Q) (a : Q * vec) : Q * vec := ((fst a + snd w)%Q, vadd (snd a) (fst w) (snd w)).
  Definition grav_finish (a : Q * vec) (_ : vec) : vec * Q := (vmap (fun c => (c / fst a)%Q) (snd a), fst a).
  Definition grav_box (_ : nat) (box : vec * Q) : vec * Q := (fst box, if Qle_bool res (snd box) then (snd box / 2)%Q else snd box).
  Definition grav_tree : nat -> run (list (cell (vec * Q)) * list Z) := build_tree (0%Q, (0, 0, 0)%Q) grav_part grav_cell grav_finish grav_box.
  (** src/gravity_tree.cpp:79-168 [EvaluatePotential] without the final factor; [kernel r2] is what the code adds per unit
      mass at the distance sqrt(r2) (151-165), [soft] SofteningHalo, [angle2] TreeNodeOpenAngleSquare. *)
  Variable kernel : Q -> Q.
  Variables (soft angle2 : Q).
  Definition grav_opens (x : vec) (len : Q) (w : vec * Q) : bool := Qgtb (len * len) (norm2 (apart (fst w) x) * angle2).
  Definition grav_item (st : list (cell (vec * Q)) * list Z) (x : vec) (no : Z) : Q :=
    if no <? N then (pmass no * kernel (norm2 (apart (position no) x)))%Q
    else match zget (fst st) (no - N) with Some (Way _ w _ _) => (snd w * kernel (norm2 (apart (fst w) x)))%Q | _ => 0%Q end.
  Definition potential (fuel : nat) (st : list (cell (vec * Q)) * list Z) (x : vec) (target_mass : Q) : run Q :=
    rbind (walk n (grav_opens x) fuel st N) (fun items => Done (fold_left (fun pot no => (pot + grav_item st x no)%Q) items (target_mass / soft)%Q)).

  (** *** The geometric tree: cells hold centre and count. *)
  (** src/mymath.h:121 [get_bit] and src/geometric_tree.cpp:10-20 [shift_center]. *)
  Definition shift_center (c : vec) (son : nat) (delta : Q) : vec :=
    let s := fun bit c => if Nat.testbit son bit then (c + delta)%Q else (c - delta)%Q in
    let '(c0, c1, c2) := c in (s 0%nat c0, s 1%nat c1, s 2%nat c2).
  Definition geo_box (k : nat) (box : vec * Q) : vec * Q :=
    if Qle_bool res (snd box) then (shift_center (fst box) k (snd box / 4)%Q, (snd box / 2)%Q) else box.
  Definition geo_tree : nat -> run (list (cell (vec * Z)) * list Z) :=
    build_tree 0 (fun _ a => a + 1) (fun w a => a + snd w) (fun a c => (c, a)) geo_box.
  (** src/geometric_tree.cpp:128-154: whether the cell is opened. *)
  Definition inside_range (r : Q) (d : vec) : bool :=
    let ok := fun d => negb (Qgtb d r || Qgtb (- r)%Q d) in let '(d0, d1, d2) := d in ok d0 && ok d1 && ok d2.
  Definition geo_opens (x : vec) (radius : Q) (len : Q) (w : vec * Z) : bool := inside_range (len / 2 + radius)%Q (apart (fst w) x).
  (** src/geometric_tree.cpp:92-157 [Search]: the calls of Collect, in order. *)
  Definition geo_item (x : vec) (radius : Q) (no : Z) : list (Z * Q) :=
    if no <? N then
      let d := apart (position no) x in
      if inside_range radius d && Qgtb (radius * radius) (norm2 d) then [(no, norm2 d)] else []
    else [].
  Definition search (fuel : nat) (st : list (cell (vec * Z)) * list Z) (x : vec) (radius : Q) : run (list (Z * Q)) :=
    rbind (walk n (geo_opens x radius) fuel st N) (fun items => Done (flat_map (geo_item x radius) items)).

  (** src/datatypes.h:225-245 [NearestNeighbourCollector_t]: (Index, D2). *)
  Definition collect (st : Z * Q) (found : Z * Q) : Z * Q := if Qgtb (snd st) (snd found) then found else st.
  Definition is_empty (st : Z * Q) : bool := Qgtb 0 (snd st).
  (** src/geometric_tree.cpp:79-90 [NearestNeighbour]; [fuel] bounds the number of searches, [fuel1] each of them. *)
  Fixpoint nearest_loop (fuel fuel1 : nat) (st : list (cell (vec * Z)) * list Z) (x : vec) (rguess : Q) (col : Z * Q) : run Z :=
    if is_empty col then
      match fuel with
      | O => Running
      | S f => let r := (rguess * (126 # 100))%Q in
               rbind (search fuel1 st x r) (fun found => nearest_loop f fuel1 st x r (fold_left collect found col))
      end
    else Done (fst col).
  Definition nearest_neighbour (fuel fuel1 : nat) (st : list (cell (vec * Z)) * list Z) (x : vec) (rguess : Q) : run Z :=
    rbind (search fuel1 st x rguess) (fun found => nearest_loop fuel fuel1 st x rguess (fold_left collect found (0, (-1)%Q))).
End Trees.
