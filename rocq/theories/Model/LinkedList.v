(** Model of the linked-list grid (src/linkedlist_base.h, src/linkedlist_base.cpp, src/linkedlist.h, src/linkedlist.cpp).
    Coordinates are exact rationals, grid indices are unbounded. *)
From Coq Require Import List ZArith QArith Qround Bool.
From Verif.Model Require Import ListMem Run Mymath Tree.
Import ListNotations.
Local Open Scope Z_scope.

(** src/linkedlist_base.h:32-52: the fields used after initialisation; [ll_min] is Range[.][0], [ll_box] BoxSize. *)
Record llist := { ll_ndiv : Z; ll_periodic : bool; ll_box : Q; ll_min : vec; ll_step : vec; ll_ps : list vec; ll_hoc : list Z; ll_next : list Z }.
Definition with_chains (ll : llist) (st : list Z * list Z) : llist :=
  {| ll_ndiv := ll_ndiv ll; ll_periodic := ll_periodic ll; ll_box := ll_box ll; ll_min := ll_min ll; ll_step := ll_step ll; ll_ps := ll_ps ll;
     ll_hoc := fst st; ll_next := snd st |}.

(** src/linkedlist_base.cpp:51-61: one particle widens the range of an axis. *)
Definition widen (x : Q) (r : Q * Q) : Q * Q := if Qgtb (fst r) x then (x, snd r) else if Qgtb x (snd r) then (fst r, x) else r.
Definition widen3 (r : (Q * Q) * (Q * Q) * (Q * Q)) (x : vec) : (Q * Q) * (Q * Q) * (Q * Q) :=
  let '(r0, r1, r2) := r in let '(x0, x1, x2) := x in (widen x0 r0, widen x1 r1, widen x2 r2).
(** src/linkedlist_base.cpp:21-66 [init].  Without a box size the range starts, on all three axes, with the first and the
    second coordinate of particle 0 (48-50), which does not exist in an empty list. *)
Definition init (ndiv : Z) (ps : list vec) (box : Q) (periodic : bool) : option llist :=
  let range :=
    if Qeq_bool box 0 then
      match ps with
      | [] => None
      | (x0, x1, _) :: r => Some (fold_left widen3 r ((x0, x1), (x0, x1), (x0, x1)))
      end
    else Some ((0%Q, box), (0%Q, box), (0%Q, box)) in
  match range with
  | None => None
  | Some ((a0, b0), (a1, b1), (a2, b2)) =>
      let n := inject_Z ndiv in
      Some {| ll_ndiv := ndiv; ll_periodic := if Qeq_bool box 0 then false else periodic; ll_box := box; ll_min := (a0, a1, a2);
              ll_step := ((b0 - a0) / n, (b1 - a1) / n, (b2 - a2) / n)%Q; ll_ps := ps;
              ll_hoc := repeat (-1) (Z.to_nat (ndiv * ndiv * ndiv)); ll_next := repeat 0 (length ps) |}
  end.

Section Grid.
  Variable ll : llist.
  Local Notation D := (ll_ndiv ll).
  (** src/linkedlist_base.h:83-101 [RoundGridId], [ShiftGridId], [FixGridId]. *)
  Definition round_grid (i : Z) : Z := if i <? 0 then 0 else if D <=? i then D - 1 else i.
  Definition shift_grid (i : Z) : Z := let i := Z.rem i D in if i <? 0 then i + D else i.
  Definition fix_grid (i : Z) : Z := if ll_periodic ll then shift_grid i else round_grid i.
  (** src/linkedlist_base.h:102-113 [Sub2Ind], and [GetHOCSafe]. *)
  Definition sub2ind (g : Z * Z * Z) : Z := let '(i, j, k) := g in i + j * D + k * (D * D).
  Definition fix3 (g : Z * Z * Z) : Z * Z * Z := let '(i, j, k) := g in (fix_grid i, fix_grid j, fix_grid k).
  Definition head_of (g : Z * Z * Z) : option Z := zget (ll_hoc ll) (sub2ind (fix3 g)).
  (** floor((x-Range[j][0])/Step[j]) on the three axes; with a vanishing step the quotient is infinite or not a number and
      cannot be converted. *)
  Definition grid1 (lo step x : Q) : option Z := if Qeq_bool step 0 then None else Some (Qfloor ((x - lo) / step)).
  Definition grid3 (x : vec) : option (Z * Z * Z) :=
    let '(x0, x1, x2) := x in let '(a0, a1, a2) := ll_min ll in let '(s0, s1, s2) := ll_step ll in
    match grid1 a0 s0 x0, grid1 a1 s1 x1, grid1 a2 s2 x2 with Some i, Some j, Some k => Some (i, j, k) | _, _, _ => None end.

  (** src/linkedlist_base.cpp:84-86: put particle [i] in front of the chain [c] of (HOC, List). *)
  Definition push (c i : Z) (st : list Z * list Z) : option (list Z * list Z) :=
    match zget (fst st) c with
    | None => None
    | Some h => match zupd (snd st) i h with None => None | Some next => match zupd (fst st) c i with None => None | Some hoc => Some (hoc, next) end end
    end.
  (** src/linkedlist_base.cpp:76-87. *)
  Definition insert_particle (i : nat) (st : list Z * list Z) : option (list Z * list Z) :=
    match nth_error (ll_ps ll) i with
    | None => None
    | Some x => match grid3 x with None => None | Some g => push (sub2ind (fix3 g)) (Z.of_nat i) st end
    end.
End Grid.

(** src/linkedlist_base.cpp:67-88 [build]. *)
Definition build (ndiv : Z) (ps : list vec) (box : Q) (periodic : bool) : option llist :=
  match init ndiv ps box periodic with
  | None => None
  | Some ll => match for_each (seq 0 (length ps)) (insert_particle ll) (ll_hoc ll, ll_next ll) with Some st => Some (with_chains ll st) | None => None end
  end.

(** The loop [while(pid>=0)] along a chain: the particles met. *)
Fixpoint chain (next : list Z) (fuel : nat) (pid : Z) : run (list Z) :=
  if pid <? 0 then Done [] else
  match fuel with
  | O => Running
  | S f => match zget next pid with None => Crash | Some q => rbind (chain next f q) (fun l => Done (pid :: l)) end
  end.

(** *** Searching. *)
Definition zrange (a b : Z) : list Z := map (fun k => a + Z.of_nat k) (seq 0 (Z.to_nat (b + 1 - a))).
Section Search.
  Variable ll : llist.
  (** src/linkedlist_base.cpp:103-113, 136-146, 182-192, 244-254: the cells within [rad] of [x]. *)
  Definition subbox (x rad : vec) : option ((Z * Z * Z) * (Z * Z * Z)) :=
    match grid3 ll (vmap2 Qminus x rad), grid3 ll (vmap2 Qplus x rad) with
    | Some lo, Some hi => Some (if ll_periodic ll then (lo, hi) else (fix3 ll lo, fix3 ll hi))
    | _, _ => None
    end.
  Definition cells_between (b : (Z * Z * Z) * (Z * Z * Z)) : list (Z * Z * Z) :=
    let '((i0, j0, k0), (i1, j1, k1)) := b in
    flat_map (fun i => flat_map (fun j => map (fun k => (i, j, k)) (zrange k0 k1)) (zrange j0 j1)) (zrange i0 i1).
  (** The three nested loops with the loop along each chain: the particles met, in order. *)
  Fixpoint visit_cells (fuel : nat) (cells : list (Z * Z * Z)) : run (list Z) :=
    match cells with
    | [] => Done []
    | g :: r => rbind (of_opt (head_of ll g)) (fun h => rbind (chain (ll_next ll) fuel h) (fun l => rbind (visit_cells fuel r) (fun l' => Done (l ++ l'))))
    end.
  Definition visited (fuel : nat) (x rad : vec) : run (list Z) := rbind (of_opt (subbox x rad)) (fun b => visit_cells fuel (cells_between b)).
  (** Look at the particles one after the other. *)
  Fixpoint examine {A} (item : Z -> vec -> list A) (ids : list Z) : option (list A) :=
    match ids with
    | [] => Some []
    | p :: r => match zget (ll_ps ll) p, examine item r with Some y, Some l => Some (item p y ++ l) | _, _ => None end
    end.
  Definition search_with (fuel : nat) (x rad : vec) (item : Z -> vec -> list (Z * Q)) : run (list (Z * Q)) :=
    rbind (visited fuel x rad) (fun ids => of_opt (examine item ids)).

  (** HBTConfig.BoxSize, which need not be the box size of the list. *)
  Variable L : Q.
  (** src/linkedlist_base.cpp:125-174 [SearchSphere]: the calls of Collect, in order. *)
  Definition sphere_item (x : vec) (radius : Q) (p : Z) (y : vec) : list (Z * Q) :=
    let d := apart (ll_periodic ll) L y x in if inside_range radius d && Qgtb (radius * radius) (norm2 d) then [(p, norm2 d)] else [].
  Definition sphere (fuel : nat) (radius : Q) (x : vec) : run (list (Z * Q)) := search_with fuel x (radius, radius, radius) (sphere_item x radius).
  (** src/linkedlist_base.cpp:89-124 [SearchShell] with [Distance2] (4-20), which uses the box size of the list. *)
  Definition shell_item (x : vec) (rmin rmax : Q) (p : Z) (y : vec) : list (Z * Q) :=
    let r2 := norm2 (apart (ll_periodic ll) (ll_box ll) y x) in if Qgtb (rmax * rmax) r2 && Qgtb r2 (rmin * rmin) then [(p, r2)] else [].
  Definition shell (fuel : nat) (rmin rmax : Q) (x : vec) : run (list (Z * Q)) :=
    if Qle_bool rmin 0 then sphere fuel rmax x else search_with fuel x (rmax, rmax, rmax) (shell_item x rmin rmax).
  (** src/linkedlist_base.cpp:176-227 [SearchCylinder]. *)
  Definition cylinder_item (x : vec) (rz rp : Q) (p : Z) (y : vec) : list (Z * Q) :=
    let '(d0, d1, d2) := apart (ll_periodic ll) L y x in
    let ok := fun r d => negb (Qgtb d r || Qgtb (- r)%Q d) in
    let r2 := (d0 * d0 + d1 * d1)%Q in
    if ok rp d0 && ok rp d1 && ok rz d2 && Qgtb (rp * rp) r2 then [(p, r2)] else [].
  Definition cylinder (fuel : nat) (rz rp : Q) (x : vec) : run (list (Z * Q)) := search_with fuel x (rp, rp, rz) (cylinder_item x rz rp).

  (** src/linkedlist_base.cpp:255-290: one particle met while tagging. *)
  Definition tag_visit (x : vec) (link : Q) (grpid : Z) (p : Z) (st : list Z * list Z) : option (list Z * list Z) :=
    match zget (fst st) p with
    | None => None
    | Some t =>
        if 0 <=? t then Some st
        else match zget (ll_ps ll) p with
             | None => None
             | Some y => match sphere_item x link p y with
                         | [] => Some st
                         | _ => match zupd (fst st) p grpid with Some tags => Some (tags, snd st ++ [p]) | None => None end
                         end
             end
    end.
  (** src/linkedlist_base.cpp:229-297 [TagFriendsOfFriends]: the tags and the number of friends; [fuel] bounds the depth of
      the recursion and the length of the chains. *)
  Fixpoint tag_friends (fuel : nat) (link : Q) (grpid seed : Z) (tags : list Z) : run (list Z * Z) :=
    match fuel with
    | O => Running
    | S f =>
        match zget (ll_ps ll) seed with
        | None => Crash
        | Some x =>
            rbind (visited f x (link, link, link)) (fun ids =>
            rbind (of_opt (for_each ids (tag_visit x link grpid) (tags, []))) (fun st =>
            run_each (snd st) (fun p st => rbind (tag_friends f link grpid p (fst st)) (fun r => Done (fst r, snd st + snd r)))
              (fst st, Z.of_nat (length (snd st)))))
        end
    end.
End Search.

(** *** Building in parallel. *)
(** src/linkedlist.h:46-60 [PositionSampleBlock_t]: offset and particles of thread [t] of [T]. *)
Definition block (T t : Z) (ps : list vec) : option (Z * list vec) :=
  match assign_tasks t T (Z.of_nat (length ps)) with
  | None => None
  | Some (b, e) => Some (b, firstn (Z.to_nat (e - b)) (skipn (Z.to_nat b) ps))
  end.
(** src/linkedlist.cpp:52-73: the lists of the threads [ts], with their offsets. *)
Fixpoint build_blocks (T : Z) (ts : list Z) (ndiv : Z) (ps : list vec) (box : Q) (periodic : bool) : option (list (Z * llist)) :=
  match ts with
  | [] => Some []
  | t :: r =>
      match block T t ps with
      | None => None
      | Some (off, qs) => match build ndiv qs box periodic, build_blocks T r ndiv ps box periodic with Some ll, Some l => Some ((off, ll) :: l) | _, _ => None end
      end
  end.
(** src/linkedlist.cpp:82-93: the chain [c] of one thread is moved to the main list. *)
Definition move_chain (fuel : nat) (c : Z) (part : Z * llist) (st : list Z * list Z) : run (list Z * list Z) :=
  rbind (of_opt (zget (ll_hoc (snd part)) c)) (fun h => rbind (chain (ll_next (snd part)) fuel h) (fun l =>
  of_opt (for_each l (fun pid => push c (fst part + pid)) st))).
(** src/linkedlist.cpp:52-116 [parallel_build] and [merge]; the loop over the chains is parallel, [order] is the order in
    which they are treated. *)
Definition parallel_build (fuel : nat) (T : nat) (order : list Z) (ndiv : Z) (ps : list vec) (box : Q) (periodic : bool) : run llist :=
  if Qle_bool box 0 then Crash else
  rbind (of_opt (build_blocks (Z.of_nat T) (map Z.of_nat (seq 0 T)) ndiv ps box periodic)) (fun parts =>
  rbind (of_opt (init ndiv ps box periodic)) (fun ll =>
  rbind (run_each order (fun c => run_each parts (move_chain fuel c)) (ll_hoc ll, ll_next ll)) (fun st => Done (with_chains ll st)))).

(** src/linkedlist.h:29-45 [PositionSampleLattice_t]: the particles t, t+T, t+2T, ... *)
Definition lattice (T t : Z) (ps : list vec) : option (list vec) :=
  let n := Z.of_nat (length ps) in
  let np := Z.quot n T + (if t <? Z.rem n T then 1 else 0) in
  for_each (seq 0 (Z.to_nat np)) (fun i acc => match zget ps (Z.of_nat i * T + t) with Some x => Some (acc ++ [x]) | None => None end) [].
(** src/linkedlist.cpp:4-22 [LinkedlistPara_t]. *)
Fixpoint build_lattice (T : Z) (ts : list Z) (ndiv : Z) (ps : list vec) (box : Q) (periodic : bool) : option (list (Z * llist)) :=
  match ts with
  | [] => Some []
  | t :: r =>
      match lattice T t ps with
      | None => None
      | Some qs => match build ndiv qs box periodic, build_lattice T r ndiv ps box periodic with Some ll, Some l => Some ((t, ll) :: l) | _, _ => None end
      end
  end.
(** src/linkedlist.h:109-122 and src/linkedlist.cpp:35-42 [SearchShell], [SearchShellSerial], src/linkedlist.h:124-137 and
    src/linkedlist.cpp:43-50 for cylinders: [search] on the lists of the threads in some order, with the ids restored. *)
Definition para_search (T : nat) (search : llist -> run (list (Z * Q))) (lists : list (Z * llist)) : run (list (Z * Q)) :=
  run_each lists (fun tl acc => rbind (search (snd tl)) (fun l => Done (acc ++ map (fun pr => (fst pr * Z.of_nat T + fst tl, snd pr)) l))) [].

(** src/linkedlist.cpp:118-155 [LinkedlistLinkGroup]: (GrpTags, GrpLen, grpid, progress); [L] and [periodic] are
    HBTConfig.BoxSize and HBTConfig.PeriodicBoundaryOn.  GrpLen is not emptied first.  Line 141 divides by the step of the
    progress report. *)
Definition link_step (fuel : nat) (ll : llist) (L radius : Q) (printstep : Z) (i : nat) (st : list Z * list Z * Z * Z) : run (list Z * list Z * Z * Z) :=
  let '(tags, grplen, grpid, progress) := st in
  match nth_error tags i with
  | None => Crash
  | Some t =>
      if 0 <=? t then Done st else
      if (progress <=? Z.of_nat i) && (printstep =? 0) then Crash else
      let progress := if progress <=? Z.of_nat i then progress + printstep else progress in
      rbind (of_opt (upd tags i grpid)) (fun tags =>
      rbind (tag_friends ll L fuel radius grpid (Z.of_nat i) tags) (fun r => Done (fst r, grplen ++ [1 + snd r], grpid + 1, progress)))
  end.
Definition link_group (fuel T : nat) (order : list Z) (ndiv : Z) (L : Q) (periodic : bool) (radius : Q) (ps : list vec) (grplen : list Z) : run (list Z * list Z) :=
  rbind (parallel_build fuel T order ndiv ps L periodic) (fun ll =>
  let printstep := Z.quot (Z.of_nat (length ps)) 100 in
  rbind (run_each (seq 0 (length ps)) (link_step fuel ll L radius printstep) (repeat (-1) (length ps), grplen, 0, printstep)) (fun st =>
  let '(tags, grplen, _, _) := st in Done (tags, grplen))).
