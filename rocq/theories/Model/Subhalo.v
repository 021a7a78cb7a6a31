(** Model of the subhalo record (src/subhalo.h:24-146) and of the membership table (src/subhalo_tracking.cpp:39-162). *)
From Coq Require Import List ZArith QArith Bool.
From Verif.Model Require Import ListMem Mpi.
Import ListNotations.
Local Open Scope nat_scope.

(** src/subhalo.h:24-94.  [X]: everything in a particle besides its id.  [R]: the fields of a subhalo that no modelled
    function tests (coordinates, profile, shape and energy properties).  Masses are exact rationals. *)
Record sub (X R : Type) := mksub {
  s_track : Z; s_nbound : nat; s_mass : Q; s_host : Z; s_rank : Z; s_depth : Z;
  s_lastmax : Q; s_snapmax : Z; s_snapiso : Z; s_birth : Z; s_death : Z; s_snapsink : Z; s_sink : Z;
  s_parts : list (Z * X); s_nest : list Z; s_rest : R }.
Arguments mksub {X R}.
Arguments s_track {X R}. Arguments s_nbound {X R}. Arguments s_mass {X R}. Arguments s_host {X R}. Arguments s_rank {X R}.
Arguments s_depth {X R}. Arguments s_lastmax {X R}. Arguments s_snapmax {X R}. Arguments s_snapiso {X R}. Arguments s_birth {X R}.
Arguments s_death {X R}. Arguments s_snapsink {X R}. Arguments s_sink {X R}. Arguments s_parts {X R}. Arguments s_nest {X R}. Arguments s_rest {X R}.

(** Assignments to single fields. *)
Section Set_fields.
  Context {X R : Type}.
  Definition set_track v (s : sub X R) := mksub v (s_nbound s) (s_mass s) (s_host s) (s_rank s) (s_depth s) (s_lastmax s) (s_snapmax s) (s_snapiso s) (s_birth s) (s_death s) (s_snapsink s) (s_sink s) (s_parts s) (s_nest s) (s_rest s).
  Definition set_nbound v (s : sub X R) := mksub (s_track s) v (s_mass s) (s_host s) (s_rank s) (s_depth s) (s_lastmax s) (s_snapmax s) (s_snapiso s) (s_birth s) (s_death s) (s_snapsink s) (s_sink s) (s_parts s) (s_nest s) (s_rest s).
  Definition set_mass v (s : sub X R) := mksub (s_track s) (s_nbound s) v (s_host s) (s_rank s) (s_depth s) (s_lastmax s) (s_snapmax s) (s_snapiso s) (s_birth s) (s_death s) (s_snapsink s) (s_sink s) (s_parts s) (s_nest s) (s_rest s).
  Definition set_host v (s : sub X R) := mksub (s_track s) (s_nbound s) (s_mass s) v (s_rank s) (s_depth s) (s_lastmax s) (s_snapmax s) (s_snapiso s) (s_birth s) (s_death s) (s_snapsink s) (s_sink s) (s_parts s) (s_nest s) (s_rest s).
  Definition set_rank v (s : sub X R) := mksub (s_track s) (s_nbound s) (s_mass s) (s_host s) v (s_depth s) (s_lastmax s) (s_snapmax s) (s_snapiso s) (s_birth s) (s_death s) (s_snapsink s) (s_sink s) (s_parts s) (s_nest s) (s_rest s).
  Definition set_depth v (s : sub X R) := mksub (s_track s) (s_nbound s) (s_mass s) (s_host s) (s_rank s) v (s_lastmax s) (s_snapmax s) (s_snapiso s) (s_birth s) (s_death s) (s_snapsink s) (s_sink s) (s_parts s) (s_nest s) (s_rest s).
  Definition set_lastmax v w (s : sub X R) := mksub (s_track s) (s_nbound s) (s_mass s) (s_host s) (s_rank s) (s_depth s) v w (s_snapiso s) (s_birth s) (s_death s) (s_snapsink s) (s_sink s) (s_parts s) (s_nest s) (s_rest s).
  Definition set_snapiso v (s : sub X R) := mksub (s_track s) (s_nbound s) (s_mass s) (s_host s) (s_rank s) (s_depth s) (s_lastmax s) (s_snapmax s) v (s_birth s) (s_death s) (s_snapsink s) (s_sink s) (s_parts s) (s_nest s) (s_rest s).
  Definition set_birth v (s : sub X R) := mksub (s_track s) (s_nbound s) (s_mass s) (s_host s) (s_rank s) (s_depth s) (s_lastmax s) (s_snapmax s) (s_snapiso s) v (s_death s) (s_snapsink s) (s_sink s) (s_parts s) (s_nest s) (s_rest s).
  Definition set_death v (s : sub X R) := mksub (s_track s) (s_nbound s) (s_mass s) (s_host s) (s_rank s) (s_depth s) (s_lastmax s) (s_snapmax s) (s_snapiso s) (s_birth s) v (s_snapsink s) (s_sink s) (s_parts s) (s_nest s) (s_rest s).
  Definition set_sink v w (s : sub X R) := mksub (s_track s) (s_nbound s) (s_mass s) (s_host s) (s_rank s) (s_depth s) (s_lastmax s) (s_snapmax s) (s_snapiso s) (s_birth s) (s_death s) w v (s_parts s) (s_nest s) (s_rest s).
  Definition set_parts (v : list (Z * X)) (s : sub X R) : sub X R := mksub (s_track s) (s_nbound s) (s_mass s) (s_host s) (s_rank s) (s_depth s) (s_lastmax s) (s_snapmax s) (s_snapiso s) (s_birth s) (s_death s) (s_snapsink s) (s_sink s) v (s_nest s) (s_rest s).
  Definition set_nest v (s : sub X R) := mksub (s_track s) (s_nbound s) (s_mass s) (s_host s) (s_rank s) (s_depth s) (s_lastmax s) (s_snapmax s) (s_snapiso s) (s_birth s) (s_death s) (s_snapsink s) (s_sink s) (s_parts s) v (s_rest s).
  Definition set_rest (v : R) (s : sub X R) : sub X R := mksub (s_track s) (s_nbound s) (s_mass s) (s_host s) (s_rank s) (s_depth s) (s_lastmax s) (s_snapmax s) (s_snapiso s) (s_birth s) (s_death s) (s_snapsink s) (s_sink s) (s_parts s) (s_nest s) v.
  (** src/subhalo.h:95-113, the default constructor.  HostHaloId is left uninitialised by the code; 0 stands for it. *)
  Definition new_sub (rest : R) : sub X R :=
    mksub (-1) 0 0%Q 0 0 0 0%Q (-1) (-1) (-1) (-1) (-1) (-1) [] [] rest.
End Set_fields.

(** Apply [f] to element [i]; [None] = out of bounds. *)
Definition modify {A} (l : list A) (i : nat) (f : A -> A) : option (list A) :=
  match nth_error l i with Some x => upd l i (f x) | None => None end.
Definition zmodify {A} (l : list A) (i : Z) (f : A -> A) : option (list A) :=
  if (i <? 0)%Z then None else modify l (Z.to_nat i) f.

(** ** The membership table *)
Section Members.
  Context {X R : Type}.
  (** std::sort of one member list with CompareMass_t (src/subhalo_tracking.cpp:86-105). *)
  Variable sort : list nat -> list nat.
  Variable include_orphans : bool.

  Definition counted (s : sub X R) : bool := include_orphans || Nat.ltb 1 (s_nbound s).
  (** src/subhalo_tracking.cpp:59-72 [CountMembers]: element [g] of the counters is SubGroups[g-1]. *)
  Definition count_members (nhalos : nat) (subs : list (sub X R)) : option (list nat) :=
    for_each subs (fun s c => if counted s then zmodify c (s_host s + 1) S else Some c) (repeat 0 (S nhalos)).
  (** src/subhalo_tracking.cpp:49-58 [BindMemberLists]: start of each group inside AllMembers. *)
  Fixpoint bind_from (offset : nat) (counts : list nat) : list nat :=
    match counts with [] => [] | c :: r => offset :: bind_from (offset + c) r end.
  (** src/subhalo_tracking.cpp:73-85 [FillMemberLists]; the state is (AllMembers, group sizes). *)
  Definition push_member (offs : list nat) (i : nat) (s : sub X R) (st : list nat * list nat) : option (list nat * list nat) :=
    if counted s then
      match zget offs (s_host s + 1), zget (snd st) (s_host s + 1) with
      | Some o, Some n =>
          match upd (fst st) (o + n) i, zmodify (snd st) (s_host s + 1) S with
          | Some all, Some szs => Some (all, szs)
          | _, _ => None
          end
      | _, _ => None
      end
    else Some st.
  Fixpoint fill_from (offs : list nat) (i : nat) (subs : list (sub X R)) (st : list nat * list nat) : option (list nat * list nat) :=
    match subs with
    | [] => Some st
    | s :: r => match push_member offs i s st with Some st' => fill_from offs (S i) r st' | None => None end
    end.
  (** The content of every group: what the view (offset, size) shows of AllMembers. *)
  Definition view_groups (all offs szs : list nat) : list (list nat) :=
    map (fun os => firstn (snd os) (skipn (fst os) all)) (combine offs szs).
  (** src/subhalo_tracking.cpp:150-162 [Build], with Init (39-48) and SortMemberLists (99-105).  The groups occupy disjoint
      parts of AllMembers, so sorting is done group by group. *)
  Definition build_table (nhalos : nat) (subs : list (sub X R)) : option (list (list nat)) :=
    match count_members nhalos subs with
    | None => None
    | Some counts =>
        let offs := bind_from 0 counts in
        match fill_from offs 0 subs (repeat 0 (length subs), repeat 0 (S nhalos)) with
        | None => None
        | Some (all, szs) => Some (map sort (view_groups all offs szs))
        end
    end.
  (** src/subhalo_tracking.cpp:130-140 [CountEmptyGroups]: hosts without members, the field group excluded. *)
  Definition count_empty (table : list (list nat)) : nat := length (filter (fun g => Nat.eqb (length g) 0) (tl table)).
End Members.

(** ** Centrals *)
Section Centrals.
  Context {X R H : Type}.
  Variable ratio : Q.                           (* HBTConfig.MajorProgenitorMassRatio *)
  Variable dist : sub X R -> H -> Q.            (* Subhalo_t::KineticDistance, an oracle; see Model/Sink.v *)

  (** src/subhalo_tracking.cpp:446-448: number of members heavy enough, counting stops at the first lighter one. *)
  Fixpoint n_major (limit : Q) (masses : list Q) : nat :=
    match masses with
    | [] => 0
    | m :: r => if negb (Qle_bool limit m) then 0 else S (n_major limit r)
    end.
  (** src/subhalo_tracking.cpp:451-461: position of the smallest distance among the first ones. *)
  Fixpoint closest (dmin : Q) (icenter i : nat) (ds : list Q) : nat :=
    match ds with
    | [] => icenter
    | d :: r => if negb (Qle_bool dmin d) then closest d i (S i) r else closest dmin icenter (S i) r
    end.
  (** src/subhalo_tracking.cpp:436-466 [DecideCentrals] for one member list. *)
  Definition decide_central (subs : list (sub X R)) (halo : H) (members : list nat) : option (list nat) :=
    match members with
    | (m0 :: _ :: _) as ms =>
        let get := fun i => nth_error subs i in
        match get m0 with
        | None => None
        | Some s0 =>
            let limit := (s_mass s0 * ratio)%Q in
            match mapM get ms with
            | None => None
            | Some ss =>
                let nm := S (n_major limit (map s_mass (tl ss))) in
                let ic := closest (dist s0 halo) 0 1 (map (fun s => dist s halo) (firstn (nm - 1) (tl ss))) in
                match nth_error ms ic with
                | None => None
                | Some mc => match upd ms 0 mc with Some l1 => upd l1 ic m0 | None => None end
                end
            end
        end
    | _ => Some members
    end.
  (** The loop over all hosts; SubGroups[hostid] is element hostid+1 of the table. *)
  Definition decide_centrals (subs : list (sub X R)) (halos : list H) (table : list (list nat)) : option (list (list nat)) :=
    match table with
    | [] => None
    | field :: groups =>
        match mapM (fun hg => decide_central subs (fst hg) (snd hg)) (combine halos groups) with
        | Some gs => Some (field :: gs)
        | None => None
        end
    end.
End Centrals.

(** ** FeedCentrals *)
Section Feed.
  Context {X R H : Type}.
  Variable centre : H -> R -> R.                 (* copies of the halo's position and velocity, lines 493-494 *)
  Variable snap : Z.                             (* SnapshotIndex *)

  (** Position of the first particle with the given id, lines 508-513. *)
  Fixpoint find_id (id : Z) (l : list (Z * X)) : option nat :=
    match l with
    | [] => None
    | p :: r => if Z.eqb (fst p) id then Some 0 else match find_id id r with Some k => Some (S k) | None => None end
    end.
  (** Swap positions [i] and [j]. *)
  Definition swap_at {A} (l : list A) (i j : nat) : option (list A) :=
    match nth_error l i, nth_error l j with
    | Some a, Some b => match upd l i b with Some l1 => upd l1 j a | None => None end
    | _, _ => None
    end.
  Definition lead_with (id : Z) (l : list (Z * X)) : option (list (Z * X)) :=
    match find_id id l with Some k => swap_at l k 0 | None => Some l end.

  (** Loop state: subhalos, what is left in the halos, and Npro. *)
  Record feed_state := mkfeed { f_subs : list (sub X R); f_halos : list (list (Z * X) * H); f_npro : nat }.
  (** src/subhalo_tracking.cpp:482-516: one host.  [None] = failed assert or out-of-bounds access. *)
  Definition feed_one (table : list (list nat)) (hostid : nat) (st : feed_state) : option feed_state :=
    match nth_error table (S hostid), nth_error (f_halos st) hostid with
    | Some members, Some (hparts, h) =>
        match members with
        | [] =>
            match nth_error (f_subs st) (f_npro st) with
            | None => None
            | Some c =>
                match upd (f_subs st) (f_npro st)
                        (set_birth snap (set_nbound (length hparts) (set_parts hparts
                           (set_rest (centre h (s_rest c)) (set_host (Z.of_nat hostid) c))))),
                      upd (f_halos st) hostid (s_parts c, h) with
                | Some subs', Some halos' => Some (mkfeed subs' halos' (S (f_npro st)))
                | _, _ => None
                end
            end
        | m0 :: _ =>
            match nth_error (f_subs st) m0 with
            | None => None
            | Some c =>
                match s_parts c with
                | [] => None
                | p0 :: _ =>
                    match lead_with (fst p0) hparts with
                    | None => None
                    | Some parts' =>
                        match upd (f_subs st) m0 (set_nbound (length hparts) (set_parts parts' c)),
                              upd (f_halos st) hostid (s_parts c, h) with
                        | Some subs', Some halos' => Some (mkfeed subs' halos' (f_npro st))
                        | _, _ => None
                        end
                    end
                end
            end
        end
    | _, _ => None
    end.
  (** src/subhalo_tracking.cpp:468-521 [FeedCentrals]; [order] is the order in which the threads treat the hosts,
      [fresh] the members of a default-constructed subhalo that the constructor leaves alone. *)
  Definition feed_centrals (fresh : R) (order : list nat) (table : list (list nat)) (subs : list (sub X R))
      (halos : list (list (Z * X) * H)) : option feed_state :=
    for_each order (feed_one table)
      (mkfeed (subs ++ repeat (new_sub fresh) (count_empty table)) halos (length subs)).
End Feed.

(** src/subhalo_tracking.cpp:432 [Build] at the end of AssignHosts followed by 525-528 of [PrepareCentrals].
    NestSubhalos and MaskSubhalos are separate definitions. *)
Definition centrals_step {X R H} (sort : list nat -> list nat) (ratio : Q) (dist : sub X R -> H -> Q) (centre : H -> R -> R)
    (snap : Z) (fresh : R) (order : list nat) (subs : list (sub X R)) (halos : list (list (Z * X) * H)) : option (list (list nat) * @feed_state X R H) :=
  match build_table sort true (length halos) subs with
  | None => None
  | Some table0 =>
      match decide_centrals ratio dist subs (map snd halos) table0 with
      | None => None
      | Some table =>
          match feed_centrals centre snap fresh order table subs halos with
          | Some st => Some (table, st)
          | None => None
          end
      end
  end.
