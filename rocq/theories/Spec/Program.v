(** What the program is given, and what its results mean. *)
From Coq Require Import List ZArith QArith Sorting.Sorted Sorting.Permutation.
From Verif.Model Require Import Hash Subhalo Program.
From Verif.Spec Require Import Members Nesting Catalogue Query Unbinding.
Import ListNotations.
Local Open Scope nat_scope.

Section Program.
  Context {X R S E : Type}.
  Variable g : setup X R S E.
  Local Notation part := (Z * X)%type.
  Local Notation subhalo := (sub X R).
  Local Notation catalogue := (list (list subhalo)).

  (** The library and the configuration: sorts sort, loops treat every element once, roots are at least 1, parameters are in
      their documented ranges. *)
  Record sane : Prop := {
    sn_chunk : 1 <= g_chunk g;
    sn_parts : forall l, Permutation (g_sort_parts g l) l /\ StronglySorted Z.le (map fst (g_sort_parts g l));
    sn_local : forall l, Permutation (g_sort_local g l) l /\ StronglySorted Z.le (map (fun p => fst (fst p)) (g_sort_local g l));
    sn_roam : forall l, Permutation (g_sort_roam g l) l /\ StronglySorted Z.le (map fst (g_sort_roam g l));
    sn_rank : forall l, Permutation (g_sort_rank g l) l /\ StronglySorted le (map snd (g_sort_rank g l));
    sn_keys : forall l, mapped_fill l (g_sort_keys g l);
    sn_mass : forall subs, sorts_by_mass subs (g_sort_mass g subs);
    sn_sorter : exists lt, forall site l, Permutation (g_sorter g site l) l /\ ascending lt snd (g_sorter g site l);
    sn_sched : forall snap k site l, Permutation (g_sched g snap k site l) l;
    sn_sched_keys : forall snap k l, Permutation (g_sched_keys g snap k l) l;
    sn_root : (forall N d, 1 <= N -> 1 <= d -> 1 <= g_root g N d) /\ forall N, g_root g N 1 = N;
    sn_shuffle : forall snap l, Permutation (g_shuffle g snap l) l;
    sn_average : forall l s, g_halo_id g (g_average g l s) = g_halo_id g s;
    sn_sign : forall e, g_neg g e = true -> g_pos g e = false;
    sn_box : (0 < g_box g)%Q;
    sn_ratio : (g_ratio g <= 1)%Q;
    sn_converged : forall n, g_converged g n n = true;
    sn_allowed : forall n, (n <= g_allowed g n)%nat;
    sn_min_part : 2 <= g_min_part g }.

  (** The particles and groups of a snapshot, on all processes together. *)
  Definition particles (snap : Z) : list part := concat (g_loaded g snap).
  Definition groups (snap : Z) : list (list part * S) := concat (g_groups g snap).
  (** [id] is not outside the ids of the snapshot. *)
  Definition within (snap : Z) (id : Z) : Prop := exists p q, In p (particles snap) /\ In q (particles snap) /\ (fst p <= id <= fst q)%Z.

  (** Valid input for [W] processes in one snapshot: at least as many particles as processes; ids distinct and not negative,
      masses not negative; the particles of the groups are inside the ids of the snapshot, and are its particles when groups come with full
      particles. *)
  Record valid_snapshot (W : nat) (snap : Z) : Prop := {
    vs_loaded : length (g_loaded g snap) = W; vs_groups : length (g_groups g snap) = W;
    vs_enough : W <= length (particles snap);
    vs_unique : NoDup (map fst (particles snap));
    vs_ids : forall p, In p (particles snap) -> (0 <= fst p)%Z;
    vs_mass : forall p, In p (particles snap) -> (0 <= g_pmass g p)%Q;
    vs_members : forall h p, In h (groups snap) -> In p (fst h) -> if g_full g then In p (particles snap) else within snap (fst p) }.
  (** Valid input for [n] snapshots from [start]; no snapshot has ids outside those of the next. *)
  Record valid_input (W n : nat) (start : Z) : Prop := {
    vi_procs : 1 <= W; vi_start : (0 <= start)%Z;
    vi_snapshots : forall snap, (start <= snap < start + Z.of_nat n)%Z -> valid_snapshot W snap;
    vi_next : forall snap p, (start <= snap < start + Z.of_nat n - 1)%Z -> In p (particles snap) -> within (snap + 1) (fst p) }.

  (** ** Catalogues *)

  (** The record of a particle in a snapshot; the records of the particles of a list that still exist. *)
  Definition now (snap : Z) (id : Z) : option part := find (fun p => Z.eqb (fst p) id) (particles snap).
  Definition remaining (snap : Z) (l : list part) : list part :=
    flat_map (fun p => match now snap (fst p) with Some q => [q] | None => [] end) l.
  (** The group [h] contains the particle [id]. *)
  Definition contains (h : list part * S) (id : Z) : Prop := In id (map fst (fst h)).

  (** A catalogue of [W] processes makes sense at [snap]. *)
  Record sound (W : nat) (snap : Z) (cat : catalogue) : Prop := {
    sd_procs : length cat = W;
    (* the track ids are 0, 1, 2, ... *)
    sd_tracks : Permutation (map s_track (concat cat)) (map Z.of_nat (seq 0 (length (concat cat))));
    (* the nests are a forest with the subhalos of rank 0 as roots *)
    sd_nests : exists ts, global_forest (concat cat) ts;
    (* all particles are particles of this snapshot with its attributes *)
    sd_particles : forall s p, In s (concat cat) -> In p (s_parts s) -> In p (particles snap);
    sd_bound : forall s, In s (concat cat) -> s_nbound s <= length (s_parts s);
    sd_hosts : forall s, In s (concat cat) -> s_host s = (-1)%Z \/ exists h, In h (groups snap) /\ s_host s = g_halo_id g (snd h);
    sd_births : forall s, In s (concat cat) -> (s_birth s <= snap)%Z;
    sd_maximum : forall s, In s (concat cat) -> (s_mass s <= s_lastmax s)%Q }.

  (** The subhalo [s] of the previous catalogue is [o] at [snap]: same track and birth; its host is a group that contains the
      first of its particles that still exist, or no group contains that particle; the maximum of the mass and the last
      snapshot of isolation are updated. *)
  Record continues (snap : Z) (s o : subhalo) : Prop := {
    co_track : s_track o = s_track s; co_birth : s_birth o = s_birth s;
    co_host : match remaining snap (s_parts s) with
              | [] => s_host o = (-1)%Z
              | q :: _ => (exists h, In h (groups snap) /\ contains h (fst q) /\ s_host o = g_halo_id g (snd h)) \/
                          ((forall h, In h (groups snap) -> ~ contains h (fst q)) /\ s_host o = (-1)%Z)
              end;
    co_maximum : ((s_lastmax s <= s_mass o)%Q -> s_lastmax o = s_mass o /\ s_snapmax o = snap) /\
                 ((s_mass o < s_lastmax s)%Q -> s_lastmax o = s_lastmax s /\ s_snapmax o = s_snapmax s);
    co_isolation : s_snapiso o = if Z.eqb (s_rank o) 0 then snap else s_snapiso s }.
  (** A new subhalo: born now, self-bound, in a group. *)
  Record appears (snap : Z) (o : subhalo) : Prop := {
    ap_birth : s_birth o = snap; ap_bound : 1 < s_nbound o;
    ap_host : exists h, In h (groups snap) /\ s_host o = g_halo_id g (snd h) }.
  (** From one catalogue to the next: every subhalo continues, and the others appear. *)
  Definition evolves (snap : Z) (cat cat' : catalogue) : Prop :=
    (forall s, In s (concat cat) -> exists o, In o (concat cat') /\ continues snap s o) /\
    (forall o, In o (concat cat') -> (exists s, In s (concat cat) /\ continues snap s o) \/ appears snap o).
End Program.
