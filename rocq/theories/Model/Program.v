(** The whole program (HBT.cpp:20-95): the parts modelled in the other files, put together in the order of the main loop.
    The [W] processes are the elements of lists.  The catalogue, the files and the loop are those of Catalogue.v. *)
From Coq Require Import List ZArith QArith Bool.
From Verif.Model Require Import Run ListMem Mpi Mymath Hash Exchange ParticleExchange HaloExchange Hosts Subhalo Nest Mask Unbind Merge Work Variants Tracks UpdateTracks UpdateInclusive Catalogue.
Import ListNotations.
Local Open Scope nat_scope.

(** [f] on every process, with its rank. *)
Fixpoint each_from {A B} (k : nat) (f : nat -> A -> run B) (l : list A) : run (list B) :=
  match l with
  | [] => Done []
  | x :: r => rbind (f k x) (fun y => rbind (each_from (S k) f r) (fun t => Done (y :: t)))
  end.
Definition each {A B} (f : nat -> A -> run B) (l : list A) : run (list B) := each_from 0 f l.

(** What the program depends on.  [X]: a particle without its id.  [R]: members of a subhalo no modelled function tests.
    [S]: a halo without its particles.  [E]: energies. *)
Record setup (X R S E : Type) := mksetup {
  (* chunk size of MyAllToAll (src/mymath.h), MaxChunkSize (src/subhalo_tracking.cpp:373) *)
  g_chunk : nat; g_host_chunk : nat;
  (* HBTConfig: ParticleIdNeedHash, GroupLoadedFullParticle, MergeTrappedSubhalos, RefineMostboundParticle *)
  g_need_hash : bool; g_full : bool; g_merge : bool; g_refine : bool;
  (* whether the program was compiled without NO_STRIPPING *)
  g_strip : bool;
  (* whether the program was compiled with INCLUSIVE_MASS *)
  g_inclusive : bool;
  (* HBTConfig: MajorProgenitorMassRatio, the tests with BoundMassPrecision and SourceSubRelaxFactor (Model/Unbind.v), BoxSize *)
  g_ratio : Q; g_converged : nat -> nat -> bool; g_allowed : nat -> nat; g_box : Q;
  (* HBTConfig: MinNumPartOfSub, MaxSampleSizeOfPotentialEstimate, MinSnapshotIndex *)
  g_min_part : nat; g_max_sample : nat; g_min_snapshot : Z;
  (* the sorts: src/snapshot_exchanger.cpp (particles by id), src/particle_exchanger.h (by id, by id, by rank), src/hash.tpp:30,
     src/subhalo_tracking.cpp:86-105, src/subhalo_unbind.cpp *)
  g_sort_parts : list (Z * X) -> list (Z * X); g_sort_local : list (Z * X * nat) -> list (Z * X * nat);
  g_sort_roam : list (Z * (X * nat)) -> list (Z * (X * nat)); g_sort_rank : list (nat * nat) -> list (nat * nat);
  g_sort_keys : list (Z * Z) -> list (Z * Z); g_sort_mass : list (sub X R) -> list nat -> list nat;
  g_sorter : sort_site -> list (nat * E) -> list (nat * E);
  (* the order in which the threads of a process treat the elements of a parallel loop: snapshot, rank, number of the loop *)
  g_sched : Z -> nat -> nat -> list nat -> list nat; g_sched_keys : Z -> nat -> list (Z * Z) -> list (Z * Z);
  (* numerical functions: roots, halo coordinates, distances, energies and so on; oracles as in the other files *)
  g_root : nat -> nat -> nat; g_position : S -> Q * Q * Q; g_average : list (Z * X) -> S -> S; g_halo_id : S -> Z;
  g_dist : Z -> sub X R -> S -> Q; g_centre : S -> R -> R; g_fresh : R;
  g_neg : E -> bool; g_pos : E -> bool; g_no_energy : E;
  g_energy : Z -> list (Z * X) * R -> nat -> list (nat * E) -> nat -> E; g_inner : Z -> list (Z * X) * R -> list (nat * E) -> nat -> E;
  g_rest_of : Z -> list (Z * X) -> nat -> R -> R; g_shuffle : Z -> list (Z * X) -> list (Z * X);
  g_near : Z -> nat * list (Z * X) * R -> nat * list (Z * X) * R -> bool; g_pmass : Z * X -> Q;
  g_mean : sub X R -> R;           (* AverageCoordinates, src/subhalo.cpp:221-231 *)
  g_promoted : Z * X -> R -> R;    (* position and velocity of the most bound particle, src/subhalo_tracking.cpp:586-587 *)
  g_report : Z -> sub X R -> R;    (* profile and shape, src/subhalo_tracking.cpp:901-906 *)
  (* files: MostBoundParticleId, SnapshotId, contents of unread particle members *)
  g_mbid : Z -> R -> R; g_snapid : Z -> Z; g_junk : nat -> nat -> nat -> X;
  (* input: the particles and the halos each process has read, by snapshot *)
  g_loaded : Z -> list (list (Z * X)); g_groups : Z -> list (list (list (Z * X) * S)) }.
Arguments g_chunk {X R S E}. Arguments g_host_chunk {X R S E}. Arguments g_need_hash {X R S E}. Arguments g_full {X R S E}.
Arguments g_merge {X R S E}. Arguments g_refine {X R S E}. Arguments g_strip {X R S E}. Arguments g_inclusive {X R S E}. Arguments g_ratio {X R S E}. Arguments g_converged {X R S E}.
Arguments g_allowed {X R S E}. Arguments g_box {X R S E}. Arguments g_min_part {X R S E}. Arguments g_max_sample {X R S E}.
Arguments g_min_snapshot {X R S E}. Arguments g_sort_parts {X R S E}. Arguments g_sort_local {X R S E}. Arguments g_sort_roam {X R S E}.
Arguments g_sort_rank {X R S E}. Arguments g_sort_keys {X R S E}. Arguments g_sort_mass {X R S E}. Arguments g_sorter {X R S E}.
Arguments g_sched {X R S E}. Arguments g_sched_keys {X R S E}. Arguments g_root {X R S E}. Arguments g_position {X R S E}.
Arguments g_average {X R S E}. Arguments g_halo_id {X R S E}. Arguments g_dist {X R S E}. Arguments g_centre {X R S E}.
Arguments g_fresh {X R S E}. Arguments g_neg {X R S E}. Arguments g_pos {X R S E}. Arguments g_no_energy {X R S E}.
Arguments g_energy {X R S E}. Arguments g_inner {X R S E}. Arguments g_rest_of {X R S E}. Arguments g_shuffle {X R S E}.
Arguments g_near {X R S E}. Arguments g_pmass {X R S E}. Arguments g_mean {X R S E}. Arguments g_promoted {X R S E}. Arguments g_report {X R S E}.
Arguments g_mbid {X R S E}. Arguments g_snapid {X R S E}. Arguments g_junk {X R S E}. Arguments g_loaded {X R S E}. Arguments g_groups {X R S E}.

Section Program.
  Context {X R S E : Type}.
  Variable g : setup X R S E.
  Local Notation part := (Z * X)%type.
  Local Notation subhalo := (sub X R).
  Local Notation halo := (list part * S)%type.
  (** SpecialConst::NullParticleId, SpecialConst::NullHaloId and the "not found" of the tables. *)
  Definition nothing : Z := -1.

  (** ** Loading, HBT.cpp:56-60 *)

  (** src/snapshot.cpp:60-65 [FillParticleHash] on process [k]. *)
  Definition fill_hash (snap : Z) (k : nat) (l : list part) : run (snap_proc X) :=
    if g_need_hash g then Done (mksnap l true (g_sort_keys g (indexed l)) (mkflat 0 0 0 []))
    else rbind (of_opt (flat_fill nothing (indexed l) (g_sched_keys g snap k (indexed l)))) (fun t => Done (mksnap l false [] t)).
  (** src/io/snapshot_io.cpp:19-53 [Load] after reading: ExchangeParticles and FillParticleHash. *)
  Definition load_particles (snap : Z) : run (list (snap_proc X) * list Z) :=
    let l := g_loaded g snap in
    rbind (exchange_particles fst (g_sort_parts g) (1 + (length (concat l) + length l)) l) (fun nr =>
    rbind (each (fill_hash snap) (fst nr)) (fun sps => Done (sps, snd nr))).
  (** The loaded snapshot; without a result of loading, [later_steps] below crashes. *)
  Definition snap_procs (snap : Z) : list (snap_proc X) := match load_particles snap with Done r => fst r | _ => [] end.
  Definition snap_ranges (snap : Z) : list Z := match load_particles snap with Done r => snd r | _ => [] end.

  (** ** One snapshot, HBT.cpp:64-83 *)

  (** src/subhalo.cpp:221-231 [AverageCoordinates] (called from src/particle_exchanger.h:238) and src/subhalo.cpp:479-499
      [CountParticles] (only the total mass). *)
  Definition derived (s : subhalo) : subhalo :=
    set_mass (mass_sum (g_pmass g) (firstn (s_nbound s) (s_parts s))) (set_rest (g_mean g s) s).
  (** What AssignHosts looks at: the tables of the halo snapshot (src/halo.cpp:113-117) and of the particle snapshot. *)
  Definition host_proc (sh : snap_proc X * list halo) : proc :=
    let halos := map (fun h => map fst (fst h)) (snd sh) in
    {| pr_halos := halos; pr_ids := map fst (sp_parts (fst sh)); pr_htable := g_sort_keys g (halo_keys halos);
       pr_ptable := if g_need_hash g then PMapped (sp_map (fst sh)) else PFlat (sp_flat (fst sh)) |}.
  (** Member table, DecideCentrals and FeedCentrals on process [k] (src/subhalo_tracking.cpp:432, 525-528). *)
  Definition fed_by (snap : Z) (k : nat) (sh : list subhalo * list halo) : run (list (list nat) * list subhalo) :=
    rbind (of_opt (centrals_step (g_sort_mass g (fst sh)) (g_ratio g) (g_dist g snap) (g_centre g) snap (g_fresh g)
                     (g_sched g snap k 0 (seq 0 (length (snd sh)))) (fst sh) (snd sh))) (fun ts => Done (fst ts, Subhalo.f_subs (snd ts))).
  (** NestSubhalos after LocalizeNestedIds, on process [k]. *)
  Definition nested_by (snap : Z) (k : nat) (ts : list (list nat) * list subhalo) : run (list subhalo * list (list nat)) :=
    nest_local (length (snd ts)) (g_sched g snap k 1 (seq 0 (length (snd ts)))) (fst ts) (snd ts).
  (** MaskSubhalos (not with INCLUSIVE_MASS, src/subhalo_tracking.cpp:530-532), RefineParticles and MergeSubhalos on process [k]. *)
  Definition worked_by (snap : Z) (k : nat) (tn : list (list nat) * (list subhalo * list (list nat))) : run (list subhalo) :=
    let '(table, (subs, heads)) := tn in
    let halos := seq 0 (length heads) in
    let all := seq 0 (length subs) in
    let unbind := unbind_of (g_neg g) (g_pos g) (g_sorter g) (g_shuffle g snap) (g_energy g snap) (g_inner g snap) (g_no_energy g) (g_rest_of g snap) (g_pmass g)
      (g_min_part g) (g_converged g) (g_max_sample g) (g_refine g) snap (g_strip g) in
    if g_inclusive g then
      work_inclusive unbind (truncate (g_allowed g)) (g_near g snap) (g_pmass g) snap (g_merge g) (length subs)
        (g_sched g snap k 4 all) (g_sched g snap k 5 all) (g_sched g snap k 6 all) (g_sched g snap k 7 halos) (g_sched g snap k 8 all) table heads subs
    else
      work_with unbind (truncate (g_allowed g)) (g_pmass g) snap (g_near g snap) (g_merge g) (length subs)
        (g_sched g snap k 2 halos) (g_sched g snap k 3 halos) (g_sched g snap k 4 (unnested table subs))
        (g_sched g snap k 5 all) (g_sched g snap k 6 all) (g_sched g snap k 7 halos) (g_sched g snap k 8 all) table heads subs.
  (** UpdateTracks on process [k] after RegisterNewTracks (src/subhalo_tracking.cpp:878-906). *)
  Definition finished_by (snap : Z) (k : nat) (hrn : list halo * (list subhalo * list (list nat))) : run (list subhalo) :=
    let '(halos, (reg, heads)) := hrn in
    let order := g_sched g snap k 9 (seq 0 (length halos)) in
    let ids := map (fun h => g_halo_id g (snd h)) halos in
    rbind (if g_inclusive g then update_tracks_inclusive (g_promoted g) (g_sort_mass g reg) (length reg) order (g_sched g snap k 10 (seq 0 (1 + length halos))) snap ids heads reg
           else update_tracks (g_sort_mass g reg) (length reg) order snap ids heads reg)
      (fun o => Done (map (fun s => set_rest (g_report g snap s) s) (snd o))).
  (** HBT.cpp:64 and 69-83 for given halos and particles.  The code updates the halos (64) before the subhalos (67); neither
      update reads what the other writes, so that the model may do it after. *)
  Definition steps (snap : Z) (sps : list (snap_proc X)) (ranges : list Z) (cat : list (list subhalo)) : run (list (list subhalo)) :=
    rbind (update_halos (g_chunk g) (g_average g) (halo_cell (g_root g) (g_box g) (g_position g)) (g_sort_rank g) nothing
             (g_sort_local g) (g_sort_roam g) (g_full g) ranges sps (g_groups g snap)) (fun halos =>
    rbind (of_opt (assign_hosts (map host_proc (combine sps halos)) (g_host_chunk g) cat)) (fun moved =>
    rbind (each (fed_by snap) (combine moved halos)) (fun fed =>
    rbind (of_opt (localize (map (fun f => (g_sort_keys g (track_keys (snd f)), snd f)) fed))) (fun locals =>
    rbind (each (nested_by snap) (combine (map fst fed) locals)) (fun nested =>
    rbind (each (worked_by snap) (combine (map fst fed) nested)) (fun work =>
    rbind (of_opt (register (combine work (map (fun f => count_empty (fst f)) fed)))) (fun regs =>
    each (finished_by snap) (combine halos (combine regs (map snd nested)))))))))).
  Definition later_steps (snap : Z) (h : unit) (cat : list (list subhalo)) : run (unit * list (list subhalo)) :=
    rbind (load_particles snap) (fun r => rbind (steps snap (fst r) (snd r) cat) (fun c => Done (h, c))).

  (** HBT.cpp:43-86: [n] snapshots from [start] on [W] processes, with the files [d] already there. *)
  Definition hbt (W n : nat) (start : Z) (d : disk X R) : run (unit * disk X R * list (list subhalo)) :=
    program nothing (g_mbid g) (g_snapid g) (g_junk g) (g_min_snapshot g) (g_chunk g) (g_sort_local g) (g_sort_roam g)
      snap_ranges snap_procs derived later_steps W n start tt d.
End Program.
