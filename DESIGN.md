# Formal model of HBT+ in Rocq (Coq 8.16.1)

## 1. Layout

* `properties.jsonl` – the list of properties (C01, C02, ...), in terms of observable behaviour.
* `rocq/theories/Model/*.v` – executable Gallina models of the C++ functions; each definition cites
  the file and lines in `/repo` it models and states its simplifications. No proofs in there.
* `rocq/theories/Spec/*.v` – small, model-independent definitions used to state the properties.
* `rocq/theories/Proofs/*.v` – lemmas and proofs.
* `rocq/theories/Props/*.v` – the property theorems with `Print Assumptions` beneath, and non-vacuity
  examples (`Cnn_witness`) beside them.
* `MANIFEST.json` – property -> theorem names and status (written by `tools/manifest.py` from `tools/claims.py`).
* `ASSUMPTIONS.md` – what `Print Assumptions` lists for each theorem (written by `tools/assumptions.py`).
* `seeded/` – seeded bugs (`mutants_*.py`), the script is `tools/seed.py`, the log `seeded/LOG.jsonl`.

## 2. Modelling conventions

* Integers (`HBTInt`, `int`, `size_t`) are unbounded `Z`/`nat`, except where a property is about
  overflow or byte patterns. So integer overflow is *not* covered, except in C82.
* Arrays / `std::vector` are lists; an out-of-bounds access is an error outcome (`None`, or `Crash` of
  `Model/Run.v`), never a default. A failed `assert`, `exit` or uncaught exception is an error outcome too.
* Loops and recursions whose end is not obvious take `fuel`; running out of it is the separate outcome
  `Running` (or `None`), so "it terminates" is part of the theorem.
* Floating-point numbers are exact rationals `Q`, or an abstract type with the comparisons used. Rounding is *not*
  covered unless stated (C08, C63 and C81 are about it).
* `std::sort` is any function returning a sorted permutation (universally quantified, for each place of call).
* MPI processes are the elements of a list of local states; collective operations are functions on that list
  (MPI's documented semantics is trusted).
* OpenMP loops run their iterations in an arbitrary order (universally quantified permutation) where iterations
  interact, and sequentially where they touch disjoint data. That iterations may be taken as atomic is proved for the
  loops over subhalos and halos that walk through nests or number subhalos, and for filling tables and merging linked lists
  (C87, C88, C89: no races, and every interleaving of single reads and writes ends in the sequential result); for the other loops it is an assumption, obvious from the code where an iteration writes only what
  belongs to its own index.
* The potential solver (as far as unbinding is concerned), distances, random numbers, sqrt, cube root, `pow` and the
  conversion of decimal text to reals are oracles (universally quantified functions).

## 3. Modelled code and proof idea per property

| id | modelled code | model file | proof idea |
|----|----|----|----|
| C01 | `AssignTasks` | Mymath | div/mod arithmetic, induction over workers |
| C02 | `CompileOffsets` | Mymath | induction over the list |
| C03 | `swap_Nbyte` on byte lists, 16/32-bit shift/mask words | Mymath | bit lemmas, induction over elements |
| C04 | `GetGrid`, `AssignCell` | Mymath | floor monotonicity, mixed-radix injectivity |
| C05 | `LargestRootFactor`, `ClosestFactors` | Mymath | induction over the dimension; `floor(pow())` is an oracle |
| C06 | `FortranBlock::Read`, `SkipFortranBlock` on bytes and a cursor | Mymath | list slicing |
| C07 | `NEAREST`, `PeriodicDistance` | Mymath | case analysis, linear arithmetic |
| C08 | `position_modulus` on Q and on IEEE binary64 | Mymath | floor; counterexample by computation |
| C09 | `MappedIndexTable_t`, `FlatIndexTable_t` | Hash | sortedness and binary search invariant |
| C10 | `GetIndicesRecursive`, `GetIndices` | Hash | induction on the recursion |
| C11, C12 | `ParallelStride`, `IsContiguousId`, `PartitionParticles`, `ExchangeParticles` | Exchange | each round moves between 1 and `steps` particles and keeps moved below unmoved |
| C13, C14 | `MyAllToAll`, `MyBcast` | Mpi | arithmetic of c/Nloop and c mod Nloop; list slicing |
| C15 | `SyncVectorString` | Mpi | join/split round trip |
| C16 | `RestoreParticleOrder` | ParticleExchange | cycle invariant: fixed positions grow |
| C17 | `ParticleExchanger_t` from `CollectParticles` to `RestoreParticles` | ParticleExchange | composition of sort, split, query, receive, restore |
| C18 | `KickNullParticles` of halos and subhalos | ParticleExchange | loop invariant = filter |
| C19 | Apostle `LoadGroups`, `DecideTargetProcessor`, `ExchangeHalos`, `MergeHalos` | Apostle | cut by key; C13; agreement of the owners |
| C20 | Gadget `AssignHaloTasks`, `Load` | Groups | lower/upper bound lemmas; tiling |
| C21 | `MemberShipTable_t::Build` | Subhalo | counting sort invariant |
| C22 | `FindLocalHosts`, `FindOtherHosts(Safely)`, `AssignHosts` | Hosts | conservation, MPI_MAXLOC, stable sort = packing order |
| C23 | `DecideCentrals` | Subhalo | argmin loop invariant |
| C24 | `FeedCentrals` | Subhalo | invariant for any order of the hosts |
| C25 | `RegisterNewTracks` | Tracks | induction over histories: ids are `0..n-1` |
| C26 | `UpdateTrack` | Tracks, UpdateTracks | fold over the history |
| C27–C30 | `LocalizeNestedIds`, `NestSubhalos`, `LevelUpDetached*`, `ExtendCentralNest`, `AssignRanks`, `FillDepth`, `Glue/UnglueHeadNests`, `GlobalizeTrackReferences`, `UpdateTracks` | Nest, UpdateTracks | forest invariant over all histories of runs |
| C31 | `SubhaloMasker_t`, `MaskSubhalos` | Mask | recursion on the tree with the exclusion set |
| C32 | `PartitionBindingEnergy` | Unbind | loop invariant; three-valued sign covers NaN |
| C33–C36 | `Subhalo_t::Unbind`, `RefineBindingEnergyOrder` | Unbind | decreasing bound count; permutation lemmas |
| C37 | `RecursiveUnbind`, `RefineParticles` | Unbind | structural induction on the nest |
| C38 | `TruncateSource` | Unbind | arithmetic |
| C39 | `DetectTraps`, `FillHostTrackIds`, sinking | Merge | walk over ancestors |
| C40 | `MergeTo`, `MergeRecursive`, `MergeSubhalos` | Merge | set reasoning, chains of sinks |
| C41, C51 | `WriteFile`, `Save`, `ReadFile`, `Load`, main loop of `HBT.cpp` | Catalogue | C01 and concatenation; simulation of the two runs |
| C42 | configuration parser | Config | induction over lines |
| C43–C45 | `Linkedlist_t`, `LinkedlistPara_t`, FoF | LinkedList | chain invariant; monotone clamped cell; graph search invariant |
| C46–C49 | octree build, threading, potential, neighbour searches | Tree | tree induction; C07 for periodic distances |
| C50 | `HaloParticleIterator_t` | Iterators | induction |
| C52, C56 | `SphericalOverdensitySize`, `CalculateProfileProperties` | Profile | scan from the end; sorted cumulative sums |
| C53, C55 | `Unbind` with its energy correction and averages | Frames | ring identities; counterexample for a stale frame |
| C54 | `MaskSubhalos`, `RefineParticles`, `MergeSubhalos` composed | Work | composition of C31, C33–C40 |
| C57 | `ParseHBTParams`, `BroadCast`, start of `HBT.cpp` | Startup | every member is in the list of calls |
| C58 | `DumpParameters` | Config | print/parse round trip |
| C59 | `HaloSnapshot_t::UpdateParticles`, `ExchangeHalos`, `DecideTargetProcessor` | HaloExchange | sorted groups, slices at displacements |
| C60 | `UpdateTracks`, `GlobalizeTrackReferences` | UpdateTracks | inversion of the run, on top of C28 |
| C61 | `main` with all stages it calls | Program | invariant over the main loop, from C02, C17, C22, C28, C41, C54, C59, C60 |
| C62 | `Mask`, `RecursiveUnbind`, `TruncateSource`, `MergeTo`, inside `main` | Program, Work | particles of a nest are conserved and kept apart through the work; invariant over the main loop, on top of C61 |
| C63 | `position_modulus` in any IEEE format | Mymath | error of each rounding (Flocq), case split on the quotient |
| C64 | `gadget_io.cpp`: `GadgetReader_t::Load` with all it calls | Gadget | a cursor in the bytes, block by block; independent encoder of the format; C01, C03, C06 |
| C65 | `gadget_group_io.cpp:1-273`: `GetFileNameFormat`, `ReadV2V3` | GroupFiles | bytes of tab and ids files; independent encoder; C20 |
| C66 | `CountParticles`, `CountParticleTypes` | Counts | tallies as a fold; parallel parts added up in any order |
| C67 | `AveragePosition`, `AverageVelocity`, `AverageCoordinates`, `SubHelper_t::BuildPosition`, `BuildVelocity` | Means | sums over threads = sums over particles; offsets from the first particle are differences of images |
| C68 | `AverageKinematics`, `CalculateShape` | Means | sums as in C67; tensors as quadratic forms |
| C69 | `ApostleReader_t`: `LoadSnapshot`, `ReadSnapshot`, `ReadGroupParticles`, `LoadGroups` | ApostleFiles | segments of the arrays of each process; groups by refinement to C19 |
| C70 | `SetSnapshotIndex`, `GetSubFileName`, `GetGadgetFileName`, `ApostleReader_t::GetFileName` | FileNames | separators do not occur in numbers; decimals have no leading zeros |
| C71 | `PurgeMostBoundParticles` | Purge | the excluded ids are those of the members behind; exchange of two particles |
| C72 | `create_MPI_type` and its relatives (7 structures) | MpiTypes | a check on sizes that needs no layout, sound for every layout, evaluated for all builds |
| C73 | `GeoTree_t::SphDensity` | Sph (over Tree) | C48 for each search; the radius outgrows every distance; ties have weight zero, so the choice of nth_element does not matter |
| C74 | `BuildHDFDataType`, records of `WriteFile` and `ReadFile` | HdfTypes (over MpiTypes) | leaving out members keeps a layout; insertions append; stores at separate places commute |
| C75 | lists of ids in `WriteFile` and `ReadFile` | HdfTypes | arithmetic modulo 2^64 and clipping |
| C76 | `Cosmology_t::Set`, units, `HaloVirialFactors`, `SphericalOverdensitySize` for a profile, cosmology in `ReadFile` | Cosmology | algebra over the reals; Machin's series bounds pi |
| C77 | `SphericalOverdensitySize` and `SphericalOverdensitySize2` for equal masses | Cosmology | the iteration descends to the largest fixed point of a monotone counting function |
| C78 | `HBTReader`: `__init__`, `LoadSubhalos`, `LoadParticles`, `GetParticleProperties`, `GetSub`, `GetTrack`, `GetNumberOfSubhalos` | Reader | induction over the files with the offset as invariant |
| C79 | `GetExclusiveParticles`, `PeriodicDistance` of the Python reader | Reader | stable sort by size; the repository of taken particles is the union of the earlier lists |
| C80 | `Energies` in `Unbind` (SAVE_BINDING_ENERGY), input of `AverageKinematics` | Unbind | the loop invariant of C33-C35 with the entries kept |
| C81 | the convergence test and the multiple of `TruncateSource` in floating point | UnbindFloat | Flocq: monotone rounding and relative errors; the loop itself takes any test, so C33-C37, C39, C54, C61 apply to it |
| C82 | `MyAllToAll`, `MyBcast`, `ExchangeParticles`, `SyncContainer` with `int` counts | IntCounts | the functions of Mpi and Exchange with a check wherever a value is stored in an `int`; under the bounds each check passes, so they equal the unbounded ones |
| C83 | `SinkDistance`, `BuildPosition`, `BuildVelocity` as the criterion of `DetectTraps` | Sink, Means | the sum of two roots is compared by squaring; a change of frame carries the images of the core along |
| C84 | `KineticDistance`, `RelativeVelocity` as the distance of `DecideCentrals` | Sink | least periodic offset, unique unless it is half a box |
| C85 | `Unbind` with `NO_STRIPPING`, work and whole runs of that build (`g_strip`) | Variants, Program | the loop is that with stripping in which every energy counts as negative and the final sort comes after the real partition; then C54, C61, C62 apply |
| C86 | `RefineParticles`, `MergeSubhalos`, `MergeRecursive`, `MergeTo` with `INCLUSIVE_MASS` | Variants | the merge loop is a loop over subhalos, members before parents (as C40), with the invariant that a subhalo changes only at its own turn |
| C87 | the parallel loops of `LevelUpDetachedSubhalos`, `MaskSubhalos`, `RefineParticles`, `MergeSubhalos` as threads that read and write | Threads | footprints: a turn walks through one tree of the forest and the trees are disjoint; each turn alone does what the model does, and stays able to finish whatever the others do |
| C88 | the parallel loops of `FeedCentrals`, the beginning of `LevelUpDetachedSubhalos`, and of `UpdateTracks` as threads that read and write | UpdateThreads | as C87; for `FeedCentrals` the order in which the threads draw numbers is the order of the sequential loop; in `GlobalizeTrackReferences` what a turn reads nobody writes |
| C89 | the parallel loops of `FlatIndexTable_t::Fill`, `Linkedlist_t::merge`, `GlueHeadNests`, `UnglueHeadNests`, `PurgeMostBoundParticles` as threads that read and write | TableThreads | as C87; a turn of `merge` writes the head of one cell and the links of the particles in that cell, and the cells of the particles are disjoint |
| C90 | `main` with `INCLUSIVE_MASS` (`g_inclusive`) | UpdateInclusive, Program | what follows the promotion of particles in `UpdateTracks` depends on the particles only through ids and counts, so the run goes as without it but for the order of the particles and the positions; the work keeps lists free of repetitions (C86), and C71 gives the leader |
| C91 | `main` with any two thread schedules (`g_sched`, `g_sched_keys`) | Program | each turn of a loop changes only its own nest or subhalo and reads what no other turn changes, so every order gives what one turn per element gives; stages then agree after every history, and the runs by induction over the snapshots |
| C92 | `toolbox/combineSubSnap.py` | Combine | the files of a run hold its catalogue (C61); tracks are a permutation of 0, 1, 2, ..., so that sorting by track puts track t in row t |
| C93 | `toolbox/CreateSnapshotList.py` | SnapshotList | positions of first occurrences, sorted, give a sublist with distinct keys; stability of the sort decides between snapshot and snipshot |
| C94 | `psort` (src/mymath.cpp:145-191; no callers) | PartitionSort | cuts of the array: swaps inside a range keep the cuts outside it; the median of three bounds both scans |
| C95 | `Timer_t` (src/mymath.h:64-112), timing.log (HBT.cpp:46-95) | Timing | induction on the snapshots; the timer is empty at the start of each |
| C96 | `EigenAxis` (src/mymath.cpp:232-257), `CalculateShape` (src/subhalo.cpp:337-398) | Eigen | tensors as sums of dyads: forms are not negative; orthonormal columns make orthonormal rows, so the trace is the sum of the eigenvalues |

`Model/Program.v` puts these models together in the order of `main` (`HBT.cpp:43-86`) for one set-up `g`: configuration,
sorts, schedules, numerical oracles and what the readers return. `Spec/Program.v` says what valid input is (`sane`,
`valid_input`), when a catalogue makes sense (`sound`) and how it follows from the previous one (`evolves`). C61 is about
that composition; so the hypotheses of the single-stage theorems it uses are met by every run on valid input.

## 4. Trusted base

* Coq 8.16.1 kernel, `coqc` and the standard library. There are no axioms of our own, no `Admitted`, no switched-off
  kernel check, no functor and no module type.
* `Print Assumptions` of every property theorem: see `ASSUMPTIONS.md` (section per set of axioms). Only C63, C76, C77, C81, C83, C84 and C96 use real
  numbers; they list the standard library's `ClassicalDedekindReals.sig_not_dec`, `ClassicalDedekindReals.sig_forall_dec`,
  `FunctionalExtensionality.functional_extensionality_dep` and `Classical_Prop.classic` (C63, C81), and C63 and C81 are proved with lemmas of
  Flocq 4.1.0, which adds no axiom.
* The reading of the C++ code into the model (the cited definitions). The C++ is not compiled or run.
* Documented behaviour of MPI, OpenMP, HDF5 and the C++ standard library.

## 5. What is not modelled

* Rounding (except C08, C63, C81), overflow (except C82) and underflow of numbers; memory exhaustion; performance; console and log output, except timing.log (C95).
* File formats at the level of bytes, except Fortran records (C03, C06), Gadget snapshots (C64) and Gadget group files
  (C65): HDF5 calls below attributes and datasets (C69),
  `gadget_virial_io.h`. The *distribution* of what is read over the processes is modelled (C19, C20).
* Spin. The computation of eigenvectors inside GSL (C96 takes it as given).
* In the model of whole runs the properties of a subhalo that are only reported are in the abstract field `s_rest`; the
  functions that compute them are modelled by themselves (C26, C52, C66, C67, C68).
* Compile-time variants: `ALLOW_BINARY_SYSTEM`,
  `DM_ONLY` (there `KickNullParticles` does nothing), `UNBIND_WITH_THERMAL_ENERGY` (as a term of the energy only).
* Heterogeneous machines; MPI's message size limits.
* `toolbox/` except `HBTReader.py` (C78, C79), `combineSubSnap.py` (C92) and `CreateSnapshotList.py` (C93), and `src/test/`; of `HBTReader.py` not `ConfigReader`.

## 6. Findings

Proved as theorems (`..._refuted`, or as a stated restriction), each about code that exists:

| theorem | what happens |
|----|----|
| `C06_overlong_request_refuted` | reading more elements than the Fortran record holds is not rejected |
| `C08_position_modulus_float_refuted` | a tiny negative coordinate is wrapped to exactly the box size, in single and double precision |
| `C09_negative_keys_disagree_refuted` | the two index tables disagree on negative keys |
| `C11_fewer_particles_than_processes_refuted` | fewer particles than processes: front() of an empty vector |
| `C12_duplicates_never_stop` | duplicate ids can make `ParallelStride` run for ever |
| `C15_line_break_refuted` | a string with a line break is split by the broadcast |
| `C16_duplicate_targets_never_stop` | duplicate orders make `RestoreParticleOrder` run for ever |
| `C17_missing_below_ranges_refuted`, `C17_id_beyond_ranges_refuted` | ids below the first range keep their old record; ids beyond the last range end the program |
| `C19_null_id_refuted`, `C19_large_id_stops` | the group number 2^30 is dropped, larger ones fail an assertion |
| `C20_few_particles_refuted` | more processes than particles: FileOffsets[-1] is read |
| `C21_missing_particle_host_refuted`, `C22_unknown_particle_refuted` | a subhalo whose most bound particle is unknown gets host -2, SubGroups[-2] is written |
| `C28_field_depth_refuted` | subhalos without host keep a stale depth |
| `C33_precision_above_one_refuted` | a mass precision above one builds a tree of no particles |
| `C41_torn_save_refuted` | a save interrupted between two files can load without an error |
| `C42_no_value_refuted`, `C42_true_refuted`, `C42_crlf_refuted` | a compulsory name without value counts as set; "true" reads as false; a blank line ending in CR is rejected |
| `C44_wide_search_refuted`, `C44_shell_inclusive_refuted`, `C44_auto_range_refuted` | wide periodic searches report particles several times; shells are exclusive; the automatic range can lose particles |
| `C45_few_particles_refuted` | FoF with 1 to 99 particles divides by zero |
| `C46_zero_resolution_refuted` | with resolution 0 coincident particles are inserted for ever |
| `C49_nearest_neighbour_refuted` | the nearest-neighbour search never returns |
| `C51_low_id_refuted` | an id below the first range of the next snapshot breaks restart equivalence |
| `C52_stale_refuted` | without a crossing the old virial mass and radius stay |
| `C53_stale_frame_refuted` | after a turn that removes more than half of the particles the energy correction uses a stale frame |
| `C58_precision_refuted`, `C58_mask_refuted` | reals are recorded with six digits; a negative mask is recorded unsigned |
| `C62_merging_refuted` | `MergeTo` gives the sink also the unbound source particles of the satellite, which were already handed up to its hosts: a particle can be bound to two subhalos |
| `C62_vanishing_refuted` | when bound particles vanish so that `Nbound` falls to 1, the subhalo counts as an orphan but still has source particles ("restore to single particle" is not true): `Mask` skips it, and its host gets particles it already has and counts them twice |
| `C64_empty_first_file_refuted` | an empty first file of a Gadget snapshot: division by zero when block sizes are found |
| `C64_no_gas_refuted`, `C64_no_masses_refuted` | energies are read from files without gas, and with DM_ONLY masses from files without mass block |
| `C65_single_numbered_refuted` | a group catalogue in one file with a numbered name: `sprintf` of `%d` without argument |
| `C65_unsigned_ids_refuted` | 4-byte ids in group files are signed even if `SnapshotIdUnsigned` is set: ids from 2^31 on do not match |
| `C66_consumed_refuted` | `CountParticleTypes` skips consumed particles up to 100 bound particles and counts them beyond |
| `C66_restored_order_refuted` | `RecursiveUnbind` gives a subhalo with `Nbound` ≤ 1 and source particles its old order of particles back after unbinding, but keeps the new `Nbound`: the particles listed as bound are not the bound ones |
| `C67_wide_refuted`, `C67_outside_refuted` | average positions of objects wider than half a box depend on the order of the particles; averages are not wrapped into the box |
| `C68_coincident_refuted` | a second bound particle at the position of the most bound one: 0/0 in `CalculateShape` |
| `C69_missing_group_refuted`, `C69_missing_dataset_refuted` | an Apostle file without the group of a type counted in its header leaves the particles uninitialised; a missing dataset is read as zeros (a message is printed) |
| `C69_ids_refuted`, `C69_unsigned_ids_refuted` | HDF5 clips ids beyond HBTInt to its largest value: unsigned 8-byte ids pass `check_id_size`, and `ReadGroupParticles` has no check at all |
| `C70_names_and_ids_refuted` | with both snapshot ids and snapshot names listed, names are looked up by id: another snapshot is read, or memory behind the list |
| `C71_most_bound_lost`, `C71_most_bound_refuted` | with INCLUSIVE_MASS the most bound particle of every resolved subhalo is exchanged with its next particle that is in no smaller subhalo, although the first one is in none either: the `break` is inside `if(&p!=&subhalo.Particles[0])` |
| `C71_unbound_leader_refuted` | the same loop runs over all particles, not the bound ones: an unbound particle can become the leader. Energies (SAVE_BINDING_ENERGY) are not exchanged along (outside the model) |
| `C72_subhalo_refuted` | `MboundType` (float) is registered as `MPI_HBT_INT`: with HBT_INT8 the datatype covers the members behind it twice, which MPI forbids when receiving; the bytes that arrive are right if MPI copies them |
| `C72_apostle_refuted`, `C72_gadget_totals_refuted` | `BoxSize` is registered twice for `ApostleHeader_t`; of `npartTotal` in `GadgetHeader_t` only one element is registered (it is not used after the broadcast) |
| `C73_zero_guess_refuted`, `C73_few_particles_refuted`, `C73_reuse_refuted` | `SphDensity` never returns for a guess that is not positive, nor for a tree with fewer than `NumNeighbourSPH` particles; with that many particles at the place itself it divides by zero and leaves a guess of zero |
| `C75_negative_ids_refuted` | with `UNSIGNED_LONG_ID_OUTPUT` (the default of CMake) ids that are negative as HBTInt, i.e. unsigned ids from 2^63 on, are written correctly but all read back as 2^63-1 on a restart |
| `C75_short_ids_refuted` | CMake leaves `UNSIGNED_LONG_ID_OUTPUT` on when `HBT_INT8` is switched off: every list of ids is then written from twice its memory |
| `C77_empty_refuted`, `C77_edge_refuted`, `C77_many_refuted` | `SphericalOverdensitySize2` reads before an empty list; differs from `SphericalOverdensitySize` when the outermost particle is on the sphere; from 40000 particles on its tolerance can stop it at all particles but one where no mass is overdense |
| `C78_number_of_files_refuted` | `HBTReader` counts the files of the last snapshot only: after a restart with another number of processes the older snapshots are returned without the subhalos of the extra files, or cannot be opened |
| `C78_number_of_subhalos_refuted` | `GetNumberOfSubhalos` reads `TotalNumberOfSubhalosInAllFiles`, `WriteFile` writes `NumberOfSubhalosInAllFiles`: it fails on every catalogue |
| `C78_negative_index_refuted` | a negative index gives a subhalo of the first non-empty file |
| `C80_disrupted_refuted` | a disrupted subhalo keeps its old most bound particle, but binding energy, specific energies and angular momentum are taken from the first entry of the energy list, another particle |
| `C80_promotion_refuted` | with INCLUSIVE_MASS the most bound particle is exchanged after unbinding, its saved energy is not |
| `C81_room_for_one_refuted` | with SourceSubRelaxFactor = 1 in single precision `TruncateSource` cuts off a bound particle of a subhalo of 2^24+1 particles, so Nbound exceeds the list |
| `C82_all_to_all_refuted` | 2048 processes that send a chunk each to one process overflow its `int RecvCountTotal` in `MyAllToAll` |
| `C82_redistribution_refuted` | a process that reads 2^31 particles overflows the `int` offsets of `ExchangeParticles` |
| `C82_container_refuted` | `SyncContainer` compares the size with INT_MAX after storing it in an `int`: 2^32 + n elements reach the others as n |
| `C83_cold_core_refuted` | a core of two or more particles with equal velocities never captures a subhalo, even one at its centre: the distance is 0/0, and NaN is not below 2 |
| `C84_half_box_refuted` | the kinetic distance of a pair exactly half a box apart changes when the box is shifted (`NEAREST` keeps both signs of half a box) |
| `C62_hosts_refuted` | subhalos of different hosts can both hold a particle: satellites keep source particles that are in another group |
| `C87_flag_refuted` | two threads of `DetectTraps` may write `IsMerged` of the same subhalo at the same time without synchronisation (both write true) |
| `C89_same_id_race` | particles with the same id are written to the same element of `FlatIndexTable_t` by different threads without synchronisation |
| `C90_ownership_refuted` | in whole runs with `INCLUSIVE_MASS` the exchange of C71 brings unbound particles among the first `Nbound`: the catalogue lists a particle as bound that is not, omits the most bound one, and the mass is not that of the listed particles |
| `C91_numbering_refuted` | track ids are not reproducible: `FeedCentrals` numbers new subhalos in the order in which threads reach groups without subhalo (`#pragma omp critical(AddNewSub)`, "maybe consider ordered"), so two runs on the same input can exchange the tracks of two groups; it is the only modelled stage whose result depends on the schedule |
| `C92_combined` | `combineSubSnap.py` stops with an exception at a snapshot without subhalos (`data[0].dtype` of an empty array, line 50) and leaves a file that lacks the particle and nest datasets |
| `C96_amplitude_refuted` | `InertialEigenVector` is computed from the tensor before it is divided by `Mbound` (src/subhalo.cpp:392-396), so its amplitudes are `Mbound` times the eigenvalues of the reported `InertialTensor`, not the eigenvalues (src/subhalo.h:73) |

Seen while reading, outside the model:

* `swap_Nbyte` frees with `delete` what it allocated with `new[]`; `count_pattern_files` (`mymath.cpp:23`) reads `gl_pathc` after `globfree`.
* `CompIdAndOrder` (`particle_exchanger.h:60-70`) lacks a return (unused).
* `gadget_group_io.cpp:387`: the `assert` also computes the offsets, so they stay empty with `NDEBUG`.
* `gadget_io.cpp:38` registers `npartTotal` with count 1 in the MPI type of the header.
* `subhalo.h:94-110` leaves `BoundM200Crit` and others uninitialised; the MPI type registers `MboundType` (floats) as integers.
* `random_shuffle` (`subhalo_unbind.cpp:302`) is state outside the catalogue: after a restart a subsampled run differs (hypothesis of C51).
* `InternalEnergy` of particles other than gas is never written by either reader (the code that sets it to 0 is commented out), but
  `UNBIND_WITH_THERMAL_ENERGY` adds it for every particle (`subhalo_unbind.cpp:352`).
* `subhalo_io.cpp` takes `&IdBuffer[offset]` of a reserved but empty vector.
* A halo all of whose particles are missing from the snapshot keeps an uninitialised `ComovingAveragePosition` (`AveragePosition` returns early,
  `snapshot.cpp:177`; `halo.h:15-24` has no initialiser), which `DecideTargetProcessor` then turns into a process number.
* `random_shuffle` (`subhalo_unbind.cpp:302`, for subhalos with more than `MaxSampleSizeOfPotentialEstimate` particles) draws from one generator shared
  by all threads, so the sample of a subhalo, hence its energies, depends on the schedule; the sums with `omp reduction` round in an order that varies.
  C91 takes both as given functions (`g_shuffle`, `g_energy`, ...), so it does not speak about these two sources of differences between runs.
  For the same reason the model shuffles the same list in the same way when it is shuffled twice in one snapshot.
