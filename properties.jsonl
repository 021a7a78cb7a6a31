{"id": "C01", "title": "Work split tiles the task range", "statement": "Splitting ntasks tasks over nworkers workers gives every worker a half-open interval of task numbers such that the intervals, taken in worker order, follow each other without gap or overlap, start at 0, end at ntasks, and differ in length by at most one (longer ones first).", "quantifier": "every number of workers >= 1, every number of tasks >= 0, every worker index", "why_tests_cant": "the number of MPI processes and files is chosen by the user at run time; a test fixes a few pairs", "anchors": ["src/mymath.cpp:AssignTasks", "src/io/subhalo_io.cpp:SubhaloSnapshot_t::Load", "src/io/gadget_io.cpp:GadgetReader_t::Load", "src/io/apostle_io.cpp:LoadSnapshot"]}
{"id": "C02", "title": "Offsets are exact prefix sums", "statement": "Compiling offsets from a list of counts returns the total and writes offsets such that segment i is [offset_i, offset_i+count_i), the segments are disjoint, in order, and tile [0,total).", "quantifier": "every list of non-negative counts", "why_tests_cant": "displacements for every collective operation are computed from run-time counts", "anchors": ["src/mymath.h:CompileOffsets"]}
{"id": "C03", "title": "Byte swapping reverses every element and is an involution", "statement": "Swapping an array of n elements of m bytes reverses the bytes inside every element, touches nothing outside the n*m bytes, and doing it twice restores the data, for m = 1, 2, 4, 8 and the general size.", "quantifier": "every byte string, every element count, every element size", "why_tests_cant": "a fixture file only carries a few values of a few sizes", "anchors": ["src/mymath.cpp:swap_Nbyte", "src/mymath.cpp:fread_swap", "src/io/gadget_io.cpp:ReadGadgetFileHeader"]}
{"id": "C04", "title": "Spatial cell assignment is always a valid rank", "statement": "The rank chosen for a halo from its position, the cell size and the processor grid is in [0, number of processors) for every position (including positions outside the box), and two positions get the same rank exactly when they fall in the same clamped cell on all axes.", "quantifier": "every position, every positive cell size, every grid of positive dimensions", "why_tests_cant": "a rounding or boundary slip only shows for positions at the edge of the box", "anchors": ["src/mymath.cpp:GetGrid", "src/mymath.cpp:AssignCell", "src/particle_exchanger.cpp:DecideTargetProcessor"]}
{"id": "C05", "title": "Processor grid factors multiply to the number of processes", "statement": "Factorising the number of processes into a requested number of grid dimensions returns that many positive factors whose product is exactly the number of processes, whatever (inexact) estimate the floating-point root returns.", "quantifier": "every number of processes >= 1, every number of dimensions >= 1, every result of pow() that is at least 1", "why_tests_cant": "pow() rounding differs between libraries; a wrong product sends halos to ranks that do not exist or leaves ranks unused", "anchors": ["src/mymath.cpp:LargestRootFactor", "src/mymath.cpp:ClosestFactors"]}
{"id": "C06", "title": "Fortran record reading is exact", "statement": "Reading nread elements after skipping nskip elements of an unformatted record returns exactly these elements in order, leaves the file just after the closing record marker, and a record whose two markers disagree is rejected; byte order is undone element by element.", "quantifier": "every record content, every nread and nskip inside the record, every element size, both byte orders", "why_tests_cant": "multi-block files need every block to end at the right byte; a test file exercises one layout", "anchors": ["src/mymath.h:FortranBlock", "src/mymath.cpp:SkipFortranBlock", "src/io/gadget_io.cpp:ReadGadgetFile"]}
{"id": "C07", "title": "Minimum image is a true periodic distance", "statement": "For two coordinates whose difference is within 1.5 box lengths the separation used by the code differs from the raw one by a multiple of the box size, lies in [-L/2, L/2] and is no longer than any other image; the resulting distance is symmetric, zero only for images of the same point, and obeys the triangle inequality.", "quantifier": "every pair (triple) of coordinates and every positive box size", "why_tests_cant": "wrap-around errors only appear for pairs straddling the box edge", "anchors": ["src/config_parser.h:NEAREST", "src/config_parser.h:PeriodicDistance"]}
{"id": "C08", "title": "Positions are wrapped into the box", "statement": "Wrapping a coordinate returns a value in [0,L) that differs from the input by a whole number of box lengths, and leaves coordinates already in the box unchanged.", "quantifier": "every coordinate and every positive box size", "why_tests_cant": "the failing inputs are the ones just below a multiple of the box size", "anchors": ["src/mymath.h:position_modulus", "src/io/gadget_io.cpp:ReadGadgetFile", "src/io/apostle_io.cpp:ReadSnapshot"]}
{"id": "C09", "title": "Id lookup tables agree with the list of keys", "statement": "After filling a lookup table from a list of distinct non-negative keys, looking up a key returns the index stored with it and looking up any other key (negative ones included) returns the null index; the sorted table and the flat array table give the same answer.", "quantifier": "every finite list of distinct keys and every query", "why_tests_cant": "which table is used is a compile/run-time option; collisions, gaps and boundary keys are unbounded", "anchors": ["src/hash.tpp:MappedIndexTable_t", "src/hash.tpp:FlatIndexTable_t", "src/snapshot.cpp:FillParticleHash"]}
{"id": "C10", "title": "Batch lookup equals one-by-one lookup", "statement": "Looking up a whole list of particles at once replaces each particle's id by exactly the index a single lookup would return, duplicates included, and changes nothing else.", "quantifier": "every sorted table of distinct keys and every list of queried particles sorted by id", "why_tests_cant": "the divide-and-conquer search is only wrong for particular alignments of queries and keys", "anchors": ["src/hash_remote.tpp:GetIndicesRecursive", "src/hash_remote.tpp:GetIndices"]}
{"id": "C11", "title": "Redistributed particles form balanced consecutive id ranges", "statement": "Redistributing the particles of a snapshot over W processes keeps the multiset of particles, gives every process N/W or N/W+1 of them (the first N mod W get the extra one), and all ids on a process are smaller than all ids on the next one, so that the published id ranges locate each particle.", "quantifier": "every number of processes and every initial placement of particles with distinct ids", "why_tests_cant": "the parallel selection loop depends on the joint layout over all ranks", "anchors": ["src/snapshot_exchanger.cpp:ParallelStride", "src/snapshot_exchanger.cpp:IsContiguousId", "src/snapshot_exchanger.cpp:PartitionParticles", "src/snapshot_exchanger.cpp:ExchangeParticles"]}
{"id": "C12", "title": "Parallel selection terminates", "statement": "The loop that moves the per-process cursors forward by a requested total terminates having moved exactly that total, for every layout of distinct ids; with ids repeated on different processes it can overshoot and never stop.", "quantifier": "every number of processes, sorted id lists and requested totals not exceeding what is left", "why_tests_cant": "termination of a collective loop is a property of all executions", "anchors": ["src/snapshot_exchanger.cpp:ParallelStride"]}
{"id": "C13", "title": "Chunked all-to-all delivers every element in order", "statement": "Sending variable-length sequences between all pairs of processes in bounded chunks delivers to every process exactly the concatenation of what was addressed to it, in sender order and in original order, uses finitely many rounds, and never writes more than the send buffer's size in a round.", "quantifier": "every number of processes, every set of sequences, every chunk size >= 1", "why_tests_cant": "chunk boundaries only matter once counts exceed the chunk size (1e7 elements)", "anchors": ["src/mpi_wrapper.h:MyAllToAll"]}
{"id": "C14", "title": "Chunked broadcast delivers every element in order", "statement": "Broadcasting a sequence in chunks makes every process' sequence equal to the root's, for every chunk size.", "quantifier": "every sequence and every chunk size >= 1", "why_tests_cant": "chunk boundaries only matter once counts exceed the chunk size", "anchors": ["src/mpi_wrapper.h:MyBcast"]}
{"id": "C15", "title": "String lists survive broadcast", "statement": "Broadcasting a list of strings reproduces the list on every process provided no string contains a newline (also for empty strings and the empty list).", "quantifier": "every list of newline-free strings", "why_tests_cant": "an unbounded space of strings; the failing ones are unusual", "anchors": ["src/mpi_wrapper.cpp:SyncVectorString"]}
{"id": "C16", "title": "In-place reordering restores the original order", "statement": "The in-place cycle permutation puts every received particle back to the position it was sent from and terminates, for every permutation of positions.", "quantifier": "every permutation of every length", "why_tests_cant": "n! permutations", "anchors": ["src/particle_exchanger.h:RestoreParticleOrder"]}
{"id": "C17", "title": "Particle query updates every list in place", "statement": "After updating halos or subhalos from a snapshot, each object's particle list is the old list with every particle replaced by the snapshot record with the same id, in the same order, with particles missing from the snapshot removed; no other object is affected.", "quantifier": "every distribution of particles over processes and every set of particle lists whose ids lie inside the published ranges", "why_tests_cant": "the query crosses processes, two sorts and an inverse permutation; an error shows as silently swapped particle data", "anchors": ["src/particle_exchanger.h:ParticleExchanger_t", "src/subhalo.cpp:UpdateParticles", "src/halo.cpp:UpdateParticles"]}
{"id": "C18", "title": "Missing particles are removed stably and the bound count follows", "statement": "Removing missing particles keeps the others in order, reduces the bound count by exactly the number of missing particles among the bound ones, and returns the number removed.", "quantifier": "every particle list and every bound count not larger than it", "why_tests_cant": "gas particles vanish at arbitrary positions", "anchors": ["src/subhalo.cpp:KickNullParticles", "src/halo.cpp:KickNullParticles"]}
{"id": "C19", "title": "Halo pieces loaded by different processes are assembled exactly once", "statement": "When halos are stored in pieces over many files, after loading each halo id lives on exactly one process and its particle list contains exactly the particles carrying this halo id (as a multiset), none lost and none duplicated.", "quantifier": "every number of processes, every placement of particles and every set of non-negative halo ids", "why_tests_cant": "depends on the joint content of all files and the processor grid", "anchors": ["src/io/apostle_io.cpp:LoadGroups", "src/io/apostle_io.cpp:DecideTargetProcessor", "src/io/apostle_io.cpp:ExchangeHalos", "src/io/apostle_io.cpp:MergeHalos"]}
{"id": "C20", "title": "Group catalogue loading covers each halo once", "statement": "Loading a group catalogue on W processes assigns every non-empty halo to exactly one process, and the particle ids read for it are exactly its segment of the concatenated id files, whatever the numbers of files and processes.", "quantifier": "every list of halo lengths, every list of file sizes with the same total, every W not larger than the number of particles", "why_tests_cant": "halo and file boundaries may fall anywhere", "anchors": ["src/io/gadget_group_io.cpp:AssignHaloTasks", "src/io/gadget_group_io.cpp:Load"]}
{"id": "C21", "title": "Host membership table is a partition sorted by mass", "statement": "Building the membership table puts every subhalo in exactly one group, the one of its host (or the field group), lists nobody twice, and orders each group by decreasing mass.", "quantifier": "every list of subhalos with host in [-1, number of halos)", "why_tests_cant": "any host assignment may occur", "anchors": ["src/subhalo_tracking.cpp:MemberShipTable_t::Build", "src/subhalo_tracking.cpp:SortMemberLists"]}
{"id": "C22", "title": "Host finding moves each subhalo to the process of its host", "statement": "Assigning hosts neither loses nor duplicates a subhalo, keeps all its data, and moves it to the process that holds the halo containing its most bound particle (or, when in no halo, to the process holding that particle).", "quantifier": "every distribution of subhalos, halos and particles over processes", "why_tests_cant": "depends on the joint state of all processes", "anchors": ["src/subhalo_tracking.cpp:FindLocalHosts", "src/subhalo_tracking.cpp:FindOtherHosts", "src/subhalo_tracking.cpp:FindOtherHostsSafely", "src/subhalo_tracking.cpp:AssignHosts"]}
{"id": "C23", "title": "The central is the best massive member", "statement": "After deciding centrals the first member of every group is, among members with at least the configured fraction of the largest mass, one with the smallest kinetic distance to the halo, and the group still has the same members.", "quantifier": "every group sorted by mass and every distance function", "why_tests_cant": "ties and orderings are unbounded", "anchors": ["src/subhalo_tracking.cpp:DecideCentrals"]}
{"id": "C24", "title": "Every halo ends up with a central", "statement": "After feeding centrals every halo has exactly one central that owns the halo's particles with the old most bound particle kept in front; each halo without members gets exactly one new subhalo, and the existing subhalos other than centrals are unchanged, for every thread schedule.", "quantifier": "every set of halos and members, every order in which threads create new subhalos", "why_tests_cant": "thread schedules", "anchors": ["src/subhalo_tracking.cpp:FeedCentrals", "src/subhalo_tracking.cpp:PrepareCentrals"]}
{"id": "C25", "title": "Track ids are unique and contiguous for the whole run", "statement": "At the end of every snapshot the track ids over all processes are exactly 0..Ntot-1, each used once; an id never changes and is never reused.", "quantifier": "every number of processes and every history of births and migrations", "why_tests_cant": "an invariant over histories", "anchors": ["src/subhalo_tracking.cpp:RegisterNewTracks", "src/subhalo_tracking.cpp:UpdateTracks"]}
{"id": "C26", "title": "Track history fields record running extrema", "statement": "The recorded peak mass is the maximum of the bound masses so far, its snapshot the last one attaining it, and the last isolation snapshot is the last one at which the subhalo was a central.", "quantifier": "every sequence of masses and ranks", "why_tests_cant": "an invariant over histories", "anchors": ["src/subhalo_tracking.cpp:UpdateTrack", "src/subhalo.cpp:CalculateProfileProperties"]}
{"id": "C27", "title": "Nesting is a forest covering each host", "statement": "After nesting, every subhalo is listed in the nest of at most one other subhalo, nested subhalos share the host of their parent, heads are exactly those not nested in anything, there are no cycles, and every member of a host is reachable from exactly one head.", "quantifier": "every history of host changes and migrations", "why_tests_cant": "an invariant over histories", "anchors": ["src/subhalo_tracking.cpp:NestSubhalos", "src/subhalo_tracking.cpp:LevelUpDetachedMembers", "src/subhalo_tracking.cpp:LevelUpDetachedSubhalos", "src/subhalo_tracking.cpp:LocalizeNestedIds"]}
{"id": "C28", "title": "After ranking, the central's nest covers its whole group", "statement": "After the tracks are updated each group has exactly one member of rank 0, every other member is reachable from it through nests exactly once, and the stored depth is the distance from it.", "quantifier": "every nesting forest and every new mass ordering of the group", "why_tests_cant": "any member may become the new central", "anchors": ["src/subhalo_tracking.cpp:ExtendCentralNest", "src/subhalo_tracking.cpp:AssignRanks", "src/subhalo_tracking.cpp:FillDepth"]}
{"id": "C29", "title": "Temporarily joined nests are restored", "statement": "Joining the head nests for unbinding or merging and separating them afterwards restores every nest exactly.", "quantifier": "every forest of nests", "why_tests_cant": "all nest shapes", "anchors": ["src/subhalo_tracking.cpp:GlueHeadNests", "src/subhalo_tracking.cpp:UnglueHeadNests"]}
{"id": "C30", "title": "Local and global nest references are inverse", "statement": "Translating nest lists from global track ids to local indices and back keeps exactly the nested tracks present on the process, in order; references to tracks on other processes are dropped and those tracks become heads.", "quantifier": "every distribution of tracks over processes", "why_tests_cant": "joint state of all processes", "anchors": ["src/subhalo_tracking.cpp:LocalizeNestedIds", "src/subhalo_tracking.cpp:GlobalizeTrackReferences"]}
{"id": "C31", "title": "Source particles are exclusive within a host", "statement": "After masking, no particle id occurs twice in the non-orphan subhalos of one host, every id present before is still present, deeper subhalos win, remaining particles keep their order, and orphans are untouched.", "quantifier": "every nest tree and every assignment of particles", "why_tests_cant": "all overlaps of particle lists", "anchors": ["src/subhalo_tracking.cpp:SubhaloMasker_t", "src/subhalo_tracking.cpp:MaskSubhalos"]}
{"id": "C32", "title": "Binding-energy partition separates bound from unbound", "statement": "Partitioning by binding energy permutes the list, everything before the returned position has non-positive energy and everything after it non-negative energy; if no energy is exactly zero the returned count is the number of negative energies.", "quantifier": "every list of energies", "why_tests_cant": "all orderings", "anchors": ["src/subhalo_unbind.cpp:PartitionBindingEnergy"]}
{"id": "C33", "title": "Unbinding terminates", "statement": "Unbinding ends after finitely many iterations for every particle list and every energy evaluation, if the convergence threshold is at most one.", "quantifier": "every particle list, every sequence of energies returned by the potential solver, every configuration with precision in (0,1]", "why_tests_cant": "termination for all inputs", "anchors": ["src/subhalo_unbind.cpp:Subhalo_t::Unbind"]}
{"id": "C34", "title": "Unbinding neither creates nor destroys particles", "statement": "Unbinding only permutes the particle list; the bound particles come first; the bound count is zero only for an empty list, otherwise it is one or at least the configured minimum.", "quantifier": "every particle list and every energy evaluation", "why_tests_cant": "all inputs", "anchors": ["src/subhalo_unbind.cpp:Subhalo_t::Unbind"]}
{"id": "C35", "title": "Bound particles are sorted and led by the most bound", "statement": "When unbinding converges, the bound particles are listed in order of increasing energy, with the most bound one first; when the subhalo is disrupted its previous most bound particle is in front.", "quantifier": "every energy evaluation and every subhalo", "why_tests_cant": "all inputs", "anchors": ["src/subhalo_unbind.cpp:Subhalo_t::Unbind", "src/subhalo_unbind.cpp:PopMostBoundParticle"]}
{"id": "C36", "title": "Death and sink bookkeeping", "statement": "A subhalo is marked dead at the snapshot it first fails to keep the minimum number of bound particles, the mark is kept while it stays an orphan, and it is cleared together with the sink mark when it becomes bound again.", "quantifier": "every history of unbinding outcomes", "why_tests_cant": "an invariant over histories", "anchors": ["src/subhalo_unbind.cpp:Subhalo_t::Unbind", "src/subhalo.h:IsAlive", "src/subhalo_merge.cpp:MergeRecursive"]}
{"id": "C37", "title": "Stripped particles go to the host, none are lost", "statement": "Unbinding a nest tree bottom-up hands the particles a subhalo loses to the subhalo it is nested in, so that the multiset of particles over the tree (before truncation) is that of the input with the handed-over copies added, and no bound particle changes owner.", "quantifier": "every nest tree, every particle assignment and every energy evaluation", "why_tests_cant": "all trees", "anchors": ["src/subhalo_unbind.cpp:RecursiveUnbind", "src/subhalo_unbind.cpp:RefineParticles"]}
{"id": "C38", "title": "Source lists stay bounded", "statement": "After truncation a subhalo keeps all its bound particles and at most the configured multiple of that number, in order; orphans keep exactly their bound particle.", "quantifier": "every particle list and bound count", "why_tests_cant": "all sizes", "anchors": ["src/subhalo_unbind.cpp:TruncateSource"]}
{"id": "C39", "title": "Trapping selects the nearest qualifying ancestor", "statement": "A subhalo is marked as sunk into the nearest ancestor in its nest that is resolved and closer than the critical distance, only if it was not marked before; otherwise its marks are unchanged, for every thread schedule.", "quantifier": "every forest, every distance function, every schedule", "why_tests_cant": "all forests and schedules", "anchors": ["src/subhalo_merge.cpp:DetectTraps", "src/subhalo_merge.cpp:FillHostTrackIds"]}
{"id": "C40", "title": "Merging moves all particles to the final host without duplicates", "statement": "Merging a subhalo gives its host exactly the particles it did not have, keeps the host's own particles in front and in order, leaves the merged one with its most bound particle only and marks it dead; chains of merging subhalos end up in the last host.", "quantifier": "every chain of merges and every particle list", "why_tests_cant": "all chains", "anchors": ["src/subhalo_merge.cpp:MergeTo", "src/subhalo_merge.cpp:MergeRecursive", "src/subhalo_merge.cpp:MergeSubhalos"]}
{"id": "C41", "title": "A saved catalogue reloads identically on any number of processes", "statement": "Saving from W processes and loading on W' processes yields exactly the saved subhalos, each once, with the saved scalar fields, particle ids and nests, in file order; a count mismatch is reported.", "quantifier": "every W, W' >= 1 and every catalogue with bound counts not exceeding the particle counts", "why_tests_cant": "restarts may change the number of processes", "anchors": ["src/io/subhalo_io.cpp:Save", "src/io/subhalo_io.cpp:WriteFile", "src/io/subhalo_io.cpp:Load", "src/io/subhalo_io.cpp:ReadFile"]}
{"id": "C42", "title": "Configuration parsing", "statement": "Every recognised line sets exactly the named parameter and marks it as set, unknown names are rejected, comments do not matter, and a run never starts with a compulsory parameter unset.", "quantifier": "every configuration text", "why_tests_cant": "all texts", "anchors": ["src/config_parser.cpp:SetParameterValue", "src/config_parser.cpp:ParseConfigFile", "src/config_parser.cpp:CheckUnsetParameters"]}
{"id": "C43", "title": "Linked-list build stores each particle once, in the cell of its position", "statement": "After building the linked list, following the chain of a cell visits exactly the particles whose clamped cell is that cell, each once; building in parallel and merging gives the same chains' contents.", "quantifier": "every particle list, every grid size", "why_tests_cant": "all inputs", "anchors": ["src/linkedlist_base.cpp:build", "src/linkedlist.cpp:parallel_build", "src/linkedlist.cpp:merge"]}
{"id": "C44", "title": "Sphere search on the linked list is exact", "statement": "A sphere search visits exactly the particles within the radius, each once, if the box spanned by the search does not exceed the box in the periodic case and the cell size is positive.", "quantifier": "every particle list, centre and radius", "why_tests_cant": "all inputs", "anchors": ["src/linkedlist_base.cpp:SearchSphere"]}
{"id": "C45", "title": "Friends-of-friends groups are connected components", "statement": "Linking with a given length assigns two particles the same group if and only if they are connected by a chain of pairs closer than the linking length, and reports the right group sizes.", "quantifier": "every particle list and linking length", "why_tests_cant": "all inputs", "anchors": ["src/linkedlist_base.cpp:TagFriendsOfFriends", "src/linkedlist.cpp:LinkedlistLinkGroup"]}
{"id": "C46", "title": "Every particle is in exactly one leaf of the tree", "statement": "Building the octree on any particle list (also with coincident particles) stores every particle in exactly one leaf; the threaded walk visits each particle exactly once; the mass of a node is the sum of its particles' masses.", "quantifier": "every non-empty particle list and every random choice made for unresolved particles", "why_tests_cant": "all inputs and random choices", "anchors": ["src/oct_tree.tpp:Build", "src/gravity_tree.cpp:UpdateInternalNodes", "src/geometric_tree.cpp:UpdateInternalNodes"]}
{"id": "C47", "title": "The potential walk counts each particle once", "statement": "For every opening criterion, the items accepted by the potential walk (single particles or whole nodes) cover every particle exactly once.", "quantifier": "every tree, every opening criterion, every target", "why_tests_cant": "all trees", "anchors": ["src/gravity_tree.cpp:EvaluatePotential"]}
{"id": "C48", "title": "Tree neighbour search is complete and sound", "statement": "Searching a sphere on the geometric tree collects exactly the particles within the radius, each once, with periodic boundaries too.", "quantifier": "every particle list, centre, radius", "why_tests_cant": "all inputs", "anchors": ["src/geometric_tree.cpp:Search"]}
{"id": "C49", "title": "Nearest-neighbour search returns the nearest particle", "statement": "Asking the tree for the nearest neighbour terminates and returns a particle at minimal distance.", "quantifier": "every non-empty particle list and every query point", "why_tests_cant": "termination and minimality over all inputs", "anchors": ["src/geometric_tree.cpp:NearestNeighbour", "src/datatypes.h:NearestNeighbourCollector_t"]}
{"id": "C50", "title": "Concatenated iteration enumerates all particles", "statement": "Iterating over the particles of a range of objects yields exactly the concatenation of their lists, skipping empty ones, and reports its end after the last one.", "quantifier": "every list of particle lists", "why_tests_cant": "all shapes, empty lists in any position", "anchors": ["src/halo_particle_iterator.h:HaloParticleIterator_t", "src/halo_particle_iterator.h:HaloNestIterator_t"]}
{"id": "C51", "title": "Restart equivalence of the catalogue fields", "statement": "Continuing from a saved catalogue uses only fields that were saved, so that a run interrupted after any snapshot and restarted continues with the same tracks, ids and nests as an uninterrupted one.", "quantifier": "every crash point between snapshots and every history", "why_tests_cant": "crash points", "anchors": ["HBT.cpp:main", "src/io/subhalo_io.cpp:Load", "src/io/subhalo_io.cpp:Save"]}
{"id": "C52", "title": "Overdensity size reports the outermost crossing", "statement": "The spherical overdensity size returns the mass and radius at the outermost particle whose enclosed mean density reaches the threshold, and when there is none it reports no size instead of an old value.", "quantifier": "every radius-sorted profile and threshold", "why_tests_cant": "all profiles", "anchors": ["src/snapshot.cpp:SphericalOverdensitySize"]}
{"id": "C53", "title": "Velocity-frame correction is exact", "statement": "Updating the energies of surviving particles after a change of the reference frame by the correction formula gives the energy that a direct evaluation in the new frame gives.", "quantifier": "every set of velocities and every sequence of frame changes", "why_tests_cant": "the correction is used only after certain iteration histories", "anchors": ["src/subhalo_unbind.cpp:Subhalo_t::Unbind"]}
{"id": "C54", "title": "The work on a snapshot always ends and keeps the nest structure", "statement": "Masking, unbinding and merging the subhalos of a process end without undefined behaviour for every history and every thread schedule, leave tracks, ranks, nests and hosts as they were, and afterwards every subhalo of more than one bound particle is alive, holds at least its bound particles, and has a sink only if it sank in this snapshot and merging is off (so no stale global id is used as a local index).", "quantifier": "every history, energy function, distance function, merging option and schedule", "why_tests_cant": "all histories and schedules", "anchors": ["src/subhalo_tracking.cpp:MaskSubhalos", "src/subhalo_unbind.cpp:RefineParticles", "src/subhalo_merge.cpp:MergeSubhalos", "HBT.cpp:main"]}
{"id": "C55", "title": "Reported averages are those of the bound particles", "statement": "After a successful unbinding the average velocity of the subhalo is the mass-weighted mean velocity of exactly the particles finally bound, and its average position their mass-weighted mean position, taken over images within half a box of one of them if the box is periodic.", "quantifier": "every set of particles, every number of unbinding turns, with or without corrections, subsampling and refinement", "why_tests_cant": "the averages are updated in every turn and the particles are reordered afterwards; agreement must hold for every history", "anchors": ["src/subhalo_unbind.cpp:Subhalo_t::Unbind", "src/subhalo_unbind.cpp:EnergySnapshot_t::AverageVelocity", "src/subhalo_unbind.cpp:EnergySnapshot_t::AveragePosition"]}
{"id": "C56", "title": "Profile properties of a subhalo", "statement": "The maximum circular velocity is the largest of enclosed mass over radius among the bound particles and Rmax the radius where it is reached; the half-mass and two-sigma radii split the particles at N/2 and 0.955 N; with fewer than two bound particles all are zero; the recorded peak velocity and its snapshot are, after any history, the largest value reported and the last snapshot that reported it.", "quantifier": "every particle list, sorting of equal distances and sequence of snapshots", "why_tests_cant": "ties in distance, positions and histories are unlimited", "anchors": ["src/subhalo.cpp:CalculateProfileProperties"]}
{"id": "C57", "title": "All processes start with the same configuration", "statement": "After start-up every process holds, in every member of the configuration including the derived constants and the list of snapshot names, the values the first process parsed, and the same range of snapshots, whatever the processes held before. The range is the one given in decimal on the command line (one number for a single snapshot), otherwise that of the configuration file.", "quantifier": "every configuration text, name list, command line and number of processes", "why_tests_cant": "a member forgotten in the broadcast only shows for configurations and process counts that use it", "anchors": ["src/config_parser.cpp:BroadCast", "src/config_parser.cpp:ParseHBTParams", "src/config_parser.cpp:ReadSnapshotNameList", "src/mpi_wrapper.cpp:SyncVectorString", "src/mpi_wrapper.h:SyncContainer"]}
{"id": "C58", "title": "The recorded parameters reproduce the configuration", "statement": "Parsing the Parameters.log written at start-up yields the configuration of the run again: every parameter and the snapshot list, with real numbers as rounded by printing.", "quantifier": "every accepted configuration file", "why_tests_cant": "all texts and values", "anchors": ["src/config_parser.cpp:DumpParameters", "src/config_parser.cpp:ParseConfigFile"]}
{"id": "C59", "title": "Halos are refreshed and distributed without loss", "statement": "After HaloSnapshot_t::UpdateParticles the processes together hold exactly the halos that were loaded, each once and with its shell, its particle list being the current snapshot records of its own particles that exist, in order; every halo is on the process whose part of the box contains its average position.", "quantifier": "every number of processes, distribution of loaded halos and of the snapshot, halo sizes (including empty), id table kind, and outcome of the unstable sorts", "why_tests_cant": "all distributions over all numbers of processes; the sorts are unstable and messages are cut into chunks", "anchors": ["src/halo.cpp:HaloSnapshot_t::UpdateParticles", "src/particle_exchanger.h:ExchangeHalos", "src/particle_exchanger.h:DecideTargetProcessor", "src/halo.cpp:Halo_t::KickNullParticles"]}
{"id": "C60", "title": "The catalogue reports hosts, sinks and members by global ids", "statement": "At the end of a snapshot every registered subhalo is reported with the HaloId of its host group, or -1 if it has none; with the track of the subhalo it sank into in this snapshot while an older sink stays; with the tracks of its nested members; with its own particles, bound count, mass, birth and death unchanged; and with the snapshot of last isolation and of maximum mass updated.", "quantifier": "every history of snapshots, number of processes, distribution of subhalos and order of the threads", "why_tests_cant": "local indices are replaced by global ids in place, while the history decides which values are indices; the number of histories is unlimited", "anchors": ["src/subhalo_tracking.cpp:SubhaloSnapshot_t::UpdateTracks", "src/subhalo_tracking.cpp:SubhaloSnapshot_t::GlobalizeTrackReferences", "src/subhalo_tracking.cpp:Subhalo_t::UpdateTrack"]}
{"id": "C61", "title": "Whole runs produce a sound sequence of catalogues", "statement": "On valid input a run of any number of snapshots ends without crash or hang. After every snapshot the catalogue is sound: tracks are numbered 0,1,2,... without gaps, nests form a forest whose roots are the subhalos of rank 0, every particle of a subhalo is a particle of this snapshot with its attributes there, the bound count does not exceed the number of particles, hosts are ids of groups of this snapshot or -1, and no mass exceeds the recorded maximum. Every subhalo of the previous catalogue continues with the same track and birth, with the group of its first surviving particle as host; all others are new, self-bound and in a group. The files of every snapshot load to that catalogue, and a run restarted from files ends like the uninterrupted one.", "quantifier": "every valid input, number of processes and snapshots, configuration, schedule of the threads, outcome of the sorts among equal keys and outcome of the numerical functions (energies, distances, averages)", "why_tests_cant": "all stages have to fit together for every input: each stage relies on what the earlier ones guarantee, over any number of snapshots and processes; tests run few inputs on few processes", "anchors": ["HBT.cpp:main", "src/subhalo_tracking.cpp", "src/subhalo_unbind.cpp", "src/subhalo_merge.cpp", "src/halo.cpp", "src/snapshot.cpp", "src/io/subhalo_io.cpp"]}
{"id": "C62", "title": "Particles belong to one subhalo of a host", "statement": "In builds without INCLUSIVE_MASS, after every snapshot of a run whose particles last and whose groups have distinct numbers and list no particle twice: the mass of every subhalo is the sum of the masses of its bound particles (the first Nbound of its list), no particle is listed twice in a subhalo, a subhalo with at most one bound particle lists no others, and no particle is bound to two resolved subhalos of the same host, unless one of the two received a merged subhalo in this snapshot. Each of the exceptions is real: merging, vanishing particles and different hosts admit runs in which a particle is counted twice.", "quantifier": "every valid input, number of processes and snapshots, configuration, schedule of the threads, outcome of the sorts among equal keys and outcome of the numerical functions", "why_tests_cant": "exclusive masks, the feeding of unbound particles to host subhalos, truncation and merging interact over any nesting depth and any history; a double count shows up only in particular interaction patterns", "anchors": ["src/subhalo_tracking.cpp:SubhaloMasker_t::Mask", "src/subhalo_unbind.cpp:RecursiveUnbind", "src/subhalo_unbind.cpp:TruncateSource", "src/subhalo_merge.cpp:MergeTo", "src/subhalo_merge.cpp:MergeSubhalos", "src/subhalo_tracking.cpp:FeedCentrals"]}
{"id": "C63", "title": "Wrapped coordinates in floating point", "statement": "Whatever the floating-point format, wrapping a finite coordinate into a box gives a finite number from 0 to the box size L (both included), less than L when the coordinate is not negative, the coordinate itself when it is in the box already, and equal to the coordinate minus a whole number of box sizes up to 2^-prec (|x| + 5 L).", "quantifier": "every precision and exponent range, every finite coordinate x and every normal box size L with |x|/L inside the exponent range", "why_tests_cant": "there are 2^128 pairs of doubles; where rounding of the quotient, the difference and the product interact (near multiples of L and tiny negative values) random tests do not land", "anchors": ["src/mymath.h:position_modulus", "src/snapshot.cpp"]}
{"id": "C64", "title": "A Gadget snapshot is loaded completely and exactly", "statement": "Loading a Gadget snapshot gives the processes together exactly the particles in its files, in file order and without loss or repetition; each has its own position (wrapped if the box is periodic), velocity (times the square root of the scale factor), id, mass (from the header or from its place in the mass block), internal energy (gas only) and type. Byte order, number widths, naming of the files, number of processes and the selection of dark matter do not matter. The exceptions are proved too: an empty first file, files without gas when energies are compiled in, and files without mass block with DM_ONLY stop the load.", "quantifier": "every snapshot in the format (any number of files and particles, any content), byte order, float width, id width and signedness, naming convention, number of processes, build option DM_ONLY or HAS_THERMAL_ENERGY", "why_tests_cant": "offsets into blocks depend on the counts and header masses of all types in each file; a shifted offset gives plausible values, and shows up only for particular mixtures of types, byte orders and file splits", "anchors": ["src/io/gadget_io.cpp:GadgetReader_t::Load", "src/io/gadget_io.cpp:LoadGadgetHeader", "src/io/gadget_io.cpp:ReadGadgetFile", "src/io/gadget_io.cpp:ReadMassBlock", "src/io/gadget_io.cpp:GetGadgetFileName", "src/io/gadget_io.cpp:ReadGadgetNumberOfParticles", "src/io/gadget_io.cpp:ReadGadgetFileHeader"]}
{"id": "C65", "title": "A Gadget group catalogue is loaded exactly from its files", "statement": "Loading a Gadget group catalogue from its tab and ids files gives the processes together the groups of the files in order, each once and with exactly its own particle ids (after the configured mask); only trailing groups without particles may be left out. Format version, id width, byte order, naming convention, division into files and number of processes do not matter, nor do the offsets stored in the files. The exceptions are proved too: a single file under a numbered name cannot be read, and ids of 4 bytes from 2^31 on differ from the same ids read as unsigned from the snapshot.", "quantifier": "every group catalogue in the format (any number below 65536 of files, any groups and ids), both format versions, 4- and 8-byte ids, both byte orders, all five naming conventions, every mask, every number of processes up to the number of particles", "why_tests_cant": "processes start reading at offsets inside files that depend on the sizes of all groups and files; a wrong offset or header size gives plausible ids of another group and only for some splits, conventions and versions", "anchors": ["src/io/gadget_group_io.cpp:GetFileNameFormat", "src/io/gadget_group_io.cpp:GroupFileReader_t::ReadV2V3", "src/io/gadget_group_io.cpp:GadgetGroup::Load"]}
{"id": "C66", "title": "Bound particles are counted completely by type", "statement": "The numbers and masses by type stored with a subhalo are those of its first Nbound particles: each type has exactly the number and mass of the bound particles of that type, the numbers add up to Nbound and the masses to Mbound. The parallel count gives the same for every number of threads and schedule, and the same as the serial one. The exceptions are proved too: consumed particles are skipped by CountParticleTypes up to 100 particles and counted beyond, and a subhalo reduced to one bound particle by vanishing particles can end a run with a bound mass that is not the mass of the particles listed as bound.", "quantifier": "every list of particles of the six types, every number of bound particles, every division of the loop among threads and every order in the critical section", "why_tests_cant": "the parallel branch depends on the schedule and starts at 101 particles only; the exceptions need particles that vanish in a particular snapshot", "anchors": ["src/subhalo.cpp:Subhalo_t::CountParticleTypes", "src/subhalo.cpp:Subhalo_t::CountParticles", "src/subhalo_unbind.cpp:Subhalo_t::RecursiveUnbind"]}
{"id": "C67", "title": "Average coordinates are true means across the periodic boundary", "statement": "The average position reported for a subhalo or halo is the mass-weighted mean of images of its particles, whichever particle comes first and however the work is divided among threads, provided the particles have images within half a box of each other; average velocities are plain weighted means. The core used to decide whether a subhalo sinks is the mean of the first Nbound particles, at most 20, and its dispersions are mean squared distances from that mean, so their roots exist. The exceptions are proved too: for wider objects the result depends on the order of the particles, and the mean can lie outside the box.", "quantifier": "every list of particles with non-zero total mass, every periodic or open box, every division of the loop among threads, every choice of images", "why_tests_cant": "errors appear only for objects across the boundary and for particular first particles; the parallel sums depend on the schedule", "anchors": ["src/snapshot.cpp:AveragePosition", "src/snapshot.cpp:AverageVelocity", "src/subhalo.cpp:Subhalo_t::AverageCoordinates", "src/subhalo_merge.cpp:SubHelper_t::BuildPosition", "src/subhalo_merge.cpp:SubHelper_t::BuildVelocity", "src/subhalo_unbind.cpp:EnergySnapshot_t::AveragePosition"]}
{"id": "C68", "title": "Reported energies, angular momentum and shape are those of the bound particles", "statement": "The specific potential and kinetic energies reported for a subhalo add up to the mass-weighted mean of the binding energies of its bound particles; the kinetic energy and the angular momentum are those of physical offsets and of velocities relative to the frame including the Hubble flow. In every direction the tensor of inertia is the sum of mass times squared offset from the most bound particle over the bound mass, and the weighted tensor that of squared cosines, so both are positive semi-definite. None of this depends on threads. The exception is proved too: a second bound particle at the position of the most bound one makes the tensors undefined.", "quantifier": "every list of bound particles with energies, every frame, scale factor and Hubble rate, periodic or open box, every division of the loops among threads", "why_tests_cant": "wrong signs or components of offsets across the boundary give plausible values; positive semi-definiteness is a statement about all directions", "anchors": ["src/subhalo_unbind.cpp:EnergySnapshot_t::AverageKinematics", "src/subhalo.cpp:Subhalo_t::CalculateShape"]}
{"id": "C69", "title": "Apostle snapshots and their groups are loaded completely and exactly", "statement": "Loading an Apostle (EAGLE) snapshot gives the processes together exactly the particles of all files in order, each with its own position (wrapped into a periodic box), velocity (converted with the scale factor), id, mass (from the header or its own), energy and type; with DM_ONLY exactly the dark matter. Loading its groups puts every group with particles on exactly one process with exactly the particles carrying its number, each with its own properties. Either of the two names of the velocity and mass datasets is accepted. The exceptions are proved too: a missing group of a type leaves its particles unread without an error, a missing dataset gives zeros, ids beyond the range of HBTInt collapse to one id.", "quantifier": "every number of files and processes, every division of the particles into files and types, every mass table, both build options, every content of datasets that are not needed", "why_tests_cant": "depends on the joint content of all files, on which types are empty in which file, and on the offsets of every process", "anchors": ["src/io/apostle_io.cpp:ApostleReader_t::LoadSnapshot", "src/io/apostle_io.cpp:ApostleReader_t::ReadSnapshot", "src/io/apostle_io.cpp:ApostleReader_t::ReadGroupParticles", "src/io/apostle_io.cpp:ApostleReader_t::CompileFileOffsets", "src/io/apostle_io.cpp:ApostleReader_t::LoadGroups", "src/hdf_wrapper.h:ReadDataset"]}
{"id": "C70", "title": "File names identify their snapshot, process and kind", "statement": "No two catalogue files of a run share a name: the name determines the snapshot index, the number of the file and its kind, so nothing is overwritten and what is read back is what was written for that snapshot. Snapshot file names of each supported convention determine the snapshot id and the number of the file; each snapshot index in the configured range has one id, and different indices have different ids. If snapshot names but no ids are listed, every snapshot is read under its own name. The exception is proved too: if ids are listed as well, the name is looked up by id and another snapshot is read.", "quantifier": "every path and base name, all integers as snapshot and file numbers, every list of ids and names", "why_tests_cant": "injectivity of the formatting is a statement about all pairs of numbers, including those beyond the padding width", "anchors": ["src/snapshot_number.h:SnapshotNumber_t::SetSnapshotIndex", "src/io/subhalo_io.cpp:SubhaloSnapshot_t::GetSubFileName", "src/io/subhalo_io.cpp:SubhaloSnapshot_t::GetSubDir", "src/io/gadget_io.cpp:GadgetReader_t::GetGadgetFileName", "src/io/apostle_io.cpp:ApostleReader_t::SetSnapshot", "src/io/apostle_io.cpp:ApostleReader_t::GetFileName"]}
{"id": "C71", "title": "Subhalos are led by their most bound particle outside smaller subhalos", "statement": "With INCLUSIVE_MASS, after UpdateTracks every resolved subhalo is led by its most bound particle that is in no smaller resolved subhalo of the same host (if it has one), and its centre and velocity are those of this particle; no particle is lost or added and the bound count stays. Orphans and subhalos outside the member lists are left alone. The code violates the first part: a subhalo whose most bound particle is in no smaller subhalo loses it to the next such particle, even if it is alone in its host, and the new leader may be unbound. What holds is proved: the claim for subhalos whose first particle is in a smaller subhalo, and that the leader is in no smaller subhalo unless all particles are.", "quantifier": "all numbers of hosts, members and particles, every overlap between particle lists, every order of the hosts", "why_tests_cant": "the result depends on the overlap of all particle lists of a host in mass order", "anchors": ["src/subhalo_tracking.cpp:SubhaloSnapshot_t::PurgeMostBoundParticles", "src/subhalo_tracking.cpp:SubhaloSnapshot_t::UpdateTracks"]}
{"id": "C72", "title": "Structures sent between processes arrive complete", "statement": "Particles, halo and subhalo shells, snapshot headers, file assignments and halo summaries that are sent with the MPI datatypes built by HBT+ arrive with every number they were sent with, while the vectors of the receiving halo or subhalo (particles, energies, nests) keep their own memory; no byte outside of the structure is read or written. The datatypes obey MPI's rules (matching types, no byte received twice). The exceptions are proved too: of the totals of a Gadget header only the first arrives, MboundType is registered as integers and with HBT_INT8 overlaps the following members, and BoxSize of the Apostle header is registered twice.", "quantifier": "every combination of the build macros, every layout of the members that a compiler may choose, every content of sender and receiver", "why_tests_cant": "tests run with one build and one compiler; an incomplete registration shows only in members that happen to differ", "anchors": ["src/snapshot.cpp:Particle_t::create_MPI_type", "src/halo.cpp:create_MPI_Halo_Id_type", "src/subhalo.cpp:SubhaloSnapshot_t::BuildMPIDataType", "src/io/gadget_io.cpp:GadgetHeader_t::create_MPI_type", "src/io/apostle_io.cpp:create_ApostleHeader_MPI_type", "src/io/apostle_io.cpp:create_MPI_HaloInfo_t", "src/io/gadget_group_io.cpp:FileAssignment_t::create_MPI_type"]}
{"id": "C73", "title": "The density estimate uses exactly the nearest particles", "statement": "SphDensity called with a positive guess on a tree that holds at least NumNeighbourSPH particles returns. The length h it uses is the distance of the NumNeighbourSPH-th nearest particle (nearest image with periodic boundaries), hguess becomes 1.01 h, and the density times h^3 is the sum of the cubic spline over all particles, up to the rounding of the constants: neither the order that nth_element leaves nor the guess matters. The exceptions are proved too: it never returns for a guess of zero or below or for a tree with fewer particles, and when h = 0 the density is not a number and the returned guess of zero blocks the next call.", "quantifier": "every set of particles, every place, every positive guess, every number of neighbours from one to the number of particles, periodic or not, every outcome of nth_element, every order-keeping square root and every cube root function not below one above one", "why_tests_cant": "the loop ends after a number of searches that depends on guess and particles; ties and the permutation chosen by the library vary", "anchors": ["src/geometric_tree.cpp:GeoTree_t::SphDensity", "src/geometric_tree.cpp:GeoTree_t::Search", "src/geometric_tree.h:GeoTree_t::SetNumNeighbourSPH", "src/datatypes.h:LocatedParticleCollector_t"]}
{"id": "C74", "title": "The catalogue holds every number of a subhalo and other builds can read it", "statement": "In the dataset Subhalos of a catalogue every numeric member of Subhalo_t appears exactly once, under its own name, with its own type and length, in order and without gaps (of Particle_t in ParticleProperties: every member but Id); no insertion into the compound type fails. A catalogue written by one build and read by another (other integer or floating-point sizes, with or without DM_ONLY, GSL, binding energies, other compiler layout) restores every member that both have, converted where the size differs and bit for bit where it does not; members that the file lacks and the vectors of the receiving subhalo are untouched.", "quantifier": "every combination of the build macros for writer and reader, every layout of the members, every content", "why_tests_cant": "tests use one build and one compiler on both sides", "anchors": ["src/io/subhalo_io.cpp:SubhaloSnapshot_t::BuildHDFDataType", "src/io/subhalo_io.cpp:SubhaloSnapshot_t::WriteFile", "src/io/subhalo_io.cpp:SubhaloSnapshot_t::ReadFile", "src/subhalo.h:Subhalo_t", "src/snapshot.h:Particle_t"]}
{"id": "C75", "title": "Lists of ids survive saving and loading", "statement": "The lists of particle ids and of nested subhalos that are written with a catalogue are read back exactly, also when UNSIGNED_LONG_ID_OUTPUT stores them as unsigned numbers, provided that HBT_INT8 is set and no id is negative as an HBTInt; without the macro this holds for all ids. The exceptions are proved too: with the macro every negative id comes back as 2^63-1, and without HBT_INT8 the macro makes HDF5 take two ids for one and read beyond the list.", "quantifier": "every list of ids in the range of HBTInt, every position in the buffer, all combinations of the two macros", "why_tests_cant": "ids of test simulations are small; the conversion that clips large ids is done silently by the library", "anchors": ["src/io/subhalo_io.cpp:SubhaloSnapshot_t::WriteFile", "src/io/subhalo_io.cpp:SubhaloSnapshot_t::ReadFile", "src/hdf_wrapper.h:H5T_HBTInt", "CMakeLists.txt:HBT_UNSIGNED_LONG_ID_OUTPUT"]}
{"id": "C76", "title": "Expansion, critical density and virial factors are those of the cosmology", "statement": "Cosmology_t::Set gives a positive Hz that solves the Friedmann equation and an OmegaZ that is the matter density over the critical density at that epoch (today: H0 and OmegaM0). The virial factors times the critical density are 200 times critical, 200 times the mean matter density and, within 1/1000, the top-hat formula of Bryan and Norman, which is positive and grows with OmegaZ up to 1. Every overdensity size reported for a profile is the mass and comoving radius of a sphere of just that mean density with a profile particle of that enclosed mass inside. The critical density in physical units does not depend on the units of the parameter file, and a catalogue that is read back restores the cosmology including the numbers not stored.", "quantifier": "all cosmological parameters with a positive Friedmann equation, all scale factors, units and profiles", "why_tests_cant": "tests compare a few redshifts; the identities hold for the continuum of parameters and units", "anchors": ["src/snapshot.h:Cosmology_t::Set", "src/snapshot.cpp:Snapshot_t::HaloVirialFactors", "src/snapshot.cpp:Snapshot_t::SphericalOverdensitySize", "src/config_parser.cpp:Parameter_t::ParseConfigFile", "src/io/subhalo_io.cpp:SubhaloSnapshot_t::ReadFile"]}
{"id": "C77", "title": "The two overdensity functions for equal masses agree", "statement": "SphericalOverdensitySize reports the largest number of innermost particles that are denser than the threshold, and the radius at which their mean density is the threshold. SphericalOverdensitySize2 ends after at most one iteration more than there are particles, never reports less than that, counts the particles inside a radius within 1e-5 of the reported one, and for at most 33334 particles reports the same size unless the outermost particle lies exactly on the sphere. The exceptions are proved too: without particles it reads before the list, an outermost particle on the sphere gives different sizes, and from 40000 particles on there are lists for which one function reports no mass and the other all particles but one.", "quantifier": "all sorted lists of distances, masses, cosmologies and factors", "why_tests_cant": "the difference needs tens of thousands of particles in a special arrangement; termination needs a monotonicity argument", "anchors": ["src/snapshot.cpp:Snapshot_t::SphericalOverdensitySize", "src/snapshot.cpp:Snapshot_t::SphericalOverdensitySize2"]}
{"id": "C78", "title": "The Python reader returns what the catalogue holds", "statement": "With as many files per snapshot as the last one has, LoadSubhalos returns the records (or one field of them) of all files in file order, an index gives the same subhalo's record, particles, source particles and particle properties whichever file it is in, an index beyond the end gives nothing, a negative snapshot number counts from the last one, GetSub finds a subhalo by track id or raises, and GetTrack returns exactly one record per snapshot from birth to the last one, in order, each of that track and with the scale factor of its snapshot. Where it does not hold is proved too: older snapshots with another number of files are cut short without a message or cannot be read, GetNumberOfSubhalos fails on every catalogue, and a negative index counts from the end of the first file with subhalos.", "quantifier": "all numbers of files, snapshots, subhalos and distributions of subhalos over files", "why_tests_cant": "the distribution of subhalos over files depends on the number of processes and changes between snapshots", "anchors": ["toolbox/HBTReader.py:HBTReader.LoadSubhalos", "toolbox/HBTReader.py:HBTReader.LoadParticles", "toolbox/HBTReader.py:HBTReader.GetParticleProperties", "toolbox/HBTReader.py:HBTReader.GetSub", "toolbox/HBTReader.py:HBTReader.GetTrack", "toolbox/HBTReader.py:HBTReader.GetNumberOfSubhalos", "src/io/subhalo_io.cpp:SubhaloSnapshot_t::WriteFile"]}
{"id": "C79", "title": "Exclusive particle lists and periodic distances of the Python reader", "statement": "GetExclusiveParticles returns as many lists in the same order; every particle of a subhalo with several particles is kept exactly once, by the smallest such subhalo that has it (the first of equals), and lists of at most one particle are returned as they are. PeriodicDistance replaces each coordinate difference of two positions in the box by its smallest periodic image.", "quantifier": "all lists of particle lists, all orders in which Python lists a set, all boxes and positions", "why_tests_cant": "the result depends on the whole nesting of particle lists and on ties in size", "anchors": ["toolbox/HBTReader.py:HBTReader.GetExclusiveParticles", "toolbox/HBTReader.py:PeriodicDistance"]}
{"id": "C80", "title": "Saved binding energies belong to the saved particles", "statement": "In a build with SAVE_BINDING_ENERGY every subhalo that stays bound is saved with as many energies as bound particles; the i-th one is the energy that the i-th saved particle had in the last round of unbinding, none is positive, and without refinement they ascend. The averages of energy and angular momentum are taken over the same particles and energies. Where it fails is proved too: a disrupted subhalo keeps its old most bound particle but is saved with the energy (and averages) of another one, and the promotion of most bound particles exchanges particles but not their energies.", "quantifier": "all subhalos, energies, shuffles and sorts, any number of rounds", "why_tests_cant": "energies, order and the number of rounds depend on the potentials of all particles in all rounds", "anchors": ["src/subhalo_unbind.cpp:Subhalo_t::Unbind", "src/subhalo_unbind.cpp:EnergySnapshot_t::AverageKinematics", "src/io/subhalo_io.cpp:SubhaloSnapshot_t::WriteFile", "src/subhalo_tracking.cpp:SubhaloSnapshot_t::PurgeMostBoundParticles"]}
{"id": "C81", "title": "Rounding harms neither the end of unbinding nor the bound particles", "statement": "With IEEE-754 arithmetic of any precision, a turn of unbinding that removes nothing is always taken as converged, so unbinding ends and C33-C37 hold; the convergence test is that of exact arithmetic up to the accuracy of the format. A relaxation factor above one by four units of the accuracy (or of at least one while counts are exact) never cuts off bound particles, and the room left is the multiple up to the accuracy. At a factor of exactly one, in single precision, a subhalo of 2^24+1 particles loses a bound particle; this is proved too.", "quantifier": "every binary format with at least two bits, every configured precision and factor, every number of particles", "why_tests_cant": "rounding shows only for counts that are not representable, above 2^24 in single precision", "anchors": ["src/subhalo_unbind.cpp:Subhalo_t::Unbind", "src/subhalo_unbind.cpp:Subhalo_t::TruncateSource", "src/datatypes.h:HBTReal"]}
{"id": "C82", "title": "Machine integers suffice for the communication within stated sizes", "statement": "MyAllToAll keeps counts, displacements and totals in int. With up to 2047 processes (W * 2^20 < 2^31), or if no process receives 2^31 elements or more, nothing overflows and everything is delivered; with 2048 processes sending a chunk each to the same one the total overflows. MyBcast never overflows up to chunk * INT_MAX elements. ExchangeParticles does not overflow, on the receiving side either, if no process reads more than INT_MAX particles, and does otherwise. SyncContainer delivers fewer than INT_MAX elements and rejects exactly INT_MAX, but its check misses larger sizes: 2^32 + n elements arrive as n on the other processes.", "quantifier": "every number of processes, all counts and data, every limit of the integers and chunk size", "why_tests_cant": "the limits lie at 2^31 elements or 2048 processes", "anchors": ["src/mpi_wrapper.h:MyAllToAll", "src/mpi_wrapper.h:MyBcast", "src/mpi_wrapper.h:MpiWorker_t::SyncContainer", "src/snapshot_exchanger.cpp:ParticleSnapshot_t::ExchangeParticles", "src/snapshot_exchanger.cpp:ParticleSnapshot_t::PartitionParticles"]}
{"id": "C83", "title": "A subhalo sinks exactly when it is within two dispersions of a core", "statement": "SinkDistance(sat, host) < DeltaCrit holds exactly when the distance from the satellite's most bound particle to the nearest image of the centre of the host's core (its first bound particles, at most 20), divided by the position dispersion of the core, plus their relative velocity divided by the velocity dispersion, is below 2. A satellite within one dispersion in both respects always sinks, one two dispersions away in any respect never does. The decision is independent of units, of the position of the box border and of a common velocity. DetectTraps therefore selects the nearest resolved subhalo above in the nest with such a core. A core whose particles have equal velocities or positions never captures anything, not even a satellite at its centre (0/0).", "quantifier": "all cores across the border or not, all satellites, all changes of units, origin and frame, all trees of subhalos", "why_tests_cant": "every position, velocity and mass, and all changes of frame", "anchors": ["src/subhalo_merge.cpp:SinkDistance", "src/subhalo_merge.cpp:SubHelper_t::BuildPosition", "src/subhalo_merge.cpp:SubHelper_t::BuildVelocity", "src/subhalo_merge.cpp:DetectTraps", "src/config_parser.h:PeriodicDistance"]}
{"id": "C84", "title": "The central is the member that moves least relative to its halo", "statement": "KineticDistance is the size of the relative velocity of subhalo and halo including the expansion along the shortest way across the periodic box. It is independent of the origin of the box and of a common velocity and scales with the unit of velocity, except for objects exactly half a box apart along an axis, where it depends on the position of the border. DecideCentrals puts first the member with the smallest such velocity among those above the mass limit.", "quantifier": "all positions and velocities within 1.5 boxes of each other, all member lists and mass ratios", "why_tests_cant": "every configuration across the border, all frames", "anchors": ["src/subhalo_tracking.cpp:Subhalo_t::KineticDistance", "src/snapshot.h:Snapshot_t::RelativeVelocity", "src/subhalo_tracking.cpp:SubhaloSnapshot_t::DecideCentrals"]}
{"id": "C85", "title": "A build without stripping loses no particle to unbinding", "statement": "With NO_STRIPPING (make HBT.nostrip) and without INCLUSIVE_MASS, unbinding a subhalo of at least MinNumPartOfSub particles keeps all of them bound whatever their energies: the subhalo lives, does not sink, has the mass of all its particles, and they are ordered by their energies from a single evaluation (the first MaxSampleSizeOfPotentialEstimate by the refined energies if RefineMostboundParticle is set). Smaller subhalos are disrupted as usual. The work on a snapshot still ends in every order of the threads and keeps places and nests, and at the end of a whole run every subhalo of the catalogue lists its bound particles and no others.", "quantifier": "all subhalos, energies, sample sizes, convergence tests, process counts, thread orders and numbers of snapshots", "why_tests_cant": "all energy functions and schedules; the build differs from the tested one", "anchors": ["Makefile:HBT.nostrip", "src/subhalo_unbind.cpp:Subhalo_t::Unbind", "src/subhalo_unbind.cpp:SubhaloSnapshot_t::RefineParticles", "HBT.cpp:main"]}
{"id": "C86", "title": "With inclusive masses every subhalo is unbound alone and merging moves no particle", "statement": "With INCLUSIVE_MASS the work on a snapshot ends for every order of the threads. What becomes of a subhalo in RefineParticles is decided by that subhalo alone, not by the others or by the schedule. The marks of sinking subhalos are those of the usual build; a sinking subhalo is dead and keeps its first particle, no other subhalo changes except that those into which a resolved one sank are unbound again and truncated. No subhalo ever gets a particle it did not have; tracks, ranks, nests and hosts are kept; no alive subhalo is left with a sink unless it sank in this snapshot and merging is off.", "quantifier": "all histories of snapshots, process counts, trees of subhalos, energies, and orders of the five parallel loops", "why_tests_cant": "all schedules and trees; the build differs from the tested one", "anchors": ["src/subhalo_unbind.cpp:SubhaloSnapshot_t::RefineParticles", "src/subhalo_merge.cpp:SubhaloSnapshot_t::MergeSubhalos", "src/subhalo_merge.cpp:SubhaloSnapshot_t::MergeRecursive", "src/subhalo_merge.cpp:Subhalo_t::MergeTo", "src/subhalo_tracking.cpp:SubhaloSnapshot_t::PrepareCentrals"]}
{"id": "C87", "title": "The parallel loops over subhalos and halos are free of races and give the sequential result", "statement": "In LevelUpDetachedSubhalos, MaskSubhalos, RefineParticles and MergeSubhalos the turns of each parallel loop may overlap in time in any way, down to single reads and writes of shared memory. Whatever the threads do, the loop ends, no turn accesses memory that does not exist, no two turns ever are about to access the same subhalo with one of them writing, and when all turns are over the subhalos are exactly those that the sequential loop gives. The one exception is the flag IsMerged in DetectTraps: two turns may write it at the same time, but only the same value.", "quantifier": "all histories of snapshots, process counts, trees of subhalos, energies and sink criteria; all interleavings of all turns", "why_tests_cant": "the number of interleavings is unbounded and a race need not show in a test run", "anchors": ["src/subhalo_tracking.cpp:SubhaloSnapshot_t::LevelUpDetachedSubhalos", "src/subhalo_tracking.cpp:SubhaloSnapshot_t::MaskSubhalos", "src/subhalo_unbind.cpp:SubhaloSnapshot_t::RefineParticles", "src/subhalo_merge.cpp:SubhaloSnapshot_t::MergeSubhalos", "src/subhalo_merge.cpp:FillHostTrackIds", "src/subhalo_merge.cpp:DetectTraps"]}
{"id": "C88", "title": "The parallel loops that feed the centrals and update the tracks are free of races", "statement": "In FeedCentrals, at the beginning of LevelUpDetachedSubhalos and in UpdateTracks (ExtendCentralNest, AssignRanks, FillDepth, the loop that keeps the history, GlobalizeTrackReferences) the turns of each parallel loop may overlap in time in any way, down to single reads and writes of shared memory. Whatever the threads do, the loop ends, no turn accesses memory that does not exist, no two turns ever are about to access the same memory with one of them writing, and when all turns are over the memory is that of the sequential loop. FeedCentrals, where the threads draw the numbers of new subhalos from a counter in a critical section, ends in the result of the sequential loop for some order of the halos.", "quantifier": "all histories of snapshots, process counts, trees of subhalos and member tables; for FeedCentrals all subhalos and halos; all interleavings of all turns", "why_tests_cant": "the number of interleavings is unbounded and a race need not show in a test run", "anchors": ["src/subhalo_tracking.cpp:SubhaloSnapshot_t::FeedCentrals", "src/subhalo_tracking.cpp:SubhaloSnapshot_t::LevelUpDetachedSubhalos", "src/subhalo_tracking.cpp:SubhaloSnapshot_t::ExtendCentralNest", "src/subhalo_tracking.cpp:MemberShipTable_t::AssignRanks", "src/subhalo_tracking.cpp:SubhaloSnapshot_t::FillDepth", "src/subhalo_tracking.cpp:SubhaloSnapshot_t::UpdateTracks", "src/subhalo_tracking.cpp:SubhaloSnapshot_t::GlobalizeTrackReferences"]}
{"id": "C89", "title": "Filling an index table, merging linked lists, joining nests and promoting particles in parallel is free of races", "statement": "In FlatIndexTable_t::Fill (for distinct keys), Linkedlist_t::merge, GlueHeadNests, UnglueHeadNests and PurgeMostBoundParticles the turns of each parallel loop may overlap in time in any way, down to single reads and writes of shared memory. Whatever the threads do, the loop ends, no turn accesses memory that does not exist, no two turns ever are about to access the same memory with one of them writing, and when all turns are over the memory is that of the sequential loop: the table answers every query, each cell of the list has the chain of its particles, the nests after UnglueHeadNests are those before GlueHeadNests. If two particles have the same id, filling the table is a race.", "quantifier": "all lists of distinct keys, uninitialised blocks of memory, particle positions, cell and thread counts, groups without common members, heads and particles; all interleavings of all turns", "why_tests_cant": "the number of interleavings is unbounded and a race need not show in a test run", "anchors": ["src/hash.tpp:FlatIndexTable_t::Fill", "src/linkedlist.cpp:Linkedlist_t::merge", "src/subhalo_tracking.cpp:SubhaloSnapshot_t::GlueHeadNests", "src/subhalo_tracking.cpp:SubhaloSnapshot_t::UnglueHeadNests", "src/subhalo_tracking.cpp:SubhaloSnapshot_t::PurgeMostBoundParticles"]}
{"id": "C90", "title": "Whole runs with inclusive masses list no particle twice and lead subhalos by their own particles", "statement": "A run of a build with INCLUSIVE_MASS on input whose groups have distinct numbers and list no particle twice ends, and after its last snapshot no subhalo lists a particle twice, and the first particle of every resolved subhalo is in no smaller resolved subhalo of the same host, unless all its particles are. The particles of the catalogue need not be the bound ones: the leader of a subhalo can be an unbound particle that took the place of the most bound one, and then the mass of the subhalo is not that of its first Nbound particles.", "quantifier": "every valid input, number of processes and snapshots, configuration, schedule of the threads, outcome of the sorts among equal keys and outcome of the numerical functions", "why_tests_cant": "the property is an invariant of the main loop over all histories; the build differs from the tested one", "anchors": ["src/subhalo_tracking.cpp:SubhaloSnapshot_t::UpdateTracks", "src/subhalo_tracking.cpp:SubhaloSnapshot_t::PurgeMostBoundParticles", "src/subhalo_unbind.cpp:SubhaloSnapshot_t::RefineParticles", "src/subhalo_merge.cpp:SubhaloSnapshot_t::MergeSubhalos", "HBT.cpp:main"]}
{"id": "C91", "title": "The result of a run does not depend on the schedule of the threads", "statement": "Two runs of the same program on the same valid input end with the same files and the same catalogue, subhalo by subhalo and particle by particle, however the threads share out the iterations of the parallel loops, provided FeedCentrals treats the groups in the same order and the numerical functions (sums over particles, random shuffles of subhalos larger than MaxSampleSizeOfPotentialEstimate) give the same values. The first proviso is needed: FeedCentrals numbers new subhalos in the order in which threads reach groups without subhalo, so with several threads the same group can get another track id from one run to the next.", "quantifier": "every valid input, number of processes and snapshots, configuration, build with or without stripping and inclusive masses, outcome of the numerical functions, and every two schedules of the threads", "why_tests_cant": "the number of schedules is unbounded, and a difference need not show on the machine and the input of a test", "anchors": ["HBT.cpp:main", "src/subhalo_tracking.cpp:SubhaloSnapshot_t::LevelUpDetachedSubhalos", "src/subhalo_tracking.cpp:SubhaloSnapshot_t::MaskSubhalos", "src/subhalo_tracking.cpp:SubhaloSnapshot_t::FeedCentrals", "src/subhalo_tracking.cpp:SubhaloSnapshot_t::UpdateTracks", "src/subhalo_unbind.cpp:SubhaloSnapshot_t::RefineParticles", "src/subhalo_merge.cpp:SubhaloSnapshot_t::MergeSubhalos", "src/hash.tpp"]}
{"id": "C92", "title": "Combining the files of a snapshot orders all datasets by track", "statement": "After a run on valid input, combineSubSnap.py turns the files of any snapshot with at least one subhalo into one file with one row per subhalo, in which row t of Subhalos, SubhaloParticles and NestedSubhalos belongs to the subhalo with TrackId t: its members, the ids of its bound particles and its nest. For a snapshot without subhalos it stops with an exception.", "quantifier": "every valid input, number of processes and snapshots, configuration and schedule of the threads, and every outcome of argsort among equal tracks", "why_tests_cant": "that the row number is the track depends on the tracks being 0, 1, 2, ... without gaps over all processes after every history", "anchors": ["toolbox/combineSubSnap.py:combineSubSnap", "toolbox/combineSubSnap.py:write_vlen_data", "src/io/subhalo_io.cpp:SubhaloSnapshot_t::WriteFile"]}
{"id": "C93", "title": "The list of snapshots has every redshift once and prefers snapshots to snipshots", "statement": "If the names of the directories tell a redshift, CreateSnapshotList.py prints for \"snap\" and \"snip\" the first by name of the readable, non-empty directories of that kind with each redshift, in the order of the names; for \"all\" a list with strictly decreasing redshift in which every redshift of a readable, non-empty directory appears once, by a snapshot if there is one and by a snipshot otherwise. A directory of either kind whose name tells no redshift stops the script, whichever list is asked for.", "quantifier": "every set of directories and every assignment of redshifts to their names", "why_tests_cant": "depends on the stability of the sort and on which of several duplicates is kept, for any number of duplicates", "anchors": ["toolbox/CreateSnapshotList.py:clear_dup", "toolbox/CreateSnapshotList.py:clear_empty", "toolbox/CreateSnapshotList.py:redshift"]}
{"id": "C94", "title": "psort returns the k-th smallest element and partitions the array there", "statement": "For every array and every k from 1 to its length, psort(k, numel, arr) ends, reads and writes no element outside the array, leaves a rearrangement of the array in which no element before position k is larger and none after it smaller than the one at position k, and returns that element, which is the k-th of the sorted array.", "quantifier": "every array, with any repetitions, and every k in range", "why_tests_cant": "the inner scans have no bounds test and stop only because of the order of three elements; one bad arrangement of equal elements would run out of the array", "anchors": ["src/mymath.cpp:psort"]}
{"id": "C95", "title": "timing.log has one line of eight stage times for each snapshot", "statement": "A run appends to timing.log one line for each snapshot in order, with its number and the eight times between the nine readings of the clock that belong to it; they add up to the time from the first to the last reading and none is negative if the clock does not go back. GetSeconds(i, j) is the time between two ticks, counted from the front or from the end, in either order; GetSeconds(i) is the time since the tick before, except for the first tick, where it is the time from the first to the last.", "quantifier": "every clock, range of snapshots, old content of the log and pair of ticks", "why_tests_cant": "depends on wall-clock readings; a test sees one sequence of them", "anchors": ["HBT.cpp:main", "src/mymath.h:Timer_t"]}
{"id": "C96", "title": "The axes of a subhalo are the orthogonal eigenvectors of its tensor, longest first", "statement": "With GSL, a subhalo with at least two bound particles of positive mass, none at the place of the most bound one, gets three mutually orthogonal vectors in InertialEigenVector, longest first: eigenvectors of the reported InertialTensor, with sizes Mbound times their eigenvalues there, that add up to the sum of m r^2 around the most bound particle. The same holds for the weighted ones, whose sizes add up to the mass of the particles other than the most bound. The sizes are not the eigenvalues of the reported tensor, as the comment in subhalo.h suggests.", "quantifier": "every set of bound particles and every eigenvalue routine that does what GSL documents for the two tensors", "why_tests_cant": "needs positive semidefiniteness and the trace identity for every configuration of particles", "anchors": ["src/mymath.cpp:EigenAxis", "src/subhalo.cpp:CalculateShape", "src/subhalo.h:InertialEigenVector"]}
