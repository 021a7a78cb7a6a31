claim("C01","proved","C01_assign_tasks_tile","AssignTasks, unbounded integers.")
claim("C02","proved","C02_offsets_are_prefix_sums","CompileOffsets, unbounded integers.")
claim("C03","proved","C03_swap_reverses_elements C03_swap_involutive","swap_Nbyte for every element size; the mismatched new[]/delete of the generic branch is outside the model.")
claim("C04","proved","C04_rank_in_range C04_same_rank_iff_same_cell C04_rank_is_cell_number","GetGrid and AssignCell with exact rational coordinates.")
claim("C05","proved","C05_factors_multiply","pow() is an arbitrary oracle that is at least 1 and exact for the first root.")
claim("C06","proved","C06_fortran_read_exact C06_skip_block C06_marker_mismatch_rejected C06_overlong_request_refuted","Proved for every request inside the record. A request longer than the record is not rejected (refuted).")
claim("C07","proved","C07_minimum_image C07_axis_triangle C07_distance_minimal C07_distance_triangle","Exact rational coordinates; 3-D triangle inequality stated on squared distances.")
claim("C08","partial","C08_position_modulus_partial C08_position_modulus_float_refuted","Holds in exact arithmetic; refuted in IEEE double and single arithmetic (result can equal L). What remains true in floating point is C63.")
claim("C09","proved","C09_mapped_lookup C09_mapped_lookup_negative_keys C09_flat_lookup C09_tables_agree C09_answer_unique C09_negative_keys_disagree_refuted","Any outcome of std::sort, any write order of the parallel fill. Negative keys (outside the quantifier) make the two tables disagree.")
claim("C10","proved","C10_batch_equals_single C10_batch_answers C10_flat_batch","GetIndicesRecursive with libstdc++ lower_bound; payload of each particle is arbitrary.")
claim("C11","proved","C11_redistribution C11_fewer_particles_than_processes_refuted","Both branches of PartitionParticles, any sort; needs N >= W. With N < W the code reads the front of an empty vector (refuted).")
claim("C12","proved","C12_stride_terminates_exact C12_duplicates_never_stop","ParallelStride, exact move and bounded number of rounds; the duplicate-id non-termination is proved as stated.")
claim("C13","proved","C13_all_to_all_delivers","MyAllToAll, every chunk size >= 1; buffer bounds are part of the model (an overflow would be None).")
claim("C14","proved","C14_bcast_delivers","MyBcast.")
claim("C15","proved","C15_strings_synchronised C15_line_break_refuted","SyncVectorString; the newline restriction of the property is necessary (refuted without it).")
claim("C16","proved","C16_restore_order C16_duplicate_targets_never_stop","RestoreParticleOrder; the in-place swap loop ends within n swaps per position.")
claim("C17","proved","C17_query_updates_in_place C17_ids_below_the_ranges_keep_their_record C17_missing_particles_removed C17_ranges_from_redistribution C17_missing_below_ranges_refuted C17_id_beyond_ranges_refuted","Whole exchange on all processes with both table kinds, through the MyAllToAll model. Ids below the first range keep stale records and ids beyond the last range exit (refuted outside the quantifier).")
claim("C18","proved","C18_subhalo_removal C18_halo_removal","Both KickNullParticles loops, in place.")
claim("C21","proved","C21_membership_table C21_missing_particle_host_refuted","MemberShipTable_t::Build, any sort. Host -2 (lost most bound particle) writes out of bounds (refuted outside the quantifier).")
claim("C23","proved","C23_central_is_best","Build followed by DecideCentrals; kinetic distance is an oracle; needs MajorProgenitorMassRatio <= 1 and non-negative masses.")
claim("C24","proved","C24_centrals_fed","Build, DecideCentrals and FeedCentrals composed, every order of the threads.")
claim("C25","proved","C25_track_ids_contiguous C25_ids_persist","Induction over all histories: arbitrary migration, arbitrary new subhalos, RegisterNewTracks on all processes.")
claim("C26","proved","C26_history_fields C26_unregistered_untouched","UpdateTrack folded over any history; exact rational masses.")
claim("C27","proved","C27_nesting_is_forest C27_links_kept C27_heads_of_hosts C27_no_crash","for every history of runs from empty lists: any redistribution, any hosts, any thread order; which links survive is stated exactly")
claim("C28","proved","C28_central_covers_group C28_central_unique C28_no_crash C28_field_depth_refuted","proved for the groups of host halos; finding: FillDepth skips field subhalos, which keep a stale depth")
claim("C29","proved","C29_glue_covers C29_glue_unglue","")
claim("C30","proved","C30_local_and_back C30_global_and_back C30_globalize C30_globalize_fields","")
claim("C31","proved","C31_masking","every history, every thread order; ids of members with Nbound > 1")
claim("C32","proved","C32_partition","any prefix length of any list, any energy type with disjoint tests E<0 and E>0")
claim("C33","proved","C33_unbinding_ends C33_exact_precision C33_precision_above_one_refuted","energies are an arbitrary oracle of the state and the round; a precision above one builds a tree of no particles (refuted outside the quantifier)")
claim("C34","proved","C34_unbinding_permutes","")
claim("C35","proved","C35_bound_order C35_fixed_energies","with sampling the refined core is ordered by its refined energies; for energies fixed per particle the bound set is exactly the negative ones; minimum number of particles at least 2")
claim("C36","proved","C36_marks C36_death_snapshot","per unbinding, and over every history of unbindings and merges; minimum number of particles at least 2")
claim("C37","proved","C37_refine","every history of nests, every masking outcome, every thread order; conservation per host; minimum number of particles at least 2")
claim("C38","proved","C38_truncation","relax factor at least 1; exact product, rounded towards zero")
claim("C39","proved","C39_trapping","every history of nests, every masking and unbinding outcome, every thread order; the distance is an arbitrary function of the two subhalos")
claim("C40","proved","C40_merging C40_merged_remains","chains of any length; the ids received are exactly those of the joining subhalos; INCLUSIVE_MASS off; minimum number of particles at least 2")
claim("C54","proved","C54_work","composition of masking, unbinding and merging; shows that the histories of C27-C30 cover the computed work")
claim("C46","proved","C46_every_particle_once C46_terminates C46_gravity_tree C46_geometric_tree C46_zero_resolution_refuted","exact coordinates; every sequence of random octants; termination needs a positive resolution and random numbers that do not follow the addresses of a particle for ever; with resolution 0 coincident particles are inserted for ever")
claim("C47","proved","C47_items_cover C47_potential C47_direct_sum","the smoothing kernel is an arbitrary function; with a vanishing opening angle the potential is the direct sum")
claim("C48","proved","C48_search","radius not negative; with periodic boundaries positions and centre lie in the box")
claim("C49","partial","C49_nearest_neighbour_partial C49_nearest_neighbour_refuted","the claim is false of the code: the collector starts with D2 = -1 and only accepts smaller distances, so the search never returns on any tree (refuted). The partial theorem is what does hold: the scan with a collector that starts at distance d0 ends and finds the nearest particle if there is one nearer than d0 and the search radius, on every tree. Missing: a start value with which the code as written would return.")
claim("C43","proved","C43_build C43_parallel_build C43_parallel_same_chains C43_auto_range C43_range_covers","grid of a positive box, or the range of the particles if the cell lengths come out positive")
claim("C44","proved","C44_sphere C44_shell C44_cylinder C44_threads C44_threads_built C44_wide_search_refuted C44_shell_inclusive_refuted C44_auto_range_refuted","the box size of the list and HBTConfig.BoxSize agree; with periodic boundaries positions lie in the box; findings: wide periodic searches report particles several times, shells are exclusive, the automatic range can lose particles")
claim("C45","proved","C45_groups C45_few_particles_refuted","at least 100 particles; with 1 to 99 the program divides by zero")
claim("C53","proved","C53_correction C53_exact C53_sampled C53_refines C53_stale_frame_refuted","exact for every history in which a correcting turn removes fewer than half of the particles; refuted without that condition (stale OldRefPos/OldRefVel); with a sample of the particles C53_sampled gives each full evaluation; positions within an eighth of the box of a common point if it is periodic")
claim("C55","proved","C55_averages","")
claim("C22","proved","C22_hosts C22_tables C22_unknown_particle_refuted","every number of processes and chunk size; the most bound particle must be known to some process, without that the member table is written out of bounds (refuted)")
claim("C50","proved","C50_concatenation C50_from_here","HaloNestIterator_t is the same code on another list")
claim("C52","proved","C52_outermost C52_equal_masses C52_stale_refuted","the outermost crossing is proved for both versions; that an old value is kept when there is no crossing is proved as a finding (refuted)")
claim("C56","proved","C56_profile C56_peak","exact arithmetic; sqrt and cube root are arbitrary functions")
claim("C20","proved","C20_each_halo_once C20_mismatch_rejected C20_few_particles_refuted","for given file contents (their byte layout is C65's); more processes than particles is a finding (out-of-bounds read)")
claim("C41","proved","C41_reload C41_same_processes C41_other_files C41_mismatch_reported C41_torn_save_refuted","Files are records of the datasets that are read again; the id buffer with its pointers is explicit. Hypothesis: Nbound at most the number of particles, as in the property. Reloaded particles have arbitrary attributes. Finding: a save interrupted between two files can load without error (only the number of subhalos is checked).")
claim("C51","proved","C51_restart C51_low_id_refuted","Same number of processes after the restart. The processing between the update and the save is an arbitrary function of the updated catalogue that does not depend on process state outside it (the generator behind random_shuffle, used only when subsampling the potential, is such a state). Ids must lie within the ranges of the next snapshot; finding: an id below the first range breaks the equivalence.")
claim("C42","proved","C42_line C42_value C42_no_value C42_id_line C42_unknown C42_accepted C42_compulsory C42_values C42_initialised C42_comments C42_blank_lines C42_complete C42_derived C42_no_value_refuted C42_true_refuted C42_crlf_refuted","For every configuration text: the effect of a line, the values read, rejection of unknown names, comments, the conditions of acceptance and the value each parameter ends with. Findings: a compulsory name without a value counts as set and leaves the member uninitialised; the word 'true' reads as false; a blank line with a carriage return is rejected. Conversion of reals is an oracle.")
claim("C57","proved","C57_broadcast C57_start C57_range","Every member of Parameter_t, the two constants and the range of snapshots, for every number of processes and any previous content; names are single words by the reader, so the line-wise transport keeps them.")
claim("C58","proved","C58_round_trip C58_of_parsed C58_precision_refuted C58_mask_refuted","For every accepted file without uninitialised members, with a non-negative mask, and a printer of reals that prints one word. Reals come back as printed; the code prints six digits, so exact equality needs values with no more (finding). A negative mask is printed unsigned and does not come back (finding).")
claim("C19","proved","C19_assembled C19_large_id_stops C19_null_id_refuted","For every number of processes, distribution of files, group numbers up to NullGroupId = 2^30, processor grid and any sorted permutation returned by the five sorts. Groups with numbers in [0, 2^30) are each on one process, once, with exactly their particles. Finding: the number 2^30 itself is a legal non-negative id but its group is dropped, and larger numbers fail the assertion.")
claim("C59","proved","C59_halos_updated_and_distributed","For every number of processes, distribution, chunk size, root estimate and any sorted permutation returned by the three sorts, with ids of halo particles inside the published ranges (what happens otherwise is C17). The averages are an uninterpreted function of particles and old shell. When the groups were loaded with full particle data the code skips all this (src/halo.cpp:61).")
claim("C60","proved","C60_reported","For every process of every history: host id, track, particles, sink, history and nested tracks of each reported subhalo. That the step ends is C28_no_crash.")
claim("C61","proved","C61_whole_runs C61_restarted_runs","About the composition of all modelled stages (Model/Program.v): loading and exchange of particles, update of subhalos and halos, host finding, centrals, nests, unbinding, merging, tracks, saving. Valid input is spelled out in Spec/Program.v: at least as many particles as processes, distinct non-negative ids, no ids outside those of the next snapshot, group members inside the ids of their snapshot, non-negative masses. The readers are input (their outputs are given); numerical functions are arbitrary oracles. Builds with NO_STRIPPING and INCLUSIVE_MASS are included (fields g_strip, g_inclusive).")
claim("C62","proved","C62_ownership C62_merging_refuted C62_vanishing_refuted C62_hosts_refuted","For whole runs (Model/Program.v) of builds without INCLUSIVE_MASS, under the valid input of C61 plus tidy_input (Spec/Ownership.v). Findings: a merged subhalo hands over particles already given to its host, so that two subhalos hold them; when bound particles vanish from the snapshots the central can list particles twice and count their mass twice; subhalos of different hosts can share particles.")
claim("C63","proved","C63_wrapped_in_floating_point","IEEE arithmetic with round-to-nearest-even (Coq's SpecFloat, proved through Flocq) for any format. Uses the axioms of the standard library's real numbers.")
claim("C64","proved","C64_gadget_loaded C64_empty_first_file_refuted C64_no_gas_refuted C64_no_masses_refuted","Byte-level model of the reader against an independent encoder; floating-point numbers are kept as their bytes under an arbitrary decoder. Exceptions proved beside it.")
claim("C65","proved","C65_group_files_loaded C65_single_numbered_refuted C65_unsigned_ids_refuted","Byte-level model of the reader against an independent encoder, composed with C20. Exceptions proved beside it. From 65536 files on the byte order can be ambiguous: left out.")
claim("C66","proved","C66_counts C66_types C66_agree C66_consumed_refuted C66_restored_order_refuted","Without DM_ONLY. In whole runs on tidy input without vanishing particles Mbound is the mass of the bound particles by C62.")
claim("C67","proved","C67_mean_position C67_any_order C67_mean_velocity C67_coordinates C67_core C67_wide_refuted C67_outside_refuted","Exact arithmetic; the roots of the dispersions are not taken. Images less than half a box apart, as the comment on NEAREST in the code asks for.")
claim("C68","proved","C68_kinematics C68_shape C68_coincident_refuted","Exact arithmetic; the eigenvectors (HAS_GSL) are not modelled.")
claim("C69","proved","C69_snapshot C69_groups C69_missing_group_refuted C69_missing_dataset_refuted C69_ids_refuted C69_unsigned_ids_refuted","HDF5 is not modelled below attributes and datasets. The mass table is that of the first file and must be the same in all files. The header counts must agree with the datasets. C69_groups builds on C19.")
claim("C70","proved","C70_catalogues C70_gadget C70_apostle C70_apostle_listed C70_ids C70_listed_names C70_names_and_ids_refuted","Names longer than the buffer of GetGadgetFileName (1024) are not modelled.")
claim("C71","partial","C71_particles_kept C71_most_bound_partial C71_most_bound_lost C71_most_bound_refuted C71_unbound_leader_refuted","The claim is false of the code: the loop only stops at a particle other than the first, so an unmasked first particle is always exchanged with the next unmasked one (C71_most_bound_lost, C71_most_bound_refuted). Missing: nothing but a corrected loop.")
claim("C72","proved","C72_structures_arrive C72_legal C72_gadget_totals_refuted C72_subhalo_refuted C72_apostle_refuted","Sizes of the usual 64-bit systems; the layout is arbitrary. A transfer copies the registered bytes (homogeneous machines).")
claim("C73","proved","C73_density C73_zero_guess_refuted C73_few_particles_refuted C73_reuse_refuted","Exact arithmetic but for the roots. Fewer than one neighbour makes the code read before the vector (Crash in the model).")
claim("C74","proved","C74_catalogue_fields C74_read_back","HDF5 is described by the rules of its manual (H5Tinsert, H5Tpack, matching of members by name); its conversion of numbers between sizes is any function.")
claim("C75","proved","C75_ids_survive C75_negative_ids_refuted C75_short_ids_refuted","HDF5 clips numbers out of range; little-endian machines for the misread without HBT_INT8.")
claim("C76","proved","C76_expansion C76_factors C76_sizes C76_units C76_reload","Real numbers of the standard library (exact, three of its axioms); rounding is not modelled, nor NaN for a cosmology whose Friedmann equation is negative.")
claim("C77","proved","C77_iterative_size C77_brute_force_size C77_same_size C77_empty_refuted C77_edge_refuted C77_many_refuted","Real numbers of the standard library; SphericalOverdensitySize2 is called nowhere in the repository.")
claim("C78","proved","C78_load C78_get_sub C78_get_track C78_init C78_number_of_files_refuted C78_number_of_subhalos_refuted C78_negative_index_refuted","h5py and numpy indexing are trusted to do what their manuals say; ConfigReader is not modelled.")
claim("C79","proved","C79_exclusive C79_partition C79_periodic_distance","Exact rationals for the distance; the square root is not taken.")
claim("C80","proved","C80_energies_of_particles C80_averaged_particles C80_fixed_energies C80_disrupted_refuted C80_promotion_refuted","Energies are an oracle as in C33-C37; conversion of energies to float in the file is not modelled.")
claim("C81","proved","C81_precision C81_precision_accuracy C81_room C81_room_accuracy C81_unbinding C81_room_for_one_refuted","Counts are unbounded integers: the conversion of a product beyond the range of HBTInt is not modelled.")
claim("C82","proved","C82_all_to_all C82_all_to_all_2047 C82_all_to_all_refuted C82_bcast C82_redistribution C82_redistribution_refuted C82_container C82_container_refuted","Particle ids and the number of passes are unbounded; MPI's own limits are not modelled.")
claim("C83","proved","C83_criterion C83_defined C83_bounds C83_frames C83_sinking C83_cold_core_refuted","Exact arithmetic; the specification uses real square roots, the model decides by squaring. The core must have images within half a box.")
claim("C84","proved","C84_kinetic_distance C84_frames C84_central C84_half_box_refuted","Exact arithmetic; the comparison is of squares.")
claim("C85","proved","C85_nothing_stripped C85_small C85_work C85_run","The loop of the build is shown to be the loop with stripping in which every energy counts as negative; whole runs of either build are covered by the field g_strip (C61, C62).")
claim("C86","proved","C86_alone C86_order C86_work","The work on one snapshot; PurgeMostBoundParticles is C71, whole runs of this build are C61 and C90.")
claim("C87","proved","C87_level C87_mask C87_refine C87_merge C87_flag_refuted","Reads and writes are atomic steps in any interleaving; a cell is a subhalo in the loops that walk through nests and a field in FillHostTrackIds and DetectTraps. C87_flag_refuted shows the exception (a data race by the letter of C++, of two writes of true). FeedCentrals and UpdateTracks: C88. Not covered at this level: the loops that fill tables and those over particles.")
claim("C88","proved","C88_feed C88_raise C88_update","Reads and writes are atomic steps in any interleaving. A cell is a subhalo or a halo; in GlobalizeTrackReferences, where turns read the track numbers of other subhalos, a cell is a single number. The critical section of FeedCentrals is one step. PurgeMostBoundParticles is in C89; the loops over particles are not covered at this level.")
claim("C89","proved","C89_flat_fill C89_same_id_race C89_merge_lists C89_purge C89_glue","Reads and writes are atomic steps in any interleaving. A cell is an element of the table, of the arrays HOC and List of the whole list and of the lists of the threads, or a subhalo or stored size. The reductions for the smallest and largest key are not covered at this level.")
claim("C90","proved","C90_update C90_inclusive_runs C90_ownership_refuted","For whole runs (Model/Program.v with g_inclusive) under the valid input of C61 with tidy groups; particles may vanish. That such runs end and what is in their catalogues is C61. The refuted theorem shows that C62 fails for these builds: mass and listed bound particles disagree.")
claim("C91","proved","C91_run C91_nest C91_update C91_numbering_refuted","For whole runs (Model/Program.v) under the valid input of C61: the run with another schedule (Spec/Schedule.v reschedule) equals the given one in disk and catalogue. Loops are orders of atomic iterations, justified by C87, C88 and C89; the sorts, the shuffles and the numerical functions are those of the given run (in the code random_shuffle draws from one generator shared by the threads, and sums with omp reduction round in an order that varies; DESIGN.md section 6). The refuted theorem shows that the order in FeedCentrals changes the track ids.")
claim("C92","proved","C92_combined","For whole runs (Model/Program.v) under the valid input of C61 and the files as in Model/Catalogue.v. Cosmology, NumberOfNewSubhalos and NumberOfFakeHalos are not modelled.")
claim("C93","proved","C93_lists C93_bad_name","The file system and the parsing of names are arbitrary functions; sorted and np.unique are any functions with the documented behaviour (Spec/SnapshotList.v). Redshifts are only compared and are not NaN.")
claim("C94","proved","C94_selects","Elements are integers in the same order as the floats, without NaN (a NaN makes the unbounded scans unsafe or the result meaningless). psort is defined in mymath.cpp and called nowhere in the pinned commit.")
claim("C95","proved","C95_log C95_seconds C95_interval","Times are integers in units of the clock; the conversion to seconds and the rounding to one decimal place are not modelled, nor is the barrier in Tick(comm).")
claim("C96","proved","C96_axes C96_amplitude_refuted","Real numbers instead of floats. gsl_eigen_symmv and gsl_eigen_symmv_sort are any functions with the documented behaviour (Spec/Eigen.v), required of the solver only for the two tensors in question. Uses the axioms of the standard library's real numbers.")
