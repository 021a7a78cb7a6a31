# What `Print Assumptions` lists for every theorem

Written by `tools/assumptions.py` after a build. All axioms below are from Coq's standard library.

## Closed under the global context (no axioms)

* `C01_assign_tasks_tile` (PropsMymath.v)
* `C02_offsets_are_prefix_sums` (PropsMymath.v)
* `C03_swap_involutive` (PropsMymath.v)
* `C03_swap_reverses_elements` (PropsMymath.v)
* `C04_rank_in_range` (PropsMymath.v)
* `C04_rank_is_cell_number` (PropsMymath.v)
* `C04_same_rank_iff_same_cell` (PropsMymath.v)
* `C05_factors_multiply` (PropsMymath.v)
* `C06_fortran_read_exact` (PropsMymath.v)
* `C06_marker_mismatch_rejected` (PropsMymath.v)
* `C06_overlong_request_refuted` (PropsMymath.v)
* `C06_skip_block` (PropsMymath.v)
* `C07_axis_triangle` (PropsMymath.v)
* `C07_distance_minimal` (PropsMymath.v)
* `C07_distance_triangle` (PropsMymath.v)
* `C07_minimum_image` (PropsMymath.v)
* `C08_position_modulus_float_refuted` (PropsMymath.v)
* `C08_position_modulus_partial` (PropsMymath.v)
* `C09_answer_unique` (PropsHash.v)
* `C09_flat_lookup` (PropsHash.v)
* `C09_mapped_lookup` (PropsHash.v)
* `C09_mapped_lookup_negative_keys` (PropsHash.v)
* `C09_negative_keys_disagree_refuted` (PropsHash.v)
* `C09_tables_agree` (PropsHash.v)
* `C10_batch_answers` (PropsHash.v)
* `C10_batch_equals_single` (PropsHash.v)
* `C10_flat_batch` (PropsHash.v)
* `C11_fewer_particles_than_processes_refuted` (PropsExchange.v)
* `C11_redistribution` (PropsExchange.v)
* `C12_duplicates_never_stop` (PropsExchange.v)
* `C12_stride_terminates_exact` (PropsExchange.v)
* `C13_all_to_all_delivers` (PropsMpi.v)
* `C14_bcast_delivers` (PropsMpi.v)
* `C15_line_break_refuted` (PropsMpi.v)
* `C15_strings_synchronised` (PropsMpi.v)
* `C16_duplicate_targets_never_stop` (PropsQuery.v)
* `C16_restore_order` (PropsQuery.v)
* `C17_id_beyond_ranges_refuted` (PropsQuery.v)
* `C17_ids_below_the_ranges_keep_their_record` (PropsQuery.v)
* `C17_missing_below_ranges_refuted` (PropsQuery.v)
* `C17_missing_particles_removed` (PropsQuery.v)
* `C17_query_updates_in_place` (PropsQuery.v)
* `C17_ranges_from_redistribution` (PropsQuery.v)
* `C18_halo_removal` (PropsQuery.v)
* `C18_subhalo_removal` (PropsQuery.v)
* `C19_assembled` (PropsApostle.v)
* `C19_large_id_stops` (PropsApostle.v)
* `C19_null_id_refuted` (PropsApostle.v)
* `C20_each_halo_once` (PropsGroups.v)
* `C20_few_particles_refuted` (PropsGroups.v)
* `C20_mismatch_rejected` (PropsGroups.v)
* `C21_membership_table` (PropsMembers.v)
* `C21_missing_particle_host_refuted` (PropsMembers.v)
* `C22_hosts` (PropsHosts.v)
* `C22_tables` (PropsHosts.v)
* `C22_unknown_particle_refuted` (PropsHosts.v)
* `C23_central_is_best` (PropsMembers.v)
* `C24_centrals_fed` (PropsMembers.v)
* `C25_ids_persist` (PropsTracks.v)
* `C25_track_ids_contiguous` (PropsTracks.v)
* `C26_history_fields` (PropsTracks.v)
* `C26_unregistered_untouched` (PropsTracks.v)
* `C27_heads_of_hosts` (PropsNest.v)
* `C27_links_kept` (PropsNest.v)
* `C27_nesting_is_forest` (PropsNest.v)
* `C27_no_crash` (PropsNest.v)
* `C28_central_covers_group` (PropsNest.v)
* `C28_central_unique` (PropsNest.v)
* `C28_field_depth_refuted` (PropsNest.v)
* `C28_no_crash` (PropsNest.v)
* `C29_glue_covers` (PropsNest.v)
* `C29_glue_unglue` (PropsNest.v)
* `C30_global_and_back` (PropsNest.v)
* `C30_globalize` (PropsNest.v)
* `C30_globalize_fields` (PropsNest.v)
* `C30_local_and_back` (PropsNest.v)
* `C31_masking` (PropsMask.v)
* `C32_partition` (PropsUnbind.v)
* `C33_exact_precision` (PropsUnbind.v)
* `C33_precision_above_one_refuted` (PropsUnbind.v)
* `C33_unbinding_ends` (PropsUnbind.v)
* `C34_unbinding_permutes` (PropsUnbind.v)
* `C35_bound_order` (PropsUnbind.v)
* `C35_fixed_energies` (PropsUnbind.v)
* `C36_death_snapshot` (PropsUnbind.v)
* `C36_marks` (PropsUnbind.v)
* `C37_refine` (PropsUnbind.v)
* `C38_truncation` (PropsUnbind.v)
* `C39_trapping` (PropsMerge.v)
* `C40_merged_remains` (PropsMerge.v)
* `C40_merging` (PropsMerge.v)
* `C41_mismatch_reported` (PropsCatalogue.v)
* `C41_other_files` (PropsCatalogue.v)
* `C41_reload` (PropsCatalogue.v)
* `C41_same_processes` (PropsCatalogue.v)
* `C41_torn_save_refuted` (PropsCatalogue.v)
* `C42_accepted` (PropsConfig.v)
* `C42_blank_lines` (PropsConfig.v)
* `C42_comments` (PropsConfig.v)
* `C42_complete` (PropsConfig.v)
* `C42_compulsory` (PropsConfig.v)
* `C42_crlf_refuted` (PropsConfig.v)
* `C42_derived` (PropsConfig.v)
* `C42_id_line` (PropsConfig.v)
* `C42_initialised` (PropsConfig.v)
* `C42_line` (PropsConfig.v)
* `C42_no_value` (PropsConfig.v)
* `C42_no_value_refuted` (PropsConfig.v)
* `C42_true_refuted` (PropsConfig.v)
* `C42_unknown` (PropsConfig.v)
* `C42_value` (PropsConfig.v)
* `C42_values` (PropsConfig.v)
* `C43_auto_range` (PropsLink.v)
* `C43_build` (PropsLink.v)
* `C43_parallel_build` (PropsLink.v)
* `C43_parallel_same_chains` (PropsLink.v)
* `C43_range_covers` (PropsLink.v)
* `C44_auto_range_refuted` (PropsLink.v)
* `C44_cylinder` (PropsLink.v)
* `C44_shell` (PropsLink.v)
* `C44_shell_inclusive_refuted` (PropsLink.v)
* `C44_sphere` (PropsLink.v)
* `C44_threads` (PropsLink.v)
* `C44_threads_built` (PropsLink.v)
* `C44_wide_search_refuted` (PropsLink.v)
* `C45_few_particles_refuted` (PropsLink.v)
* `C45_groups` (PropsLink.v)
* `C46_every_particle_once` (PropsTree.v)
* `C46_geometric_tree` (PropsTree.v)
* `C46_gravity_tree` (PropsTree.v)
* `C46_terminates` (PropsTree.v)
* `C46_zero_resolution_refuted` (PropsTree.v)
* `C47_direct_sum` (PropsTree.v)
* `C47_items_cover` (PropsTree.v)
* `C47_potential` (PropsTree.v)
* `C48_search` (PropsTree.v)
* `C49_nearest_neighbour_partial` (PropsTree.v)
* `C49_nearest_neighbour_refuted` (PropsTree.v)
* `C50_concatenation` (PropsIter.v)
* `C50_from_here` (PropsIter.v)
* `C51_low_id_refuted` (PropsCatalogue.v)
* `C51_restart` (PropsCatalogue.v)
* `C52_equal_masses` (PropsProfile.v)
* `C52_outermost` (PropsProfile.v)
* `C52_stale_refuted` (PropsProfile.v)
* `C53_correction` (PropsFrames.v)
* `C53_exact` (PropsFrames.v)
* `C53_refines` (PropsFrames.v)
* `C53_sampled` (PropsFrames.v)
* `C53_stale_frame_refuted` (PropsFrames.v)
* `C54_work` (PropsMerge.v)
* `C55_averages` (PropsFrames.v)
* `C56_peak` (PropsProfile.v)
* `C56_profile` (PropsProfile.v)
* `C57_broadcast` (PropsConfig.v)
* `C57_range` (PropsConfig.v)
* `C57_start` (PropsConfig.v)
* `C58_mask_refuted` (PropsConfig.v)
* `C58_of_parsed` (PropsConfig.v)
* `C58_precision_refuted` (PropsConfig.v)
* `C58_round_trip` (PropsConfig.v)
* `C59_halos_updated_and_distributed` (PropsHaloUpdate.v)
* `C60_reported` (PropsReport.v)
* `C61_restarted_runs` (PropsProgram.v)
* `C61_whole_runs` (PropsProgram.v)
* `C62_hosts_refuted` (PropsOwnership.v)
* `C62_merging_refuted` (PropsOwnership.v)
* `C62_ownership` (PropsOwnership.v)
* `C62_vanishing_refuted` (PropsOwnership.v)
* `C64_empty_first_file_refuted` (PropsGadget.v)
* `C64_gadget_loaded` (PropsGadget.v)
* `C64_no_gas_refuted` (PropsGadget.v)
* `C64_no_masses_refuted` (PropsGadget.v)
* `C65_group_files_loaded` (PropsGroupFiles.v)
* `C65_single_numbered_refuted` (PropsGroupFiles.v)
* `C65_unsigned_ids_refuted` (PropsGroupFiles.v)
* `C66_agree` (PropsCounts.v)
* `C66_consumed_refuted` (PropsCounts.v)
* `C66_counts` (PropsCounts.v)
* `C66_restored_order_refuted` (PropsCounts.v)
* `C66_types` (PropsCounts.v)
* `C67_any_order` (PropsMeans.v)
* `C67_coordinates` (PropsMeans.v)
* `C67_core` (PropsMeans.v)
* `C67_mean_position` (PropsMeans.v)
* `C67_mean_velocity` (PropsMeans.v)
* `C67_outside_refuted` (PropsMeans.v)
* `C67_wide_refuted` (PropsMeans.v)
* `C68_coincident_refuted` (PropsMeans.v)
* `C68_kinematics` (PropsMeans.v)
* `C68_shape` (PropsMeans.v)
* `C69_groups` (PropsApostleFiles.v)
* `C69_ids_refuted` (PropsApostleFiles.v)
* `C69_missing_dataset_refuted` (PropsApostleFiles.v)
* `C69_missing_group_refuted` (PropsApostleFiles.v)
* `C69_snapshot` (PropsApostleFiles.v)
* `C69_unsigned_ids_refuted` (PropsApostleFiles.v)
* `C70_apostle` (PropsFileNames.v)
* `C70_apostle_listed` (PropsFileNames.v)
* `C70_catalogues` (PropsFileNames.v)
* `C70_gadget` (PropsFileNames.v)
* `C70_ids` (PropsFileNames.v)
* `C70_listed_names` (PropsFileNames.v)
* `C70_names_and_ids_refuted` (PropsFileNames.v)
* `C71_most_bound_lost` (PropsPurge.v)
* `C71_most_bound_partial` (PropsPurge.v)
* `C71_most_bound_refuted` (PropsPurge.v)
* `C71_particles_kept` (PropsPurge.v)
* `C71_unbound_leader_refuted` (PropsPurge.v)
* `C72_apostle_refuted` (PropsMpiTypes.v)
* `C72_gadget_totals_refuted` (PropsMpiTypes.v)
* `C72_legal` (PropsMpiTypes.v)
* `C72_structures_arrive` (PropsMpiTypes.v)
* `C72_subhalo_refuted` (PropsMpiTypes.v)
* `C73_density` (PropsSph.v)
* `C73_few_particles_refuted` (PropsSph.v)
* `C73_reuse_refuted` (PropsSph.v)
* `C73_zero_guess_refuted` (PropsSph.v)
* `C74_catalogue_fields` (PropsHdfTypes.v)
* `C74_read_back` (PropsHdfTypes.v)
* `C75_ids_survive` (PropsHdfTypes.v)
* `C75_negative_ids_refuted` (PropsHdfTypes.v)
* `C75_short_ids_refuted` (PropsHdfTypes.v)
* `C77_empty_refuted` (PropsCosmology.v)
* `C78_get_sub` (PropsReader.v)
* `C78_get_track` (PropsReader.v)
* `C78_init` (PropsReader.v)
* `C78_load` (PropsReader.v)
* `C78_negative_index_refuted` (PropsReader.v)
* `C78_number_of_files_refuted` (PropsReader.v)
* `C78_number_of_subhalos_refuted` (PropsReader.v)
* `C79_exclusive` (PropsReader.v)
* `C79_partition` (PropsReader.v)
* `C79_periodic_distance` (PropsReader.v)
* `C80_averaged_particles` (PropsEnergies.v)
* `C80_disrupted_refuted` (PropsEnergies.v)
* `C80_energies_of_particles` (PropsEnergies.v)
* `C80_fixed_energies` (PropsEnergies.v)
* `C80_promotion_refuted` (PropsEnergies.v)
* `C82_all_to_all` (PropsIntCounts.v)
* `C82_all_to_all_2047` (PropsIntCounts.v)
* `C82_all_to_all_refuted` (PropsIntCounts.v)
* `C82_bcast` (PropsIntCounts.v)
* `C82_container` (PropsIntCounts.v)
* `C82_container_refuted` (PropsIntCounts.v)
* `C82_redistribution` (PropsIntCounts.v)
* `C82_redistribution_refuted` (PropsIntCounts.v)
* `C83_cold_core_refuted` (PropsSink.v)
* `C84_frames` (PropsSink.v)
* `C84_half_box_refuted` (PropsSink.v)
* `C84_kinetic_distance` (PropsSink.v)
* `C85_nothing_stripped` (PropsVariants.v)
* `C85_run` (PropsVariants.v)
* `C85_small` (PropsVariants.v)
* `C85_work` (PropsVariants.v)
* `C86_alone` (PropsInclusive.v)
* `C86_order` (PropsInclusive.v)
* `C86_work` (PropsInclusive.v)
* `C87_flag_refuted` (PropsThreads.v)
* `C87_level` (PropsThreads.v)
* `C87_mask` (PropsThreads.v)
* `C87_merge` (PropsThreads.v)
* `C87_refine` (PropsThreads.v)
* `C88_feed` (PropsThreads2.v)
* `C88_raise` (PropsThreads2.v)
* `C88_update` (PropsThreads2.v)
* `C89_flat_fill` (PropsTableThreads.v)
* `C89_glue` (PropsTableThreads.v)
* `C89_merge_lists` (PropsTableThreads.v)
* `C89_purge` (PropsTableThreads.v)
* `C89_same_id_race` (PropsTableThreads.v)
* `C90_inclusive_runs` (PropsInclusiveRun.v)
* `C90_ownership_refuted` (PropsInclusiveRun.v)
* `C90_update` (PropsInclusiveRun.v)
* `C91_nest` (PropsSchedule.v)
* `C91_numbering_refuted` (PropsSchedule.v)
* `C91_run` (PropsSchedule.v)
* `C91_update` (PropsSchedule.v)
* `C92_combined` (PropsCombine.v)
* `C93_bad_name` (PropsSnapshotList.v)
* `C93_lists` (PropsSnapshotList.v)
* `C94_selects` (PropsPartitionSort.v)
* `C95_interval` (PropsTiming.v)
* `C95_log` (PropsTiming.v)
* `C95_seconds` (PropsTiming.v)

## `ClassicalDedekindReals.sig_forall_dec`, `ClassicalDedekindReals.sig_not_dec`, `Classical_Prop.classic`, `FunctionalExtensionality.functional_extensionality_dep`

* `C63_wrapped_in_floating_point` (PropsFloat.v)
* `C76_factors` (PropsCosmology.v)
* `C76_sizes` (PropsCosmology.v)
* `C77_brute_force_size` (PropsCosmology.v)
* `C77_edge_refuted` (PropsCosmology.v)
* `C77_iterative_size` (PropsCosmology.v)
* `C77_many_refuted` (PropsCosmology.v)
* `C77_same_size` (PropsCosmology.v)
* `C81_precision` (PropsUnbindFloat.v)
* `C81_precision_accuracy` (PropsUnbindFloat.v)
* `C81_room` (PropsUnbindFloat.v)
* `C81_room_accuracy` (PropsUnbindFloat.v)
* `C81_unbinding` (PropsUnbindFloat.v)

## `ClassicalDedekindReals.sig_forall_dec`, `ClassicalDedekindReals.sig_not_dec`, `FunctionalExtensionality.functional_extensionality_dep`

* `C76_expansion` (PropsCosmology.v)
* `C76_reload` (PropsCosmology.v)
* `C76_units` (PropsCosmology.v)
* `C83_bounds` (PropsSink.v)
* `C83_criterion` (PropsSink.v)
* `C83_defined` (PropsSink.v)
* `C83_frames` (PropsSink.v)
* `C83_sinking` (PropsSink.v)
* `C84_central` (PropsSink.v)
* `C96_amplitude_refuted` (PropsEigen.v)
* `C96_axes` (PropsEigen.v)

## `ClassicalDedekindReals.sig_forall_dec`, `FunctionalExtensionality.functional_extensionality_dep`

* `C81_room_for_one_refuted` (PropsUnbindFloat.v)
