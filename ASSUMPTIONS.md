# Print Assumptions, per theorem

Generated by tools/gen_assumptions.py from the theorems of MANIFEST.json.

## Closed under the global context (no axioms)

* C01_add_one_always_safe (Properties_Store.v)
* C01_bulk_add_refuted (Properties_Store.v)
* C01_bulk_add_safe_iff (Properties_Store.v)
* C01_reserve (Properties_Store.v)
* C01_storage_bounds_partial (Properties_Store.v)
* C02_after_unpack_refuted (Properties_Buffer.v)
* C02_lookup_after_reserve_refuted (Properties_Store.v)
* C02_lookup_after_shift_refuted (Properties_Store.v)
* C02_lookup_exact_partial (Properties_Store.v)
* C02_shift_partial (Properties_Store.v)
* C03_after_correction_refuted (Properties_Store.v)
* C03_ids_never_reused (Properties_Store.v)
* C04_nothing_marked (Properties_Store.v)
* C04_remove_all_refuted (Properties_Store.v)
* C04_removes_exactly_marked_partial (Properties_Store.v)
* C05_invalid_id_refuted (Properties_Store.v)
* C05_mark_idempotent_and_local (Properties_Store.v)
* C05_order_irrelevant (Properties_Store.v)
* C06_sort_along_x_partial (Properties_Store.v)
* C06_sort_order_refuted (Properties_Store.v)
* C06_sort_permutes_partial (Properties_Store.v)
* C07_migration_round_trip_partial (Properties_Buffer.v)
* C07_repeated_id_refuted (Properties_Buffer.v)
* C07_stale_width_refuted (Properties_Buffer.v)
* C08_five_dimensions_refuted (Properties_Buffer.v)
* C08_ghost_update_partial (Properties_Buffer.v)
* C08_omega_not_registered_refuted (Properties_Buffer.v)
* C09_added_with_data_refuted (Properties_Store.v)
* C09_ids_unique_across_processors_partial (Properties_Store.v)
* C09_removal_before_refuted (Properties_Store.v)
* C101_own_pairs_partial (Properties_GhostPairs.v)
* C102_exact_cells_refuted (Properties_GhostPairs.v)
* C102_ghost_pairs_partial (Properties_GhostPairs.v)
* C102_stencil_filter_refuted (Properties_GhostPairs.v)
* C102_types_partial (Properties_GhostPairs.v)
* C102_types_refuted (Properties_GhostPairs.v)
* C103_across_processors_partial (Properties_GhostPairs.v)
* C103_small_next_to_large_refuted (Properties_GhostPairs.v)
* C104_delay_partial (Properties_Sync.v)
* C104_delay_range_partial (Properties_Sync.v)
* C104_no_particles_refuted (Properties_Sync.v)
* C104_one_processor (Properties_Sync.v)
* C104_own_flag_refuted (Properties_Sync.v)
* C104_together_partial (Properties_Sync.v)
* C104_when_partial (Properties_Sync.v)
* C105_cell_size_partial (Properties_Sync.v)
* C105_no_particles_refuted (Properties_Sync.v)
* C105_skin_set_partial (Properties_Sync.v)
* C106_defined_partial (Properties_Bmp.v)
* C106_layout (Properties_Bmp.v)
* C106_too_large_refuted (Properties_Bmp.v)
* C107_clamped (Properties_Bmp.v)
* C107_made (Properties_Bmp.v)
* C107_offset_refuted (Properties_Bmp.v)
* C107_other_files (Properties_Bmp.v)
* C107_read_back (Properties_Bmp.v)
* C107_truncated_refuted (Properties_Bmp.v)
* C108_cover (Properties_Palette.v)
* C108_cover_again (Properties_Palette.v)
* C108_inside (Properties_Palette.v)
* C108_shown (Properties_Palette.v)
* C109_circle_partial (Properties_Palette.v)
* C109_large_refuted (Properties_Palette.v)
* C109_no_bounds_refuted (Properties_Palette.v)
* C109_wrapped_depth_refuted (Properties_Palette.v)
* C10_add_existing_name_refuted (Properties_Buffer.v)
* C10_integer_by_name_refuted (Properties_Buffer.v)
* C10_requests_partial (Properties_Buffer.v)
* C110_centered_partial (Properties_Palette.v)
* C110_larger_refuted (Properties_Palette.v)
* C110_max_partial (Properties_Palette.v)
* C110_max_refuted (Properties_Palette.v)
* C110_rows_refuted (Properties_Palette.v)
* C110_sub_partial (Properties_Palette.v)
* C111_line (Properties_Palette.v)
* C111_mixed_refuted (Properties_Palette.v)
* C111_reverse (Properties_Palette.v)
* C111_steep (Properties_Palette.v)
* C112_leak_refuted (Properties_Palette.v)
* C112_not_deleted (Properties_Palette.v)
* C112_released_partial (Properties_Palette.v)
* C113_flat_refuted (Properties_Picture.v)
* C113_picture_partial (Properties_Picture.v)
* C113_region_partial (Properties_Picture.v)
* C113_wide_refuted (Properties_Picture.v)
* C114_option_partial (Properties_Picture.v)
* C114_positions (Properties_Picture.v)
* C114_radius_refuted (Properties_Picture.v)
* C114_stale_refuted (Properties_Picture.v)
* C114_values (Properties_Picture.v)
* C115_average_refuted (Properties_Picture.v)
* C115_bank (Properties_Picture.v)
* C115_bank_all (Properties_Picture.v)
* C115_equal_refuted (Properties_Picture.v)
* C115_scales_partial (Properties_Picture.v)
* C115_stripes (Properties_Picture.v)
* C115_value_partial (Properties_Picture.v)
* C116_first_run_partial (Properties_Rerun.v)
* C116_resets_partial (Properties_Rerun.v)
* C116_second_run_refuted (Properties_Rerun.v)
* C11_all_bad_refuted (Properties_Store.v)
* C11_already_marked_refuted (Properties_Store.v)
* C11_bad_particles_marked (Properties_Store.v)
* C11_bad_particles_removed_partial (Properties_Store.v)
* C11_nan_force_refuted (Properties_Store.v)
* C120_below_refuted (Properties_Stats.v)
* C120_counts_partial (Properties_Stats.v)
* C120_force_label_refuted (Properties_Stats.v)
* C120_labels_partial (Properties_Stats.v)
* C120_one_bin (Properties_Stats.v)
* C121_again_refuted (Properties_Stats.v)
* C121_file_partial (Properties_Stats.v)
* C121_find_partial (Properties_Stats.v)
* C122_build (Properties_Report.v)
* C122_missing (Properties_Report.v)
* C122_rectangular (Properties_Report.v)
* C122_table (Properties_Report.v)
* C123_time (Properties_Report.v)
* C124_delay (Properties_Report.v)
* C124_frames_partial (Properties_Report.v)
* C124_start_refuted (Properties_Report.v)
* C127_counts_partial (Properties_Field.v)
* C127_dimensions_refuted (Properties_Field.v)
* C127_file_refuted (Properties_Field.v)
* C127_files_partial (Properties_Field.v)
* C127_speed_refuted (Properties_Field.v)
* C128_arguments (Properties_Collective.v)
* C129_failure_partial (Properties_Collective.v)
* C129_open_refuted (Properties_Collective.v)
* C129_run_refuted (Properties_Collective.v)
* C129_success_partial (Properties_Collective.v)
* C12_displacement_component (Properties_Geometry.v)
* C12_distance_is_an_image (Properties_Geometry.v)
* C12_distance_is_minimal (Properties_Geometry.v)
* C12_kernels_agree (Properties_Geometry.v)
* C12_outside_the_box_refuted (Properties_Geometry.v)
* C130_energy_refuted (Properties_Summary.v)
* C130_extremes_partial (Properties_Summary.v)
* C130_first_refuted (Properties_Summary.v)
* C130_ghosts_refuted (Properties_Summary.v)
* C130_means_partial (Properties_Summary.v)
* C130_numbers_partial (Properties_Summary.v)
* C130_quantities (Properties_Summary.v)
* C130_removed_refuted (Properties_Summary.v)
* C137_lists_are_young_partial (Properties_Steps.v)
* C138_constant_velocities (Properties_Steady.v)
* C138_no_search_comes_too_late (Properties_Steady.v)
* C13_displacement_antisymmetric (Properties_Geometry.v)
* C13_distance_is_length_of_displacement (Properties_Geometry.v)
* C13_distance_symmetric (Properties_Geometry.v)
* C143_averages_partial (Properties_Records.v)
* C143_nothing_refuted (Properties_Records.v)
* C143_processors_refuted (Properties_Records.v)
* C143_removed_ignored (Properties_Records.v)
* C144_average (Properties_Records.v)
* C144_bonds (Properties_Records.v)
* C144_bonds_mean_partial (Properties_Records.v)
* C144_bonds_removed_refuted (Properties_Records.v)
* C144_boundary_force (Properties_Records.v)
* C145_empty_refuted (Properties_Records.v)
* C145_sizes_partial (Properties_Records.v)
* C145_skin_refuted (Properties_Records.v)
* C146_length_partial (Properties_Records.v)
* C146_length_refuted (Properties_Records.v)
* C146_line_partial (Properties_Records.v)
* C146_processors_refuted (Properties_Records.v)
* C148_moved_refuted (Properties_NetForce.v)
* C148_recorded (Properties_NetForce.v)
* C148_total_partial (Properties_NetForce.v)
* C149_data_stays_partial (Properties_Stripe.v)
* C149_never_fails (Properties_Stripe.v)
* C149_stripe_is_first_height_partial (Properties_Stripe.v)
* C14_idempotent_refuted (Properties_Geometry.v)
* C14_wrap (Properties_Geometry.v)
* C14_wrap_halfopen_idempotent_partial (Properties_Geometry.v)
* C150_bonds_never_fail_partial (Properties_Bonds.v)
* C150_bonds_partial (Properties_Bonds.v)
* C150_chain_first_atom_refuted (Properties_Bonds.v)
* C150_chain_never_fails_partial (Properties_Bonds.v)
* C150_chain_partial (Properties_Bonds.v)
* C150_late_sort_refuted (Properties_Bonds.v)
* C150_own_loop_partial (Properties_Bonds.v)
* C150_pulls_to_removed_refuted (Properties_Bonds.v)
* C150_removed_refuted (Properties_Bonds.v)
* C15_far_particle_refuted (Properties_Geometry.v)
* C15_inbound_velocity_refuted (Properties_Geometry.v)
* C15_reflect_partial (Properties_Geometry.v)
* C16_center_inside (Properties_Geometry.v)
* C16_contains_halfopen (Properties_Geometry.v)
* C16_distance_is_minimum (Properties_Geometry.v)
* C16_distance_zero_iff_in_closure (Properties_Geometry.v)
* C16_intersection (Properties_Geometry.v)
* C16_intersection_error (Properties_Geometry.v)
* C16_max_width_2d_refuted (Properties_Geometry.v)
* C17_boundary_totals_nonneg (Properties_Geometry.v)
* C17_energy_matches_force_refuted (Properties_Geometry.v)
* C17_repulsion_points_inward (Properties_Geometry.v)
* C18_index_injective (Properties_Cells.v)
* C18_index_of_tuple (Properties_Cells.v)
* C18_row_major (Properties_Cells.v)
* C18_tuple_of_index (Properties_Cells.v)
* C19_every_position_has_a_cell (Properties_Cells.v)
* C19_setup_succeeds (Properties_Cells.v)
* C20_C21_stencil_filter_refuted (Properties_Cells.v)
* C20_C21_stencil_filter_refuted (Properties_Cells.v)
* C20_large_near_border_refuted (Properties_Cells.v)
* C20_long_range_cutoff_refuted (Properties_Cells.v)
* C20_no_pair_is_missed_partial (Properties_Cells.v)
* C20_periodic_without_mpi_refuted (Properties_Cells.v)
* C20_range_query_partial (Properties_Cells.v)
* C21_equal_large_particles_refuted (Properties_Cells.v)
* C21_no_pair_twice_partial (Properties_Cells.v)
* C21_small_periodic_box_refuted (Properties_Cells.v)
* C22_checked_remake_is_immediate_partial (Properties_Verlet.v)
* C22_default_constants_refuted (Properties_Verlet.v)
* C22_fast_particle_refuted (Properties_Verlet.v)
* C22_rebuilt_within_delay_partial (Properties_Verlet.v)
* C22_skin_safety_partial (Properties_Verlet.v)
* C22_update_type_2_is_late_refuted (Properties_Verlet.v)
* C23_add_after_close_refuted (Properties_Handlers.v)
* C23_interchangeable (Properties_Handlers.v)
* C23_not_closed_refuted (Properties_Handlers.v)
* C23_pairs (Properties_Handlers.v)
* C23_vec (Properties_Handlers.v)
* C23_vector_refuted (Properties_Handlers.v)
* C23_verlet_partial (Properties_Handlers.v)
* C24_interacting_types (Properties_Handlers.v)
* C24_last_set (Properties_Handlers.v)
* C24_listed_once (Properties_Handlers.v)
* C24_max_cutoff_partial (Properties_Handlers.v)
* C24_replaced_refuted (Properties_Handlers.v)
* C24_set_all (Properties_Handlers.v)
* C24_small_cutoff_refuted (Properties_Handlers.v)
* C24_symmetric (Properties_Handlers.v)
* C24_types_interact_refuted (Properties_Handlers.v)
* C25_immovable_partner_refuted (Properties_Verlet.v)
* C25_overlap_removal_partial (Properties_Verlet.v)
* C25_periodic_overlap_refuted (Properties_Verlet.v)
* C34_empty_refuted (Properties_Run.v)
* C34_empty_request_refuted (Properties_Run.v)
* C34_no_request (Properties_Run.v)
* C34_overshoot_partial (Properties_Run.v)
* C34_overshoot_refuted (Properties_Run.v)
* C34_run_partial (Properties_Run.v)
* C34_runs_add_up (Properties_Run.v)
* C35_data_refuted (Properties_Registry.v)
* C35_firsts (Properties_Registry.v)
* C35_modifier_history (Properties_Registry.v)
* C35_modifier_twice_refuted (Properties_Registry.v)
* C35_modifiers (Properties_Registry.v)
* C35_once (Properties_Registry.v)
* C36_one_processor (Properties_Topology.v)
* C36_partition (Properties_Topology.v)
* C37_close_regions_are_neighbours (Properties_Topology.v)
* C37_every_send_is_received (Properties_Ghosts.v)
* C37_neighbours_agree (Properties_Topology.v)
* C37_recomputed_refuted (Properties_Topology.v)
* C38_all_leave_refuted (Properties_Topology.v)
* C38_exchange_partial (Properties_Topology.v)
* C38_far_owner_refuted (Properties_Topology.v)
* C38_new_home_partial (Properties_Topology.v)
* C39_ghosts_partial (Properties_Ghosts.v)
* C39_number_refuted (Properties_Ghosts.v)
* C39_removal (Properties_Ghosts.v)
* C40_evaluation_terminates (Properties_Eval.v)
* C40_expression_value_partial (Properties_Eval.v)
* C40_negative_factor_refuted (Properties_Eval.v)
* C40_trailing_space_refuted (Properties_Eval.v)
* C40_undefined_texts_refuted (Properties_Eval.v)
* C40_usual_value_refuted (Properties_Eval.v)
* C41_brace_in_parameter_refuted (Properties_FileParse.v)
* C41_comment_double_star_refuted (Properties_FileParse.v)
* C41_extra_brace_ignores_rest (Properties_FileParse.v)
* C41_parsing_terminates (Properties_FileParse.v)
* C41_recovers_tree_partial (Properties_FileParse.v)
* C41_tab_refuted (Properties_FileParse.v)
* C41_text_unambiguous (Properties_FileParse.v)
* C41_white_space_in_heading (Properties_FileParse.v)
* C42_argName_safe (Properties_TreeParser.v)
* C42_argument_access_partial (Properties_TreeParser.v)
* C42_argument_access_refuted (Properties_TreeParser.v)
* C42_begin_all_each_once (Properties_TreeParser.v)
* C42_begin_all_order_refuted (Properties_TreeParser.v)
* C42_begin_empty_refuted (Properties_TreeParser.v)
* C42_check_missing_partial (Properties_TreeParser.v)
* C42_focus_then_up (Properties_TreeParser.v)
* C42_iteration_ends (Properties_TreeParser.v)
* C42_iteration_visits_named (Properties_TreeParser.v)
* C42_lookup_first (Properties_TreeParser.v)
* C42_next_without_begin_refuted (Properties_TreeParser.v)
* C42_no_nested_iteration (Properties_TreeParser.v)
* C42_unknown_heading_refuted (Properties_TreeParser.v)
* C43_arguments_recorded (Properties_TreeParser.v)
* C43_lookup_and_check (Properties_TreeParser.v)
* C44_at (Properties_Group.v)
* C44_before_update_refuted (Properties_Group.v)
* C44_creator_correction (Properties_Group.v)
* C44_flag_covers_moves (Properties_Group.v)
* C44_flag_misses_removal_refuted (Properties_Group.v)
* C44_group_calls_safe (Properties_Group.v)
* C44_group_follows_particles (Properties_Group.v)
* C44_index (Properties_Group.v)
* C44_lazy_updates_partial (Properties_Group.v)
* C44_lives (Properties_Group.v)
* C44_store_constructor_refuted (Properties_Group.v)
* C45_chain_length_refuted (Properties_GroupMeasure.v)
* C47_counts_partial (Properties_Demon.v)
* C47_dead_counted_refuted (Properties_Demon.v)
* C47_flow_partial (Properties_Demon.v)
* C47_lost_door_refuted (Properties_Demon.v)
* C47_records_partial (Properties_Demon.v)
* C47_reopens_partial (Properties_Demon.v)
* C47_reorder_refuted (Properties_Demon.v)
* C47_revert_partial (Properties_Demon.v)
* C47_rule_partial (Properties_Demon.v)
* C47_second_run_refuted (Properties_Demon.v)
* C47_settings (Properties_Demon.v)
* C47_start_partial (Properties_Demon.v)
* C47_waits_partial (Properties_Demon.v)
* C48_complete (Properties_Registry.v)
* C48_schedule (Properties_Registry.v)
* C49_gather_partial (Properties_Series.v)
* C49_no_columns (Properties_Series.v)
* C49_no_samples_refuted (Properties_Series.v)
* C49_oscillation_refuted (Properties_Series.v)
* C49_pairs (Properties_Series.v)
* C49_read_partial (Properties_Series.v)
* C49_rows_partial (Properties_Series.v)
* C49_size_refuted (Properties_Series.v)
* C50_center (Properties_Bins.v)
* C50_forces (Properties_Bins.v)
* C50_grid_below_refuted (Properties_Bins.v)
* C50_grid_partial (Properties_Bins.v)
* C50_group_edge_refuted (Properties_Bins.v)
* C50_group_partial (Properties_Bins.v)
* C50_group_settings (Properties_Bins.v)
* C50_kinetic_edge_refuted (Properties_Bins.v)
* C50_kinetic_partial (Properties_Bins.v)
* C50_ticks (Properties_Bins.v)
* C50_volume_memory_refuted (Properties_Bins.v)
* C50_volume_partial (Properties_Bins.v)
* C50_volume_resolution_refuted (Properties_Bins.v)
* C50_write_twice_refuted (Properties_Bins.v)
* C51_bounds (Properties_Timer.v)
* C51_last (Properties_Timer.v)
* C51_run_time (Properties_Timer.v)
* C51_runs (Properties_Timer.v)
* C51_switch_refuted (Properties_Timer.v)
* C51_total (Properties_Timer.v)
* C51_unmatched (Properties_Timer.v)
* C51_write_twice_refuted (Properties_Timer.v)
* C52_announced_partial (Properties_Ghosts.v)
* C52_late_refuted (Properties_Ghosts.v)
* C52_overwritten_refuted (Properties_Ghosts.v)
* C53_dimensions_refuted (Properties_Ghosts.v)
* C53_far_region_refuted (Properties_Ghosts.v)
* C53_ghosts_partial (Properties_Ghosts.v)
* C54_gather (Properties_Ghosts.v)
* C61_overdamped_refuted (Properties_TimeStep.v)
* C62_empty_processor_refuted (Properties_Run.v)
* C62_overshoot_refuted (Properties_Run.v)
* C62_stop_together_partial (Properties_Run.v)
* C63_checkpoints_partial (Properties_Registry.v)
* C63_second_run_refuted (Properties_Registry.v)
* C64_again_refuted (Properties_Cluster.v)
* C64_clusters_partial (Properties_Cluster.v)
* C64_holes_refuted (Properties_Cluster.v)
* C64_order_refuted (Properties_Cluster.v)
* C64_touching_partial (Properties_Cluster.v)
* C65_load_twice_refuted (Properties_Save.v)
* C65_nan_refuted (Properties_Save.v)
* C65_no_vectors_refuted (Properties_Save.v)
* C65_round_trip_partial (Properties_Save.v)
* C66_boundary_refuted (Properties_Save.v)
* C66_clear_refuted (Properties_Save.v)
* C66_frames_partial (Properties_Save.v)
* C66_second_run_refuted (Properties_Save.v)
* C67_no_radius_refuted (Properties_Save.v)
* C67_places_partial (Properties_Save.v)
* C68_acceleration (Properties_Mods.v)
* C68_axis_refuted (Properties_Mods.v)
* C68_constant_velocity_partial (Properties_Mods.v)
* C68_damped_refuted (Properties_Mods.v)
* C68_distance_fixed_partial (Properties_Mods.v)
* C68_distance_partial (Properties_Mods.v)
* C68_first_step_refuted (Properties_Mods.v)
* C68_immovable (Properties_Mods.v)
* C68_order_refuted (Properties_Mods.v)
* C68_other_processor_refuted (Properties_Mods.v)
* C68_owned (Properties_Mods.v)
* C68_start_refuted (Properties_Mods.v)
* C69_half_rate_refuted (Properties_Mods.v)
* C69_linear_partial (Properties_Mods.v)
* C69_quadratic_partial (Properties_Mods.v)
* C69_quadratic_refuted (Properties_Mods.v)
* C70_immovable_refuted (Properties_Mods.v)
* C70_stream_step (Properties_Mods.v)
* C70_uniform_partial (Properties_Mods.v)
* C70_wind_step (Properties_Mods.v)
* C70_zones (Properties_Mods.v)
* C71_columns_partial (Properties_Stream.v)
* C71_in_time_partial (Properties_Stream.v)
* C71_processors_partial (Properties_Stream.v)
* C71_rows_partial (Properties_Stream.v)
* C71_second_run_refuted (Properties_Stream.v)
* C71_spacing_refuted (Properties_Stream.v)
* C71_thin_processor_refuted (Properties_Stream.v)
* C72_interval_partial (Properties_Stream.v)
* C72_second_run_refuted (Properties_Stream.v)
* C72_zero_temperature (Properties_Stream.v)
* C73_momentum_partial (Properties_Mods.v)
* C73_momentum_refuted (Properties_Mods.v)
* C73_net_force (Properties_Mods.v)
* C73_two_walls (Properties_Mods.v)
* C74_division (Properties_Measure.v)
* C74_kinetic_average_partial (Properties_Measure.v)
* C74_kinetic_average_refuted (Properties_Measure.v)
* C74_kinetic_partial (Properties_Measure.v)
* C74_kinetic_removed_refuted (Properties_Measure.v)
* C74_means (Properties_Measure.v)
* C74_nothing_moves_refuted (Properties_Measure.v)
* C74_rotational (Properties_Measure.v)
* C74_total_partial (Properties_Measure.v)
* C74_total_rotation_refuted (Properties_Measure.v)
* C75_all_counted (Properties_Measure.v)
* C75_energies_by_type_partial (Properties_Measure.v)
* C75_energies_by_type_refuted (Properties_Measure.v)
* C75_numbers (Properties_Measure.v)
* C75_volume_fraction (Properties_Measure.v)
* C76_at_rest_refuted (Properties_Measure.v)
* C76_ghosts_refuted (Properties_Measure.v)
* C76_pressure_partial (Properties_Measure.v)
* C76_processors_refuted (Properties_Measure.v)
* C76_temperature_partial (Properties_Measure.v)
* C77_averages (Properties_Measure.v)
* C77_cavity (Properties_Measure.v)
* C77_empty_region_refuted (Properties_Measure.v)
* C77_region (Properties_Measure.v)
* C81_bounding_box (Properties_Fill.v)
* C81_contains (Properties_Fill.v)
* C81_picked_in_region_partial (Properties_Fill.v)
* C81_picking_ends (Properties_Fill.v)
* C81_point_refuted (Properties_Fill.v)
* C81_rectangle_evenly (Properties_Fill.v)
* C82_excluded_refuted (Properties_Fill.v)
* C82_filling_ends_partial (Properties_Fill.v)
* C82_never_more (Properties_Fill.v)
* C82_number_density (Properties_Fill.v)
* C82_particles_sound (Properties_Fill.v)
* C82_points_refuted (Properties_Fill.v)
* C82_processors_ball_refuted (Properties_Fill.v)
* C82_processors_rectangle (Properties_Fill.v)
* C82_volume_fraction (Properties_Fill.v)
* C83_excluded_partial (Properties_Fill.v)
* C83_excluded_refuted (Properties_Fill.v)
* C83_no_template_refuted (Properties_Fill.v)
* C83_one_template_partial (Properties_Fill.v)
* C83_processors_refuted (Properties_Fill.v)
* C83_templates_refuted (Properties_Fill.v)
* C83_total (Properties_Fill.v)
* C85_discrete_exact_partial (Properties_Fill.v)
* C85_discrete_refuted (Properties_Fill.v)
* C85_discrete_values (Properties_Fill.v)
* C85_equiprobable (Properties_Fill.v)
* C85_masses (Properties_Fill.v)
* C85_proportional (Properties_Fill.v)
* C88_beads_partial (Properties_Polymer.v)
* C88_large_links_refuted (Properties_Polymer.v)
* C88_length_partial (Properties_Polymer.v)
* C88_no_overlap_partial (Properties_Polymer.v)
* C88_primaries (Properties_Polymer.v)
* C88_unbonded_refuted (Properties_Polymer.v)
* C89_ordered_line (Properties_Polymer.v)
* C89_random_line (Properties_Polymer.v)
* C90_fraction_refuted (Properties_Polymer.v)
* C90_inside_partial (Properties_Polymer.v)
* C90_low_box_refuted (Properties_Polymer.v)
* C90_number_partial (Properties_Polymer.v)
* C91_empty_declaration_refuted (Properties_Config.v)
* C91_lines_visited (Properties_Config.v)
* C91_product_refuted (Properties_Config.v)
* C91_small_value_refuted (Properties_Config.v)
* C91_use_partial (Properties_Config.v)
* C91_variables (Properties_Config.v)
* C92_boundary_order_refuted (Properties_Config.v)
* C92_boundary_partial (Properties_Config.v)
* C92_box (Properties_Config.v)
* C92_dimensions (Properties_Config.v)
* C92_no_bounds (Properties_Config.v)
* C93_absent (Properties_Config.v)
* C93_number_of_types (Properties_Config.v)
* C93_one_for_all (Properties_Config.v)
* C93_parameters_refuted (Properties_Config.v)
* C93_random (Properties_Config.v)
* C93_table_order_refuted (Properties_Config.v)
* C93_table_partial (Properties_Config.v)
* C94_distance_refuted (Properties_Config.v)
* C94_needed (Properties_Config.v)
* C94_no_radius_refuted (Properties_Config.v)
* C94_particle_partial (Properties_Config.v)
* C94_short_position_refuted (Properties_Config.v)
* C95_adjust_refuted (Properties_Config.v)
* C95_default_and_unknown (Properties_Config.v)
* C95_settings (Properties_Config.v)
* C96_dangling_refuted (Properties_Relax.v)
* C96_empty_refuted (Properties_Relax.v)
* C96_file (Properties_Relax.v)
* C96_hard_spheres_partial (Properties_Relax.v)
* C96_next_run (Properties_Relax.v)
* C96_relax_partial (Properties_Relax.v)
* C97_velocities (Properties_Relax.v)

## Standard library axioms: `ClassicalDedekindReals.sig_forall_dec`

* C137_old_lists_refuted (Properties_Steps.v)
* C31_angles (Properties_Integrators.v)
* C31_clear (Properties_Integrators.v)
* C31_positions (Properties_Integrators.v)

## Standard library axioms: `ClassicalDedekindReals.sig_forall_dec`, `FunctionalExtensionality.functional_extensionality_dep`

* C100_half_step_partial (Properties_Langevin.v)
* C100_immovable_refuted (Properties_Langevin.v)
* C100_jump_refuted (Properties_Langevin.v)
* C100_new_partial (Properties_Langevin.v)
* C100_processors_refuted (Properties_Langevin.v)
* C100_waiting_partial (Properties_Langevin.v)
* C117_angular_partial (Properties_GroupData.v)
* C117_rotation_partial (Properties_GroupData.v)
* C119_one_bin (Properties_GroupData.v)
* C119_rows (Properties_GroupData.v)
* C133_momentum_partial (Properties_Spin.v)
* C133_several_interactions_refuted (Properties_Spin.v)
* C133_step_partial (Properties_Spin.v)
* C133_without_simd_refuted (Properties_Spin.v)
* C30_fresh_start_refuted (Properties_Integrators.v)
* C30_reversible_partial (Properties_Integrators.v)
* C30_reversible_wrapped_partial (Properties_WrapReverse.v)
* C31_avx_refuted (Properties_Integrators.v)
* C31_nose_hoover_partial (Properties_Integrators.v)
* C31_nose_hoover_refuted (Properties_Integrators.v)
* C31_overdamped (Properties_Integrators.v)
* C31_spins_partial (Properties_Integrators.v)
* C31_spins_refuted (Properties_Integrators.v)
* C31_velocities (Properties_Integrators.v)
* C33_overdamped (Properties_TimeStep.v)
* C45_add_acceleration (Properties_GroupMeasure.v)
* C45_add_velocity (Properties_GroupMeasure.v)
* C45_centre_of_mass_partial (Properties_GroupMeasure.v)
* C45_closest_partial (Properties_GroupMeasure.v)
* C45_closest_refuted (Properties_GroupMeasure.v)
* C45_com_open_axis_refuted (Properties_GroupMeasure.v)
* C45_fixed_member_refuted (Properties_GroupMeasure.v)
* C45_net_force (Properties_GroupMeasure.v)
* C45_total_mass (Properties_GroupMeasure.v)
* C45_velocity_partial (Properties_GroupMeasure.v)
* C46_force_remover_partial (Properties_GroupBodies.v)
* C46_rigid_body_partial (Properties_GroupBodies.v)
* C46_rigid_body_refuted (Properties_GroupBodies.v)
* C46_set_group_mass (Properties_GroupBodies.v)
* C46_set_group_mass_refuted (Properties_GroupBodies.v)
* C46_stale_mass_partial (Properties_GroupBodies.v)
* C46_stale_mass_refuted (Properties_GroupBodies.v)
* C46_torque_remover_net_force_partial (Properties_GroupBodies.v)
* C46_torque_remover_partial (Properties_GroupBodies.v)
* C46_torque_remover_single_refuted (Properties_GroupBodies.v)
* C46_torque_remover_start_partial (Properties_GroupBodies.v)
* C46_wall_acceleration_partial (Properties_GroupBodies.v)
* C46_wall_forces (Properties_GroupBodies.v)
* C46_wall_moves_rigidly_partial (Properties_GroupBodies.v)
* C46_wall_start (Properties_GroupBodies.v)
* C60_overdamped_refuted (Properties_TimeStep.v)
* C61_overdamped_changes_refuted (Properties_TimeStep.v)
* C78_box (Properties_Ray.v)
* C78_box_far_refuted (Properties_Ray.v)
* C78_box_missed_partial (Properties_Ray.v)
* C78_box_oblique (Properties_Ray.v)
* C80_colours (Properties_Ray.v)
* C80_lit_and_dark (Properties_Ray.v)

## Standard library axioms: `ClassicalDedekindReals.sig_forall_dec`, `ClassicalDedekindReals.sig_not_dec`, `FunctionalExtensionality.functional_extensionality_dep`

* C118_average_partial (Properties_GroupData.v)
* C118_no_samples_refuted (Properties_GroupData.v)
* C118_straight (Properties_GroupData.v)
* C119_bins_partial (Properties_GroupData.v)
* C119_distance_partial (Properties_GroupData.v)
* C119_far_refuted (Properties_GroupData.v)
* C125_border_refuted (Properties_DemonWall.v)
* C125_forces (Properties_DemonWall.v)
* C125_third_law (Properties_DemonWall.v)
* C126_separated (Properties_DemonWall.v)
* C126_turn_on (Properties_DemonWall.v)
* C131_any_search_partial (Properties_Sweep.v)
* C131_force_of_two (Properties_Sweep.v)
* C131_forces_of_all_pairs_partial (Properties_Sweep.v)
* C131_hard_spheres_partial (Properties_Sweep.v)
* C131_large_particles_refuted (Properties_Sweep.v)
* C132_energy_of_all_pairs_partial (Properties_Sweep.v)
* C132_energy_of_two (Properties_Sweep.v)
* C132_not_asked (Properties_Sweep.v)
* C134_friction (Properties_Spin.v)
* C135_conserved_refuted (Properties_Spin.v)
* C135_overlap_partial (Properties_Spin.v)
* C136_forces_of_every_step_partial (Properties_Steps.v)
* C136_growing_time_step_refuted (Properties_Steps.v)
* C136_requested_searches_refuted (Properties_Steps.v)
* C136_starting_to_move_refuted (Properties_Steps.v)
* C137_delay_compared (Properties_Steps.v)
* C139_default_tolerance_refuted (Properties_Steady.v)
* C139_forces_of_steady_motion_partial (Properties_Steady.v)
* C140_lists_do_not_matter (Properties_Trajectory.v)
* C140_trajectory (Properties_Trajectory.v)
* C140_vocabulary (Properties_Trajectory.v)
* C141_numbering (Properties_Symmetry.v)
* C142_moving_observer (Properties_Symmetry.v)
* C147_as_on_one_processor_partial (Properties_Parallel.v)
* C147_divisions_agree_partial (Properties_Parallel.v)
* C147_hooke_refuted (Properties_Parallel.v)
* C147_hooke_wrong_particle_refuted (Properties_Parallel.v)
* C147_parallel_partial (Properties_Parallel.v)
* C26_central (Properties_Forces.v)
* C26_defined (Properties_Forces.v)
* C26_pair (Properties_Forces.v)
* C26_sweep (Properties_Forces.v)
* C26_vocabulary (Properties_Forces.v)
* C27_dissipates (Properties_Forces.v)
* C27_hard_sphere (Properties_Forces.v)
* C27_hertz_dissipates (Properties_Forces2.v)
* C27_hooke_2d_refuted (Properties_Forces.v)
* C27_hooke_refuted (Properties_Forces.v)
* C27_local (Properties_Forces.v)
* C27_never_attract (Properties_Forces.v)
* C28_buckingham_refuted (Properties_Forces.v)
* C28_coulomb_partial (Properties_Forces.v)
* C28_coulomb_refuted (Properties_Forces.v)
* C28_hard_sphere (Properties_Forces.v)
* C28_lennard_jones (Properties_Forces.v)
* C28_no_force_beyond (Properties_Forces.v)
* C29_angle_chain_3d (Properties_Bonded.v)
* C29_bonds (Properties_Bonded.v)
* C29_bonds_2d (Properties_Bonded.v)
* C29_bonds_3d (Properties_Bonded.v)
* C29_chain (Properties_Bonded.v)
* C29_chain_defined (Properties_Bonded.v)
* C29_pulls (Properties_Bonded.v)
* C29_third_atom_refuted (Properties_Bonded.v)
* C32_momentum (Properties_Integrators.v)
* C33_at_rest_refuted (Properties_TimeStep.v)
* C33_in_range (Properties_TimeStep.v)
* C33_lowered_maximum_refuted (Properties_TimeStep.v)
* C33_max_velocity (Properties_TimeStep.v)
* C33_pace (Properties_TimeStep.v)
* C33_radius_zero_refuted (Properties_TimeStep.v)
* C45_chain_length_partial (Properties_GroupMeasure.v)
* C45_displacement (Properties_GroupMeasure.v)
* C45_distance_partial (Properties_GroupMeasure.v)
* C45_distance_refuted (Properties_GroupMeasure.v)
* C45_empty (Properties_GroupMeasure.v)
* C46_group_spring_partial (Properties_GroupBodies.v)
* C46_remover_fixed_member_refuted (Properties_GroupBodies.v)
* C46_remover_start_partial (Properties_GroupBodies.v)
* C46_wall_length_refuted (Properties_GroupBodies.v)
* C55_buckingham_refuted (Properties_Forces.v)
* C55_coulomb_refuted (Properties_Forces.v)
* C55_hard_sphere (Properties_Forces.v)
* C55_lennard_jones (Properties_Forces.v)
* C55_sweep (Properties_Forces2.v)
* C56_energy_doubled_refuted (Properties_Forces.v)
* C57_hooke_refuted (Properties_Forces.v)
* C57_virial (Properties_Forces.v)
* C58_bond (Properties_Bonded.v)
* C58_bond_2d_refuted (Properties_Bonded.v)
* C58_bond_3d (Properties_Bonded.v)
* C59_angular_momentum (Properties_Integrators.v)
* C60_accelerations_refuted (Properties_TimeStep.v)
* C60_agree_partial (Properties_TimeStep.v)
* C61_fixed_partial (Properties_TimeStep.v)
* C78_camera_inside_refuted (Properties_Ray.v)
* C78_sphere (Properties_Ray.v)
* C78_sphere_missed_partial (Properties_Ray.v)
* C79_crossing_refuted (Properties_Ray.v)
* C79_few_spheres_partial (Properties_Ray.v)
* C79_nearest_partial (Properties_Ray.v)
* C79_nothing_hidden_partial (Properties_Ray.v)
* C79_shown_is_hit (Properties_Ray.v)
* C80_camera_parallel_refuted (Properties_Ray.v)
* C80_camera_partial (Properties_Ray.v)
* C80_pixel (Properties_Ray.v)
* C80_pixels_differ (Properties_Ray.v)
* C84_exact (Properties_Place.v)
* C84_excluded_refuted (Properties_Place.v)
* C84_immovable_refuted (Properties_Place.v)
* C84_odd_refuted (Properties_Place.v)
* C84_one_refuted (Properties_Place.v)
* C84_temperature_partial (Properties_Place.v)
* C86_hole_refuted (Properties_Place.v)
* C86_spacing (Properties_Place.v)
* C86_spacing_refuted (Properties_Place.v)
* C86_sticks_out_refuted (Properties_Place.v)
* C86_wall_partial (Properties_Place.v)
* C87_on_the_sphere (Properties_Place.v)
* C87_processors (Properties_Place.v)
* C98_drag (Properties_Langevin.v)
* C98_noise (Properties_Langevin.v)
* C98_second_run_refuted (Properties_Langevin.v)
* C98_settings (Properties_Langevin.v)
* C98_step (Properties_Langevin.v)
* C98_unstable_refuted (Properties_Langevin.v)
* C99_step (Properties_Langevin.v)
* C99_viscosity_refuted (Properties_Langevin.v)

## Standard library axioms: `ClassicalDedekindReals.sig_forall_dec`, `ClassicalDedekindReals.sig_not_dec`, `Classical_Prop.classic`, `FunctionalExtensionality.functional_extensionality_dep`

* C29_angle_chain_2d (Properties_Bonded.v)
* C29_straight_chain_refuted (Properties_Bonded.v)
* C29_two_atoms_refuted (Properties_Bonded.v)
* C87_covers (Properties_Place.v)
* C87_ring (Properties_Place.v)
