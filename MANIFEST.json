{
 "claims": [
  {
   "property": "C01",
   "status": "partial",
   "theorems": [
    "C01_storage_bounds_partial",
    "C01_add_one_always_safe",
    "C01_bulk_add_safe_iff",
    "C01_bulk_add_refuted",
    "C01_reserve"
   ],
   "note": "Proved for histories of calls that respect the preconditions in Spec_Store.allowed (each stated in observable numbers); single adds are always safe; a bulk add is safe iff it exceeds the capacity by at most 32, so the unrestricted claim is refuted (C01_bulk_add_refuted). Missing: the claim for larger bulk adds and removal of every particle, which are false of the code."
  },
  {
   "property": "C02",
   "status": "partial",
   "theorems": [
    "C02_after_unpack_refuted",
    "C02_lookup_exact_partial",
    "C02_shift_partial",
    "C02_lookup_after_shift_refuted",
    "C02_lookup_after_reserve_refuted"
   ],
   "note": "Proved for all histories with normally assigned ids, and for shifts by k >= 0; refuted after shift+add and after reserve()."
  },
  {
   "property": "C03",
   "status": "proved",
   "theorems": [
    "C03_ids_never_reused",
    "C03_after_correction_refuted"
   ],
   "note": "All allowed histories on one processor. The creator correction (a different call, C09) breaks it: C03_after_correction_refuted."
  },
  {
   "property": "C04",
   "status": "partial",
   "theorems": [
    "C04_removes_exactly_marked_partial",
    "C04_nothing_marked",
    "C04_remove_all_refuted"
   ],
   "note": "Proved whenever at least one particle survives; removing all particles reads Type(-1) (refuted)."
  },
  {
   "property": "C05",
   "status": "partial",
   "theorems": [
    "C05_mark_idempotent_and_local",
    "C05_order_irrelevant",
    "C05_invalid_id_refuted"
   ],
   "note": "Proved for ids 0 <= id < capacity, any order and repetition; an id >= capacity is an out-of-bounds read (refuted)."
  },
  {
   "property": "C06",
   "status": "partial",
   "theorems": [
    "C06_sort_along_x_partial",
    "C06_sort_permutes_partial",
    "C06_sort_order_refuted"
   ],
   "note": "sortParticles(Vec) sorts along x, permutes, keeps the lookup; sortParticles() permutes safely but the order claim is refuted. Other axes are not implemented by the code."
  },
  {
   "property": "C07",
   "status": "partial",
   "theorems": [
    "C07_migration_round_trip_partial",
    "C07_stale_width_refuted",
    "C07_repeated_id_refuted"
   ],
   "note": "Every layout, list of ids and pair of reachable stores, with the current width and (when removing) distinct ids; a stale width writes out of bounds and a repeated id corrupts the copy (refutations)."
  },
  {
   "property": "C08",
   "status": "partial",
   "theorems": [
    "C08_ghost_update_partial",
    "C08_five_dimensions_refuted",
    "C08_omega_not_registered_refuted"
   ],
   "note": "Every layout and list in up to four dimensions, positions in the box, \"Om\" registered if sent; five dimensions and a missing \"Om\" are refuted."
  },
  {
   "property": "C09",
   "status": "partial",
   "theorems": [
    "C09_ids_unique_across_processors_partial",
    "C09_added_with_data_refuted",
    "C09_removal_before_refuted"
   ],
   "note": "Proved when particles are created by default adds without removal before the correction; refuted for particles added with data (what creators use) and for removals before the correction."
  },
  {
   "property": "C10",
   "status": "partial",
   "theorems": [
    "C10_requests_partial",
    "C10_add_existing_name_refuted",
    "C10_integer_by_name_refuted"
   ],
   "note": "Requests: full. Mixed with addScalarData of an existing name two names share a handle, and IntegerData(name) uses the scalar table (refutations)."
  },
  {
   "property": "C11",
   "status": "partial",
   "theorems": [
    "C11_bad_particles_removed_partial",
    "C11_bad_particles_marked",
    "C11_nan_force_refuted",
    "C11_already_marked_refuted",
    "C11_all_bad_refuted"
   ],
   "note": "Position and velocity NaNs: exact. NaN forces are not detected, an already marked particle is reported, and removing all particles is out of bounds (refuted)."
  },
  {
   "property": "C12",
   "status": "proved",
   "theorems": [
    "C12_displacement_component",
    "C12_distance_is_minimal",
    "C12_distance_is_an_image",
    "C12_kernels_agree",
    "C12_outside_the_box_refuted"
   ],
   "note": "For points in the closed box, all dimensions, all boundary flags. The _refuted theorem shows the limit of the claim (points outside the box)."
  },
  {
   "property": "C13",
   "status": "proved",
   "theorems": [
    "C13_distance_symmetric",
    "C13_distance_is_length_of_displacement",
    "C13_displacement_antisymmetric"
   ],
   "note": ""
  },
  {
   "property": "C14",
   "status": "partial",
   "theorems": [
    "C14_wrap",
    "C14_wrap_halfopen_idempotent_partial",
    "C14_idempotent_refuted"
   ],
   "note": "Containment, congruence and frame conditions are proved in full (C14_wrap); idempotence is false at the upper border (C14_idempotent_refuted), proved for the half-open case (C14_wrap_halfopen_idempotent_partial)."
  },
  {
   "property": "C15",
   "status": "partial",
   "theorems": [
    "C15_reflect_partial",
    "C15_far_particle_refuted",
    "C15_inbound_velocity_refuted"
   ],
   "note": "Proved for particles at most one box width outside; false for particles further out and for particles moving inwards (refutations)."
  },
  {
   "property": "C16",
   "status": "partial",
   "theorems": [
    "C16_contains_halfopen",
    "C16_intersection",
    "C16_intersection_error",
    "C16_center_inside",
    "C16_distance_zero_iff_in_closure",
    "C16_distance_is_minimum",
    "C16_max_width_2d_refuted"
   ],
   "note": "contains / intersection / centre / distance proved; the widths claim is false: max_width ignores the second axis in 2D (C16_max_width_2d_refuted)."
  },
  {
   "property": "C17",
   "status": "partial",
   "theorems": [
    "C17_repulsion_points_inward",
    "C17_boundary_totals_nonneg",
    "C17_energy_matches_force_refuted"
   ],
   "note": "Direction, linearity, non-negative totals proved; the reported energy is not the integral of the force (C17_energy_matches_force_refuted)."
  },
  {
   "property": "C18",
   "status": "proved",
   "theorems": [
    "C18_index_of_tuple",
    "C18_tuple_of_index",
    "C18_index_injective",
    "C18_row_major"
   ],
   "note": "Column-major and row-major addressing, any number of dimensions."
  },
  {
   "property": "C19",
   "status": "proved",
   "theorems": [
    "C19_setup_succeeds",
    "C19_every_position_has_a_cell"
   ],
   "note": "Single-processor grid as set up by the code, any dimension, any position."
  },
  {
   "property": "C20",
   "status": "partial",
   "theorems": [
    "C20_no_pair_is_missed_partial",
    "C20_range_query_partial",
    "C20_long_range_cutoff_refuted",
    "C20_C21_stencil_filter_refuted",
    "C20_large_near_border_refuted",
    "C20_periodic_without_mpi_refuted"
   ],
   "note": "Completeness for one processor (MPI build), cutoff factors <= 1, cell size inside the range in which the stencil filter is harmless, large particles away from non-periodic borders. Each restriction is necessary: the refutations are concrete missed pairs. Missing: ghost pairs across processors."
  },
  {
   "property": "C21",
   "status": "partial",
   "theorems": [
    "C21_no_pair_twice_partial",
    "C20_C21_stencil_filter_refuted",
    "C21_small_periodic_box_refuted",
    "C21_equal_large_particles_refuted"
   ],
   "note": "No duplicates / no self pairs under the same restrictions and no two mutually visible large particles; refutations show each restriction is necessary."
  },
  {
   "property": "C22",
   "status": "partial",
   "theorems": [
    "C22_skin_safety_partial",
    "C22_checked_remake_is_immediate_partial",
    "C22_rebuilt_within_delay_partial",
    "C22_default_constants_refuted",
    "C22_fast_particle_refuted",
    "C22_update_type_2_is_late_refuted"
   ],
   "note": "Proved for tolerance*factor <= 1 and no particle moving ten skin depths between checks (and under the C20 conditions). The default constants violate this, and update type 2 (default) delays the remake: see refutations."
  },
  {
   "property": "C23",
   "status": "partial",
   "theorems": [
    "C23_verlet_partial",
    "C23_vec",
    "C23_pairs",
    "C23_interchangeable",
    "C23_add_after_close_refuted",
    "C23_not_closed_refuted",
    "C23_vector_refuted"
   ],
   "note": "VecPairs and Pairs: every history. VerletList: any history followed by clear, additions, close; interchangeable for any force function. Refuted: VerletList with additions after a close or without close; VerletListVector writes outside its vectors at the first addition."
  },
  {
   "property": "C24",
   "status": "partial",
   "theorems": [
    "C24_last_set",
    "C24_symmetric",
    "C24_interacting_types",
    "C24_max_cutoff_partial",
    "C24_listed_once",
    "C24_set_all",
    "C24_types_interact_refuted",
    "C24_replaced_refuted",
    "C24_small_cutoff_refuted"
   ],
   "note": "Every sequence of settings: last setting wins, symmetric, interacting types, setAll, listed once. The maximal cutoff bounds every interaction ever set (not only those in force), and typesInteract accepts the type ntypes: refutations."
  },
  {
   "property": "C25",
   "status": "partial",
   "theorems": [
    "C25_overlap_removal_partial",
    "C25_immovable_partner_refuted",
    "C25_periodic_overlap_refuted"
   ],
   "note": "Proved for movable first particles and the distances the search passes; refuted for immovable first particles and across periodic borders."
  },
  {
   "property": "C26",
   "status": "proved",
   "theorems": [
    "C26_vocabulary",
    "C26_pair",
    "C26_central",
    "C26_sweep",
    "C26_defined"
   ],
   "note": "Every pair force, any dimension, any list of pairs, wrapped or not; central direction for all but Hooke; the sweep is defined unless particles coincide."
  },
  {
   "property": "C27",
   "status": "partial",
   "theorems": [
    "C27_local",
    "C27_hard_sphere",
    "C27_never_attract",
    "C27_dissipates",
    "C27_hooke_refuted",
    "C27_hooke_2d_refuted",
    "C27_hertz_dissipates"
   ],
   "note": "Hard spheres, dissipative hard spheres and Hertz: locality, repulsion, dissipation. False for Hooke forces, which apply no normal force (refutations)."
  },
  {
   "property": "C28",
   "status": "partial",
   "theorems": [
    "C28_no_force_beyond",
    "C28_lennard_jones",
    "C28_hard_sphere",
    "C28_coulomb_partial",
    "C28_coulomb_refuted",
    "C28_buckingham_refuted"
   ],
   "note": "No force beyond the cutoff: all. Energy vanishing at the cutoff: Lennard-Jones however built and hard spheres; Coulomb only for radii adding up to 1; Coulomb otherwise and Buckingham are refuted."
  },
  {
   "property": "C29",
   "status": "partial",
   "theorems": [
    "C29_bonds",
    "C29_bonds_2d",
    "C29_bonds_3d",
    "C29_chain",
    "C29_chain_defined",
    "C29_angle_chain_2d",
    "C29_angle_chain_3d",
    "C29_pulls",
    "C29_straight_chain_refuted",
    "C29_two_atoms_refuted",
    "C29_third_atom_refuted"
   ],
   "note": "Harmonic bonds (generic, 2d, 3d) and angle chains: total force unchanged; stretched bonds pull. Straight chains, chains of two atoms and 3d chains exert no spring force (refutations)."
  },
  {
   "property": "C30",
   "status": "partial",
   "theorems": [
    "C30_reversible_partial",
    "C30_fresh_start_refuted",
    "C30_reversible_wrapped_partial"
   ],
   "note": "Any dimension, masses, forces of the positions and number of steps, once one step has been made (scalar and SSE builds, exact real arithmetic); with periodic boundaries up to whole widths, for any wrapping and forces that are the same for the same places (C30_reversible_wrapped_partial). The first step of a fresh simulation is not reversible: it starts from zero forces (refutation)."
  },
  {
   "property": "C31",
   "status": "partial",
   "theorems": [
    "C31_positions",
    "C31_velocities",
    "C31_overdamped",
    "C31_clear",
    "C31_angles",
    "C31_spins_partial",
    "C31_nose_hoover_partial",
    "C31_spins_refuted",
    "C31_nose_hoover_refuted",
    "C31_avx_refuted"
   ],
   "note": "Positions, velocities, overdamped, clearing, angles: all sizes. Spins without SIMD, Nose-Hoover left-overs, AVX builds: refutations."
  },
  {
   "property": "C32",
   "status": "proved",
   "theorems": [
    "C32_momentum"
   ],
   "note": "Velocity-Verlet with any pair forces, time steps and numbers of steps (scalar and SSE builds), exact real arithmetic."
  },
  {
   "property": "C33",
   "status": "partial",
   "theorems": [
    "C33_in_range",
    "C33_pace",
    "C33_max_velocity",
    "C33_at_rest_refuted",
    "C33_lowered_maximum_refuted",
    "C33_radius_zero_refuted",
    "C33_overdamped"
   ],
   "note": "Range, pace and the velocity used: every history. Particles at rest, a maximum lowered during a run, radius 0: refutations."
  },
  {
   "property": "C34",
   "status": "partial",
   "theorems": [
    "C34_run_partial",
    "C34_overshoot_partial",
    "C34_no_request",
    "C34_overshoot_refuted",
    "C34_runs_add_up",
    "C34_empty_refuted",
    "C34_empty_request_refuted"
   ],
   "note": "One processor: which step is the last, for every sequence of time steps and terminate() calls; runs add up for every history. The overshoot is always at least one step and less than two; runs without particles do not use up the request and do not restart the elapsed time (refutations)."
  },
  {
   "property": "C35",
   "status": "partial",
   "theorems": [
    "C35_once",
    "C35_firsts",
    "C35_modifiers",
    "C35_modifier_history",
    "C35_modifier_twice_refuted",
    "C35_data_refuted"
   ],
   "note": "Every history: interactions, bonded interactions, bodies once, in order; modifiers removed exactly on request. Modifiers, integrators and data objects can be registered twice, the data master takes null pointers (refutations)."
  },
  {
   "property": "C36",
   "status": "proved",
   "theorems": [
    "C36_partition",
    "C36_one_processor"
   ],
   "note": "Any number of processors and any non-empty box; the single-processor case is a separate theorem (computeTopology leaves it with the whole box)."
  },
  {
   "property": "C37",
   "status": "partial",
   "theorems": [
    "C37_every_send_is_received",
    "C37_neighbours_agree",
    "C37_close_regions_are_neighbours",
    "C37_recomputed_refuted"
   ],
   "note": "Proved for the topology computed once: symmetric neighbours, no deadlock and no message left under every schedule and any MPI buffering. A second computeTopology duplicates neighbours (C37_recomputed_refuted)."
  },
  {
   "property": "C38",
   "status": "partial",
   "theorems": [
    "C38_exchange_partial",
    "C38_new_home_partial",
    "C38_all_leave_refuted",
    "C38_far_owner_refuted"
   ],
   "note": "Any number of processors and particles, every schedule, as long as each processor keeps a particle (or nothing leaves and nothing is pending removal). Refuted: all particles of a processor leave; the owner is not a neighbour."
  },
  {
   "property": "C39",
   "status": "partial",
   "theorems": [
    "C39_ghosts_partial",
    "C39_number_refuted",
    "C39_removal"
   ],
   "note": "Ghosts after creation and any number of moves and updates, every schedule; removal of ghosts. The number of ghosts is counted twice (C39_number_refuted)."
  },
  {
   "property": "C40",
   "status": "partial",
   "theorems": [
    "C40_expression_value_partial",
    "C40_evaluation_terminates",
    "C40_usual_value_refuted",
    "C40_negative_factor_refuted",
    "C40_trailing_space_refuted",
    "C40_undefined_texts_refuted"
   ],
   "note": "Every expression with the usual grammar and any spaces, provided no subtracted product is followed by another + or - in the same sum; evaluation always ends. 1-2*3+4, negative factors, trailing spaces, empty texts are wrong (refutations)."
  },
  {
   "property": "C41",
   "status": "partial",
   "theorems": [
    "C41_recovers_tree_partial",
    "C41_parsing_terminates",
    "C41_text_unambiguous",
    "C41_white_space_in_heading",
    "C41_extra_brace_ignores_rest",
    "C41_comment_double_star_refuted",
    "C41_tab_refuted",
    "C41_brace_in_parameter_refuted"
   ],
   "note": "Every file of headings, parameters and nested bodies with spaces, newlines, line and block comments; parsing always ends. Tabs, comments ending in two stars, closing braces on a parameter line are refuted."
  },
  {
   "property": "C42",
   "status": "partial",
   "theorems": [
    "C42_iteration_visits_named",
    "C42_iteration_ends",
    "C42_no_nested_iteration",
    "C42_lookup_first",
    "C42_focus_then_up",
    "C42_check_missing_partial",
    "C42_unknown_heading_refuted",
    "C42_argName_safe",
    "C42_argument_access_partial",
    "C42_argument_access_refuted",
    "C42_begin_empty_refuted",
    "C42_begin_all_order_refuted",
    "C42_begin_all_each_once",
    "C42_next_without_begin_refuted"
   ],
   "note": "Every tree, history and loop body. Unknown headings are only warned about; most argument accessors read outside of the data for large indices; begin() on an empty body and next() without begin() misbehave (refutations)."
  },
  {
   "property": "C43",
   "status": "proved",
   "theorems": [
    "C43_arguments_recorded",
    "C43_lookup_and_check"
   ],
   "note": "Every list of arguments and sequence of lookups of non-empty names; conversions of texts to values are not modelled."
  },
  {
   "property": "C44",
   "status": "partial",
   "theorems": [
    "C44_group_follows_particles",
    "C44_lives",
    "C44_group_calls_safe",
    "C44_creator_correction",
    "C44_flag_covers_moves",
    "C44_lazy_updates_partial",
    "C44_flag_misses_removal_refuted",
    "C44_before_update_refuted",
    "C44_store_constructor_refuted",
    "C44_at",
    "C44_index"
   ],
   "note": "Every group and every history of the store, once update_local_ids is called. The flag that tells users of the group to update is not set by removals alone, ids read before the first update and for groups made from the store are wrong (refutations)."
  },
  {
   "property": "C45",
   "status": "partial",
   "theorems": [
    "C45_displacement",
    "C45_total_mass",
    "C45_net_force",
    "C45_velocity_partial",
    "C45_centre_of_mass_partial",
    "C45_empty",
    "C45_com_open_axis_refuted",
    "C45_fixed_member_refuted",
    "C45_distance_partial",
    "C45_distance_refuted",
    "C45_closest_partial",
    "C45_closest_refuted",
    "C45_add_velocity",
    "C45_add_acceleration",
    "C45_chain_length_partial",
    "C45_chain_length_refuted"
   ],
   "note": "Mass, net force, velocity and force updates: all groups. Velocity and centre of mass: finite masses; centre of mass: members in the box and less than half a width apart along periodic axes. The distance is that of the last member, the closest object is the farthest one, an empty chain reads out of bounds, immovable members give NaN (refutations)."
  },
  {
   "property": "C46",
   "status": "partial",
   "theorems": [
    "C46_force_remover_partial",
    "C46_stale_mass_partial",
    "C46_stale_mass_refuted",
    "C46_remover_start_partial",
    "C46_remover_fixed_member_refuted",
    "C46_torque_remover_partial",
    "C46_torque_remover_net_force_partial",
    "C46_torque_remover_start_partial",
    "C46_torque_remover_single_refuted",
    "C46_wall_forces",
    "C46_wall_moves_rigidly_partial",
    "C46_wall_acceleration_partial",
    "C46_wall_start",
    "C46_wall_length_refuted",
    "C46_rigid_body_partial",
    "C46_rigid_body_refuted",
    "C46_group_spring_partial",
    "C46_set_group_mass",
    "C46_set_group_mass_refuted",
    "C46_spring_from_constructor_refuted",
    "C46_spring_set_groups_refuted"
   ],
   "note": "Force remover: finite masses, current mass, unit projection. Torque remover: two dimensions. Sliding walls: every number of steps and any forces, no wrapping of positions. Rigid bodies turn the wrong way and about the wrong point; a stale mass leaves force; immovable or single members give NaN; recorded wall length too small; a spring between groups never acts when made by its constructor, and is not balanced when its groups are set (refutations)."
  },
  {
   "property": "C47",
   "status": "partial",
   "theorems": [
    "C47_counts_partial",
    "C47_records_partial",
    "C47_waits_partial",
    "C47_rule_partial",
    "C47_revert_partial",
    "C47_start_partial",
    "C47_reopens_partial",
    "C47_flow_partial",
    "C47_settings",
    "C47_reorder_refuted",
    "C47_second_run_refuted",
    "C47_dead_counted_refuted",
    "C47_lost_door_refuted"
   ],
   "note": "Counts, rules and records: every particle set and history. Undoing a window: every state in which no slot was added, removed or reordered since the checkpoint. Reordering, removed but still marked particles, a second run with the door open and lost door particles are refuted."
  },
  {
   "property": "C48",
   "status": "proved",
   "theorems": [
    "C48_schedule",
    "C48_complete"
   ],
   "note": "Every sequence of steps of a run; also that no recording is missed."
  },
  {
   "property": "C49",
   "status": "partial",
   "theorems": [
    "C49_rows_partial",
    "C49_no_columns",
    "C49_read_partial",
    "C49_gather_partial",
    "C49_pairs",
    "C49_size_refuted",
    "C49_oscillation_refuted",
    "C49_no_samples_refuted"
   ],
   "note": "Every sequence of recordings with at least one column, and gathering from any number of processes. The reported size is the number of columns, averages over no samples are NaN, the oscillation data do not average (refutations)."
  },
  {
   "property": "C50",
   "status": "partial",
   "theorems": [
    "C50_ticks",
    "C50_kinetic_partial",
    "C50_kinetic_edge_refuted",
    "C50_forces",
    "C50_group_settings",
    "C50_group_partial",
    "C50_group_edge_refuted",
    "C50_center",
    "C50_write_twice_refuted",
    "C50_grid_partial",
    "C50_grid_below_refuted",
    "C50_volume_partial",
    "C50_volume_resolution_refuted",
    "C50_volume_memory_refuted"
   ],
   "note": "Ticks, forces by distance, centre correlation: every sample. Kinetic energy and group correlation: no sample exactly on the upper end. Two dimensional binning: no point below the lower bounds. Volume plots: at least as many bins along x as along y, reported with the y number of bins along both axes. The excluded cases are refuted."
  },
  {
   "property": "C51",
   "status": "proved",
   "theorems": [
    "C51_total",
    "C51_unmatched",
    "C51_bounds",
    "C51_last",
    "C51_switch_refuted",
    "C51_run_time",
    "C51_runs",
    "C51_write_twice_refuted"
   ],
   "note": "Every history of calls on a timer and of the run timer, with bounds for clocks that do not go back. Time while timing is switched off can be counted, and writing results twice counts the time in between (the _refuted theorems show these consequences)."
  },
  {
   "property": "C52",
   "status": "partial",
   "theorems": [
    "C52_announced_partial",
    "C52_late_refuted",
    "C52_overwritten_refuted"
   ],
   "note": "Correct if MPI copies the value before the stack slot is reused; refuted otherwise (the request is neither kept nor waited for)."
  },
  {
   "property": "C53",
   "status": "partial",
   "theorems": [
    "C53_ghosts_partial",
    "C53_far_region_refuted",
    "C53_dimensions_refuted"
   ],
   "note": "Exact for neighbours, up to four dimensions, positions in the box; a region within the cutoff that is not adjacent gets no ghost, more than four dimensions overflow (refutations)."
  },
  {
   "property": "C54",
   "status": "proved",
   "theorems": [
    "C54_gather"
   ],
   "note": "Every schedule, any MPI buffering."
  },
  {
   "property": "C55",
   "status": "partial",
   "theorems": [
    "C55_hard_sphere",
    "C55_lennard_jones",
    "C55_coulomb_refuted",
    "C55_buckingham_refuted",
    "C55_sweep"
   ],
   "note": "Hard spheres and Lennard-Jones; false for Coulomb and Buckingham (refutations)."
  },
  {
   "property": "C56",
   "status": "partial",
   "theorems": [
    "C56_energy_doubled_refuted"
   ],
   "note": "False of the code: a pair split over two processors is counted twice (C56_energy_doubled_refuted); nothing is missing from the model."
  },
  {
   "property": "C57",
   "status": "partial",
   "theorems": [
    "C57_virial",
    "C57_hooke_refuted"
   ],
   "note": "All pair forces but Hooke, which reports a virial for a force it does not apply (refutation)."
  },
  {
   "property": "C58",
   "status": "partial",
   "theorems": [
    "C58_bond",
    "C58_bond_3d",
    "C58_bond_2d_refuted"
   ],
   "note": "Generic and 3d bonds; the 2d bond exerts twice the force (refutation)."
  },
  {
   "property": "C59",
   "status": "proved",
   "theorems": [
    "C59_angular_momentum"
   ],
   "note": "Central forces, no wrapped pairs (scalar and SSE builds), exact real arithmetic."
  },
  {
   "property": "C60",
   "status": "partial",
   "theorems": [
    "C60_agree_partial",
    "C60_accelerations_refuted",
    "C60_overdamped_refuted"
   ],
   "note": "Every number of processors and steps, if velocities only are used (the default). Accelerations and the overdamped integrator deadlock (refutations)."
  },
  {
   "property": "C61",
   "status": "partial",
   "theorems": [
    "C61_fixed_partial",
    "C61_overdamped_refuted",
    "C61_overdamped_changes_refuted"
   ],
   "note": "The base integrator: any history; the overdamped integrator ignores the setting (refutations)."
  },
  {
   "property": "C62",
   "status": "partial",
   "theorems": [
    "C62_stop_together_partial",
    "C62_overshoot_refuted",
    "C62_empty_processor_refuted"
   ],
   "note": "Every number of processors (all with particles), time steps, calls and remakes that recur. A processor without particles deadlocks the others, and the overshoot has no bound (refutations)."
  },
  {
   "property": "C63",
   "status": "partial",
   "theorems": [
    "C63_checkpoints_partial",
    "C63_second_run_refuted"
   ],
   "note": "First run: every sequence of steps. False for later runs (refutation)."
  },
  {
   "property": "C64",
   "status": "partial",
   "theorems": [
    "C64_clusters_partial",
    "C64_touching_partial",
    "C64_order_refuted",
    "C64_holes_refuted",
    "C64_again_refuted"
   ],
   "note": "Every store without unused slots and every symmetric neighbour relation, which the range query gives for equal radii (C64_touching_partial). Unequal radii, removed particles and the largest size over several calls are refuted."
  },
  {
   "property": "C65",
   "status": "partial",
   "theorems": [
    "C65_round_trip_partial",
    "C65_no_vectors_refuted",
    "C65_nan_refuted",
    "C65_load_twice_refuted"
   ],
   "note": "Every header with at least one vector and one scalar or magnitude, plain names, every text of digits . - + e E. Empty lists of names, NaN and loading twice with one object are refuted. Rounding by the printer is a parameter."
  },
  {
   "property": "C66",
   "status": "partial",
   "theorems": [
    "C66_frames_partial",
    "C66_second_run_refuted",
    "C66_boundary_refuted",
    "C66_clear_refuted"
   ],
   "note": "First run of the recorder: every store, names, region and selection. A second run writes outside of the data, initialize() overwrites the region, clearing keeps magnitudes (refutations)."
  },
  {
   "property": "C67",
   "status": "partial",
   "theorems": [
    "C67_places_partial",
    "C67_no_radius_refuted"
   ],
   "note": "Record, save, load and look up, end to end, provided no scalar is named like a magnitude. Missing radii are not noticed (refutation)."
  },
  {
   "property": "C68",
   "status": "partial",
   "theorems": [
    "C68_constant_velocity_partial",
    "C68_distance_partial",
    "C68_distance_fixed_partial",
    "C68_acceleration",
    "C68_immovable",
    "C68_first_step_refuted",
    "C68_damped_refuted",
    "C68_order_refuted",
    "C68_start_refuted",
    "C68_axis_refuted",
    "C68_other_processor_refuted",
    "C68_owned"
   ],
   "note": "All runs after the first step. The first step, damping, later modifiers, start of a run, bad axis, change of processor: refutations."
  },
  {
   "property": "C69",
   "status": "partial",
   "theorems": [
    "C69_linear_partial",
    "C69_half_rate_refuted",
    "C69_quadratic_partial",
    "C69_quadratic_refuted"
   ],
   "note": "Linear: d dt / m at most 4; rate is half of d v / m (refuted). Quadratic: only components that are not negative (negative ones grow: refuted)."
  },
  {
   "property": "C70",
   "status": "partial",
   "theorems": [
    "C70_zones",
    "C70_wind_step",
    "C70_stream_step",
    "C70_uniform_partial",
    "C70_immovable_refuted"
   ],
   "note": "One step exactly; uniform motion in the zone without forces. Walls are carried along (refuted). Removal past the end is not modelled."
  },
  {
   "property": "C71",
   "status": "partial",
   "theorems": [
    "C71_columns_partial",
    "C71_in_time_partial",
    "C71_rows_partial",
    "C71_processors_partial",
    "C71_thin_processor_refuted",
    "C71_second_run_refuted",
    "C71_spacing_refuted"
   ],
   "note": "One run, every sequence of times; rows on processors that reach beyond half a spacing. Second run, thin processors, spacing of the constructor: refutations. Random displacements not modelled."
  },
  {
   "property": "C72",
   "status": "partial",
   "theorems": [
    "C72_interval_partial",
    "C72_zero_temperature",
    "C72_second_run_refuted"
   ],
   "note": "First run. In a second run it is off for as long as the first took (refuted)."
  },
  {
   "property": "C73",
   "status": "partial",
   "theorems": [
    "C73_two_walls",
    "C73_momentum_partial",
    "C73_net_force",
    "C73_momentum_refuted"
   ],
   "note": "Every distance with min <= max. Net force is zero only for walls of equal numbers and masses (refuted otherwise)."
  },
  {
   "property": "C74",
   "status": "partial",
   "theorems": [
    "C74_kinetic_partial",
    "C74_kinetic_removed_refuted",
    "C74_kinetic_average_refuted",
    "C74_kinetic_average_partial",
    "C74_rotational",
    "C74_total_partial",
    "C74_total_rotation_refuted",
    "C74_means",
    "C74_nothing_moves_refuted",
    "C74_division"
   ],
   "note": "All states and divisions. Kinetic energy: no removed particles in the store; its mean: no walls. Rotational energy counts twice in the total; means of nothing are not numbers (refutations)."
  },
  {
   "property": "C75",
   "status": "partial",
   "theorems": [
    "C75_numbers",
    "C75_all_counted",
    "C75_volume_fraction",
    "C75_energies_by_type_partial",
    "C75_energies_by_type_refuted"
   ],
   "note": "Numbers and volume fraction: all. Energies by type: one processor (others are ignored: refuted)."
  },
  {
   "property": "C76",
   "status": "partial",
   "theorems": [
    "C76_temperature_partial",
    "C76_pressure_partial",
    "C76_processors_refuted",
    "C76_at_rest_refuted",
    "C76_ghosts_refuted"
   ],
   "note": "One processor without ghosts and removed particles, positive temperature. Processors, ghosts, rest: refutations."
  },
  {
   "property": "C77",
   "status": "partial",
   "theorems": [
    "C77_averages",
    "C77_region",
    "C77_empty_region_refuted",
    "C77_cavity"
   ],
   "note": "All regions that contain a particle; an empty region gives no number (refuted)."
  },
  {
   "property": "C78",
   "status": "partial",
   "theorems": [
    "C78_sphere",
    "C78_sphere_missed_partial",
    "C78_camera_inside_refuted",
    "C78_box",
    "C78_box_oblique",
    "C78_box_missed_partial",
    "C78_box_far_refuted"
   ],
   "note": "Spheres seen from outside; boxes within distance 10000 (rays not parallel to a face: any distance). Refutations: camera in a sphere, far boxes."
  },
  {
   "property": "C79",
   "status": "partial",
   "theorems": [
    "C79_shown_is_hit",
    "C79_nothing_hidden_partial",
    "C79_nearest_partial",
    "C79_few_spheres_partial",
    "C79_crossing_refuted"
   ],
   "note": "Soundness: all. Nothing hidden: camera outside the spheres, distances below 10000. Nearest: if no sphere crosses a splitting plane (in particular at most 50 spheres, one leaf); otherwise refuted."
  },
  {
   "property": "C80",
   "status": "partial",
   "theorems": [
    "C80_camera_partial",
    "C80_camera_parallel_refuted",
    "C80_pixel",
    "C80_pixels_differ",
    "C80_colours",
    "C80_lit_and_dark"
   ],
   "note": "Up vector not parallel to the orientation (otherwise refuted). Pixels and colours: all."
  },
  {
   "property": "C81",
   "status": "partial",
   "theorems": [
    "C81_picked_in_region_partial",
    "C81_rectangle_evenly",
    "C81_contains",
    "C81_bounding_box",
    "C81_picking_ends",
    "C81_point_refuted"
   ],
   "note": "Rectangles with min < max, balls of non-zero radius; a ball of radius zero picks the origin (refuted)."
  },
  {
   "property": "C82",
   "status": "partial",
   "theorems": [
    "C82_particles_sound",
    "C82_volume_fraction",
    "C82_number_density",
    "C82_never_more",
    "C82_filling_ends_partial",
    "C82_points_refuted",
    "C82_excluded_refuted",
    "C82_processors_rectangle",
    "C82_processors_ball_refuted"
   ],
   "note": "Soundness: all. Density reached: no excluded regions. Ends: spheres of positive volume (refuted for radius zero). Processors: rectangles (balls refuted)."
  },
  {
   "property": "C83",
   "status": "partial",
   "theorems": [
    "C83_one_template_partial",
    "C83_total",
    "C83_templates_refuted",
    "C83_no_template_refuted",
    "C83_excluded_partial",
    "C83_excluded_refuted",
    "C83_processors_refuted"
   ],
   "note": "One template: exact. Several: the total is the largest number (refutations: numbers per template, no template, excluded regions after 51 attempts, several processors)."
  },
  {
   "property": "C84",
   "status": "partial",
   "theorems": [
    "C84_temperature_partial",
    "C84_exact",
    "C84_odd_refuted",
    "C84_one_refuted",
    "C84_immovable_refuted",
    "C84_excluded_refuted"
   ],
   "note": "Even numbers of movable particles, none excluded; exact value otherwise (refutations: odd numbers, one particle, immovable or excluded particles)."
  },
  {
   "property": "C85",
   "status": "partial",
   "theorems": [
    "C85_masses",
    "C85_proportional",
    "C85_equiprobable",
    "C85_discrete_values",
    "C85_discrete_exact_partial",
    "C85_discrete_refuted"
   ],
   "note": "Masses, proportional sizes, equiprobable types: all. Discrete probabilities: refuted (the value is read as its own probability)."
  },
  {
   "property": "C86",
   "status": "partial",
   "theorems": [
    "C86_wall_partial",
    "C86_spacing",
    "C86_hole_refuted",
    "C86_sticks_out_refuted",
    "C86_spacing_refuted"
   ],
   "note": "Default spacing, ends at least a diameter apart: within the ends, no overlap, gaps at most 2r/n (n = 1 leaves up to half the segment open: refuted). Other spacings: exact spacing; refutations."
  },
  {
   "property": "C87",
   "status": "proved",
   "theorems": [
    "C87_on_the_sphere",
    "C87_covers",
    "C87_ring",
    "C87_processors"
   ],
   "note": "All dimensions from 2 on; positions relative to real arithmetic; bounds test of a processor is arbitrary."
  },
  {
   "property": "C88",
   "status": "partial",
   "theorems": [
    "C88_primaries",
    "C88_no_overlap_partial",
    "C88_length_partial",
    "C88_beads_partial",
    "C88_unbonded_refuted",
    "C88_large_links_refuted"
   ],
   "note": "Primaries: all. No overlap: links not larger than primaries. Length: radius ratio an integer. Bonds: 2 and 3 dimensions (4 refuted)."
  },
  {
   "property": "C89",
   "status": "proved",
   "theorems": [
    "C89_random_line",
    "C89_ordered_line"
   ],
   "note": "Heights along the line before wrapping."
  },
  {
   "property": "C90",
   "status": "partial",
   "theorems": [
    "C90_number_partial",
    "C90_inside_partial",
    "C90_low_box_refuted",
    "C90_fraction_refuted"
   ],
   "note": "Number: height = width. Inside: height at least the width. Otherwise refuted."
  },
  {
   "property": "C91",
   "status": "partial",
   "theorems": [
    "C91_lines_visited",
    "C91_variables",
    "C91_empty_declaration_refuted",
    "C91_use_partial",
    "C91_product_refuted",
    "C91_small_value_refuted"
   ],
   "note": "Declarations: all. Uses: plain texts (refutations: a variable holding a product is not an expression within one, small values print in scientific notation, which reads as a subtraction; a declaration without a name is undefined)."
  },
  {
   "property": "C92",
   "status": "partial",
   "theorems": [
    "C92_dimensions",
    "C92_box",
    "C92_no_bounds",
    "C92_boundary_partial",
    "C92_boundary_order_refuted"
   ],
   "note": "Dimensions and bounds: all. Boundary per dimension: lines with equal headings, else they are taken in the order of their headings (refuted)."
  },
  {
   "property": "C93",
   "status": "partial",
   "theorems": [
    "C93_table_partial",
    "C93_parameters_refuted",
    "C93_table_order_refuted",
    "C93_one_for_all",
    "C93_random",
    "C93_absent",
    "C93_number_of_types"
   ],
   "note": "Table: one line per interaction name counts for the parameters, lines in the order of the file when headings are equal (refutations: parameters of later lines with the same name are ignored; lines are read sorted by heading). One for all, random: all."
  },
  {
   "property": "C94",
   "status": "partial",
   "theorems": [
    "C94_particle_partial",
    "C94_distance_refuted",
    "C94_short_position_refuted",
    "C94_no_radius_refuted",
    "C94_needed"
   ],
   "note": "Enough coordinates, a radius, no CV-D modifier (refuted otherwise: CV-D never reads its distance; short positions and empty radii are undefined)."
  },
  {
   "property": "C95",
   "status": "partial",
   "theorems": [
    "C95_settings",
    "C95_default_and_unknown",
    "C95_adjust_refuted"
   ],
   "note": "Settings: all; run by the driver, the time step adjustment and first time step of the file do not count (refuted)."
  },
  {
   "property": "C96",
   "status": "partial",
   "theorems": [
    "C96_hard_spheres_partial",
    "C96_empty_refuted",
    "C96_relax_partial",
    "C96_dangling_refuted",
    "C96_next_run",
    "C96_file"
   ],
   "note": "Processors with particles. Hard spheres: all. With the forces of the simulation: the objects keep pointers to the deleted integrator, and the forces of the last step stay, until the next run (refuted). An empty simulation stays in initialisation mode, so a later run does not record (refuted)."
  },
  {
   "property": "C97",
   "status": "proved",
   "theorems": [
    "C97_velocities"
   ],
   "note": "All stores that look up ids correctly (C02). Single Particle headings, walls and circles give no such velocity, so theirs is what relaxation left."
  },
  {
   "property": "C98",
   "status": "partial",
   "theorems": [
    "C98_step",
    "C98_noise",
    "C98_drag",
    "C98_unstable_refuted",
    "C98_second_run_refuted",
    "C98_settings"
   ],
   "note": "Steps, noise, settings: all. Slowing down: small time steps (refuted else). A second run has no noise until it is as long as the first (refuted)."
  },
  {
   "property": "C99",
   "status": "partial",
   "theorems": [
    "C99_step",
    "C99_viscosity_refuted"
   ],
   "note": "Steps: all, but the velocity is proportional to the viscosity (refuted)."
  },
  {
   "property": "C100",
   "status": "partial",
   "theorems": [
    "C100_half_step_partial",
    "C100_waiting_partial",
    "C100_new_partial",
    "C100_jump_refuted",
    "C100_immovable_refuted",
    "C100_processors_refuted"
   ],
   "note": "Movable particles on one processor; the scalar build. The first friction after the waiting time is computed with the temperature -1, immovable particles give undefined numbers, each processor has its own temperature (refuted). A temperature cannot be set."
  },
  {
   "property": "C101",
   "status": "partial",
   "theorems": [
    "C101_own_pairs_partial"
   ],
   "note": "Under the conditions of C20 and C21 on the cells, and if a split periodic axis is longer than the region and the range together. The refutations of C20 and C21 apply (one processor is a special case)."
  },
  {
   "property": "C102",
   "status": "partial",
   "theorems": [
    "C102_ghost_pairs_partial",
    "C102_types_partial",
    "C102_exact_cells_refuted",
    "C102_stencil_filter_refuted",
    "C102_types_refuted"
   ],
   "note": "Ranges up to the cell size, cell sizes outside the ranges in which the stencil filter drops neighbours, and cells 1/1000 wider than the range (refuted else). Types: one type for all particles and no more ghosts than own particles; else the types are looked up with the id of the ghost among the own particles (refuted)."
  },
  {
   "property": "C103",
   "status": "partial",
   "theorems": [
    "C103_across_processors_partial",
    "C103_small_next_to_large_refuted"
   ],
   "note": "If the range is at most the ghost cutoff of the particle, and under the conditions of C102. The cutoff only takes the radius of the particle sent into account: a small particle next to a large one across a border has no ghost (refuted)."
  },
  {
   "property": "C104",
   "status": "partial",
   "theorems": [
    "C104_together_partial",
    "C104_when_partial",
    "C104_delay_partial",
    "C104_one_processor",
    "C104_delay_range_partial",
    "C104_no_particles_refuted",
    "C104_own_flag_refuted"
   ],
   "note": "If every processor has particles, and (decision types 1 and 2) none is asked to rebuild alone. A processor without particles does not take part; one that removed particles rebuilds alone (refuted)."
  },
  {
   "property": "C105",
   "status": "partial",
   "theorems": [
    "C105_cell_size_partial",
    "C105_skin_set_partial",
    "C105_no_particles_refuted"
   ],
   "note": "If every processor has an interacting particle; one that has none does not take part (refuted). The skin depth a processor chooses is an input of the model."
  },
  {
   "property": "C106",
   "status": "partial",
   "theorems": [
    "C106_layout",
    "C106_defined_partial",
    "C106_too_large_refuted"
   ],
   "note": "Exactly if the width times the depth is below 2^31 and the file below 2^32 bytes; larger pictures are not refused (refuted)."
  },
  {
   "property": "C107",
   "status": "partial",
   "theorems": [
    "C107_read_back",
    "C107_other_files",
    "C107_truncated_refuted",
    "C107_offset_refuted",
    "C107_made",
    "C107_clamped"
   ],
   "note": "All pictures that can be written; other signatures refused. A file that ends early is read without an error, and a wrong offset of the pixels makes the reader write outside of its table (both refuted)."
  },
  {
   "property": "C108",
   "status": "proved",
   "theorems": [
    "C108_shown",
    "C108_cover",
    "C108_inside",
    "C108_cover_again"
   ],
   "note": "All sequences of calls. Covering a part again at the same depth changes nothing (shown by C108_cover_again), as the rule for equal depths says."
  },
  {
   "property": "C109",
   "status": "partial",
   "theorems": [
    "C109_circle_partial",
    "C109_no_bounds_refuted",
    "C109_wrapped_depth_refuted",
    "C109_large_refuted"
   ],
   "note": "For centres in the palette and radii up to its size, all depths of pixels that are not wrapped. Wrapped pixels are drawn at depth 0, larger circles are drawn outside of the palette, and a new sub-palette has no space bounds (refuted)."
  },
  {
   "property": "C110",
   "status": "partial",
   "theorems": [
    "C110_sub_partial",
    "C110_rows_refuted",
    "C110_larger_refuted",
    "C110_centered_partial",
    "C110_max_partial",
    "C110_max_refuted"
   ],
   "note": "Ranges within the palette: columns as asked, rows counted from the other side (as asked only for ranges symmetric to the middle); ratios up to the integer part of the own ratio or from the own ratio on. Otherwise refuted."
  },
  {
   "property": "C111",
   "status": "partial",
   "theorems": [
    "C111_reverse",
    "C111_line",
    "C111_steep",
    "C111_mixed_refuted"
   ],
   "note": "Which pixels and how faint: all lines. The faint pixels are not mixed with what was there (refuted)."
  },
  {
   "property": "C112",
   "status": "partial",
   "theorems": [
    "C112_not_deleted",
    "C112_released_partial",
    "C112_leak_refuted"
   ],
   "note": "No palette ever loses its picture; released exactly at the end without assignments. An assignment leaks the picture (refuted)."
  },
  {
   "property": "C113",
   "status": "partial",
   "theorems": [
    "C113_picture_partial",
    "C113_region_partial",
    "C113_wide_refuted",
    "C113_flat_refuted"
   ],
   "note": "The pixels: all pictures whose region lies in the picture, particles in the system. The region: systems at least as high as wide; for wider ones the region can reach over the border, and flat ones have no picture at all (refuted)."
  },
  {
   "property": "C114",
   "status": "partial",
   "theorems": [
    "C114_values",
    "C114_positions",
    "C114_radius_refuted",
    "C114_option_partial",
    "C114_stale_refuted"
   ],
   "note": "Values by name, positions checked, the preferred data of an option: all data sets. Missing radii are not noticed, and the way of colouring of an earlier option stays (refuted)."
  },
  {
   "property": "C115",
   "status": "partial",
   "theorems": [
    "C115_scales_partial",
    "C115_average_refuted",
    "C115_value_partial",
    "C115_equal_refuted",
    "C115_bank",
    "C115_bank_all",
    "C115_stripes"
   ],
   "note": "Least and largest value, colours by value, stripes and numbers: all lists. The averages are 0 from two particles on, and there is no colour if all values are equal (refuted). Colours by direction and logarithm are not modelled."
  },
  {
   "property": "C116",
   "status": "partial",
   "theorems": [
    "C116_resets_partial",
    "C116_first_run_partial",
    "C116_second_run_refuted"
   ],
   "note": "Data objects whose pre_integrate calls that of DataObject: all histories of runs with delay at most 10. Others: the first run only; a second run not longer than the recorded part of the first is not recorded at all (refuted)."
  },
  {
   "property": "C117",
   "status": "partial",
   "theorems": [
    "C117_angular_partial",
    "C117_rotation_partial"
   ],
   "note": "All groups of finite mass in two dimensions. The constructors that are given a group use the uninitialised member gflow (their parameter has no name): not modelled."
  },
  {
   "property": "C118",
   "status": "partial",
   "theorems": [
    "C118_average_partial",
    "C118_straight",
    "C118_no_samples_refuted"
   ],
   "note": "All chains of at least three members with bonds of positive length, at least one recording. Without recordings the numbers of bonds are wrong (refuted)."
  },
  {
   "property": "C119",
   "status": "partial",
   "theorems": [
    "C119_distance_partial",
    "C119_far_refuted",
    "C119_bins_partial",
    "C119_one_bin",
    "C119_rows"
   ],
   "note": "All positions within 10000 of each other; beyond that the distance is wrong (refuted). The factor for the forces (temperature, density) is a parameter of the model."
  },
  {
   "property": "C120",
   "status": "partial",
   "theorems": [
    "C120_counts_partial",
    "C120_one_bin",
    "C120_below_refuted",
    "C120_labels_partial",
    "C120_force_label_refuted"
   ],
   "note": "Counts: values not just below the least one; those are counted in the first bin (refuted). Labels: the middle for distances of the velocity file, lower edges otherwise; forces have labels that are off by up to a bin (refuted)."
  },
  {
   "property": "C121",
   "status": "partial",
   "theorems": [
    "C121_find_partial",
    "C121_file_partial",
    "C121_again_refuted"
   ],
   "note": "All sequences, with the value recorded first; a later value is dropped (refuted)."
  },
  {
   "property": "C122",
   "status": "proved",
   "theorems": [
    "C122_table",
    "C122_rectangular",
    "C122_build",
    "C122_missing"
   ],
   "note": "All tables. How a stream prints a number is a parameter (without commas and newlines)."
  },
  {
   "property": "C123",
   "status": "proved",
   "theorems": [
    "C123_time"
   ],
   "note": "All times of at least 60 s, as exact rationals. Below that the stream prints the number."
  },
  {
   "property": "C124",
   "status": "partial",
   "theorems": [
    "C124_delay",
    "C124_frames_partial",
    "C124_start_refuted"
   ],
   "note": "All runs with a delay of at most 10. For a longer delay (short videos of long runs) the beginning is not recorded (refuted)."
  },
  {
   "property": "C125",
   "status": "partial",
   "theorems": [
    "C125_forces",
    "C125_third_law",
    "C125_border_refuted"
   ],
   "note": "All pairs in the list of pairs that do not cross a border. Pairs across periodic borders are kept in another list, which is not looked at (refuted)."
  },
  {
   "property": "C126",
   "status": "proved",
   "theorems": [
    "C126_turn_on",
    "C126_separated"
   ],
   "note": "All random numbers for which the search for places ends. The search for a free place is a parameter: that it finds everything near is a hypothesis of C126_separated only."
  },
  {
   "property": "C127",
   "status": "partial",
   "theorems": [
    "C127_files_partial",
    "C127_counts_partial",
    "C127_dimensions_refuted",
    "C127_speed_refuted",
    "C127_file_refuted"
   ],
   "note": "Two dimensions, velocities stored after the positions, no particle below the bounds (cf. C50_grid_below_refuted). In three dimensions the third coordinate is taken for a velocity; the mean speed of a cell (not written to a file) is not a mean; without the option snapshot the field is looked for in a file that does not exist (refuted)."
  },
  {
   "property": "C128",
   "status": "proved",
   "theorems": [
    "C128_arguments"
   ],
   "note": "Asynchronous semantics of MPI collectives: each processor goes on as soon as it has what it needs. Arguments without the characters 0 (as from C strings)."
  },
  {
   "property": "C129",
   "status": "partial",
   "theorems": [
    "C129_success_partial",
    "C129_failure_partial",
    "C129_run_refuted",
    "C129_open_refuted"
   ],
   "note": "Failures of the parser and of the creation of the simulation (without calls of MPI of their own), and success. If run() fails, processor 0 writes the data alone, and if the file of the summary cannot be opened processor 0 leaves out reductions: MPI is used wrongly in some schedule (refuted)."
  },
  {
   "property": "C130",
   "status": "partial",
   "theorems": [
    "C130_numbers_partial",
    "C130_removed_refuted",
    "C130_ghosts_refuted",
    "C130_extremes_partial",
    "C130_means_partial",
    "C130_first_refuted",
    "C130_energy_refuted",
    "C130_quantities"
   ],
   "note": "Numbers: no removed particles, no ghosts; means: particles of processor 0 only; extremes: the first particle can move. Otherwise memory outside of vectors is used or immovable particles are reported; the smallest and largest kinetic energies are twice the real ones (refuted)."
  },
  {
   "property": "C131",
   "status": "partial",
   "theorems": [
    "C131_forces_of_all_pairs_partial",
    "C131_force_of_two",
    "C131_hard_spheres_partial",
    "C131_any_search_partial",
    "C131_large_particles_refuted"
   ],
   "note": "One processor; the conditions of C20-C22 (cutoffs at most the contact distance, box of at least four cells per periodic axis, tolerance times factor at most 1, large particles of different sizes) and ranges of large particles below half the box: large particles farther apart act at the wrong image (refuted)."
  },
  {
   "property": "C132",
   "status": "partial",
   "theorems": [
    "C132_energy_of_two",
    "C132_energy_of_all_pairs_partial",
    "C132_not_asked"
   ],
   "note": "As C131; interactions whose force has an energy. Not asked for: 0 is reported."
  },
  {
   "property": "C133",
   "status": "partial",
   "theorems": [
    "C133_step_partial",
    "C133_momentum_partial",
    "C133_without_simd_refuted",
    "C133_several_interactions_refuted"
   ],
   "note": "One Hooke interaction, compiled with SIMD instructions. Without (as the Makefile does on common machines) particles at odd places never change their angular velocity; with several Hooke interactions the torques act as many times (refuted)."
  },
  {
   "property": "C134",
   "status": "proved",
   "theorems": [
    "C134_friction"
   ],
   "note": "Relative to the same contact without friction (the normal force is the subject of C26). Two particles of the same processor; ghosts keep old angular velocities."
  },
  {
   "property": "C135",
   "status": "partial",
   "theorems": [
    "C135_overlap_partial",
    "C135_conserved_refuted"
   ],
   "note": "The error is the friction force times the overlap of the particles; since they always overlap when they interact, angular momentum is not conserved (refuted)."
  },
  {
   "property": "C136",
   "status": "partial",
   "theorems": [
    "C136_forces_of_every_step_partial",
    "C136_requested_searches_refuted",
    "C136_growing_time_step_refuted",
    "C136_starting_to_move_refuted"
   ],
   "note": "One processor; no large particles; periodic and open axes; no particle moves farther than half the skin within max_update_delay; nobody else requests a search; the time step does not grow. Each of the last three conditions is needed (refuted)."
  },
  {
   "property": "C137",
   "status": "partial",
   "theorems": [
    "C137_lists_are_young_partial",
    "C137_delay_compared",
    "C137_old_lists_refuted"
   ],
   "note": "Nobody else requests a search (each request makes the next wait longer) and the time step does not grow (both refuted)."
  },
  {
   "property": "C138",
   "status": "proved",
   "theorems": [
    "C138_no_search_comes_too_late",
    "C138_constant_velocities"
   ],
   "note": "One processor; no large particles; periodic and open axes; nobody else requests a search; no particle moves farther than tolerated in a single step or within the initial delay of 1e-4."
  },
  {
   "property": "C139",
   "status": "partial",
   "theorems": [
    "C139_forces_of_steady_motion_partial",
    "C139_default_tolerance_refuted"
   ],
   "note": "Proved when mv_ratio_tolerance * motion_factor <= 1. With the values of the code (0.95 * 1.2) two particles that fly towards each other overlap without a force (refuted)."
  },
  {
   "property": "C140",
   "status": "proved",
   "theorems": [
    "C140_trajectory",
    "C140_lists_do_not_matter",
    "C140_vocabulary"
   ],
   "note": "Exact real arithmetic; one processor; no modifiers; wrapping is any function of the positions that keeps their number. That the neighbour search builds such lists is C131, C136 and C139."
  },
  {
   "property": "C141",
   "status": "proved",
   "theorems": [
    "C141_numbering"
   ],
   "note": "Exact real arithmetic (in floating point the order of summation changes the last digits); one processor; no modifiers."
  },
  {
   "property": "C142",
   "status": "proved",
   "theorems": [
    "C142_moving_observer"
   ],
   "note": "Exact real arithmetic; no position is wrapped during the run."
  },
  {
   "property": "C143",
   "status": "partial",
   "theorems": [
    "C143_averages_partial",
    "C143_removed_ignored",
    "C143_processors_refuted",
    "C143_nothing_refuted"
   ],
   "note": "Proved for one processor with at least one particle. On several processors only the particles of the first count, and without particles the entries are not numbers (refuted)."
  },
  {
   "property": "C144",
   "status": "partial",
   "theorems": [
    "C144_boundary_force",
    "C144_average",
    "C144_bonds",
    "C144_bonds_mean_partial",
    "C144_bonds_removed_refuted"
   ],
   "note": "Proved, except that the mean bond energy counts the places of removed particles (refuted; proved when none was removed)."
  },
  {
   "property": "C145",
   "status": "partial",
   "theorems": [
    "C145_sizes_partial",
    "C145_skin_refuted",
    "C145_empty_refuted"
   ],
   "note": "Proved for skin 0, at least one particle, no places of removed particles and particles that see each other mutually. The skin that is asked for is ignored, and an empty store repeats the previous record (refuted)."
  },
  {
   "property": "C146",
   "status": "partial",
   "theorems": [
    "C146_line_partial",
    "C146_processors_refuted",
    "C146_length_partial",
    "C146_length_refuted"
   ],
   "note": "Proved for one processor without ghosts and removed particles. On several processors density and temperature are those of the first one, and a line listed downwards has a negative length (refuted)."
  },
  {
   "property": "C147",
   "status": "partial",
   "theorems": [
    "C147_parallel_partial",
    "C147_as_on_one_processor_partial",
    "C147_divisions_agree_partial",
    "C147_hooke_refuted",
    "C147_hooke_wrong_particle_refuted"
   ],
   "note": "Proved for whole runs, under the condition that in each step the ghosts and lists are right (all particles in range are ghosts, at an image of their place; C91-C103 say when this is so), that the range is at most half the width of the box, and for all forces but Hooke. For Hooke the force on a particle differs between one and two processors (refuted). Torques, bonds and modifiers are not in this model."
  },
  {
   "property": "C148",
   "status": "partial",
   "theorems": [
    "C148_recorded",
    "C148_total_partial",
    "C148_moved_refuted"
   ],
   "note": "What is recorded is proved exactly (C148_recorded): the forces on the members that were alive on the processor that added them at every recording so far. This is the total force on the living members as long as no member moves to another processor; a member that does is dropped from the group for good (C148_moved_refuted)."
  },
  {
   "property": "C149",
   "status": "partial",
   "theorems": [
    "C149_data_stays_partial",
    "C149_stripe_is_first_height_partial",
    "C149_never_fails"
   ],
   "note": "Proved for all histories except those with a correction of the ids after the run has begun (OpShift; it is made before runs begin, C09) and those that C04 and C11 refute (removal of all particles)."
  },
  {
   "property": "C150",
   "status": "partial",
   "theorems": [
    "C150_bonds_partial",
    "C150_bonds_never_fail_partial",
    "C150_own_loop_partial",
    "C150_chain_partial",
    "C150_chain_never_fails_partial",
    "C150_removed_refuted",
    "C150_pulls_to_removed_refuted",
    "C150_late_sort_refuted",
    "C150_chain_first_atom_refuted"
   ],
   "note": "All histories in which nothing is reordered after the forces of a step (late sort: refuted), for bonds whose particles both live. When a bonded particle is removed the bonds access place -1 or pull towards a removed particle; a chain begun between steps takes the id of its first atom for its place (refutations)."
  }
 ]
}