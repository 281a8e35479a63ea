{
 "claims": [
  {
   "property": "C01",
   "status": "proved",
   "theorems": [
    "C01_encode_is_interleave",
    "C01_decode_encode",
    "C01_encode_decode",
    "C01_encode_injective",
    "C01_alias_outside_range",
    "C01_codes_stay_in_square",
    "C01_every_code"
   ],
   "note": ""
  },
  {
   "property": "C02",
   "status": "proved",
   "theorems": [
    "C02_encode_is_interleave",
    "C02_decode_encode",
    "C02_encode_decode",
    "C02_encode_injective",
    "C02_alias_outside_range",
    "C02_every_code"
   ],
   "note": ""
  },
  {
   "property": "C03",
   "status": "proved",
   "theorems": [
    "C03_sparse_2d",
    "C03_sparse_3d",
    "C03_dense_2d",
    "C03_dense_3d",
    "C03_traversal_2d",
    "C03_traversal_3d",
    "C03_reload_2d",
    "C03_reload_3d"
   ],
   "note": ""
  },
  {
   "property": "C04",
   "status": "proved",
   "theorems": [
    "C04_lookup_inverts_2d",
    "C04_lookup_inverts_3d",
    "C04_wide_grid_2d_refuted",
    "C04_wide_grid_3d_refuted"
   ],
   "note": "2D/3D inversion proved for grids within the Morton range; _refuted theorems show wider grids are accepted and lose tiles"
  },
  {
   "property": "C05",
   "status": "proved",
   "theorems": [
    "C05_loop_index_2d",
    "C05_loop_index_3d",
    "C05_bijection_2d",
    "C05_bijection_3d"
   ],
   "note": ""
  },
  {
   "property": "C06",
   "status": "proved",
   "theorems": [
    "C06_history_independent_2d",
    "C06_history_independent_3d",
    "C06_has_leaves_meaning_2d",
    "C06_has_leaves_meaning_3d",
    "C06_negative_corner_2d_refuted",
    "C06_negative_corner_3d_refuted"
   ],
   "note": "history independence proved; _refuted theorems: fresh generator reports data at (-1,-1)"
  },
  {
   "property": "C07",
   "status": "proved",
   "theorems": [
    "C07_dense_2d_outcome",
    "C07_dense_3d_outcome",
    "C07_sparse_2d_outcome",
    "C07_sparse_3d_outcome"
   ],
   "note": "UB = signed overflow of the number of tiles; example 2^20 x 2^20 cells with blocks of 16"
  },
  {
   "property": "C08",
   "status": "proved",
   "theorems": [
    "C08_read_back",
    "C08_independent",
    "C08_large_values"
   ],
   "note": ""
  },
  {
   "property": "C09",
   "status": "proved",
   "theorems": [
    "C09_hyperblock_permutation",
    "C09_odd_rejected",
    "C09_row_major_3d"
   ],
   "note": ""
  },
  {
   "property": "C10",
   "status": "proved",
   "theorems": [
    "C10_levels_consecutive_2d",
    "C10_levels_consecutive_3d",
    "C10_bijection_2d",
    "C10_bijection_3d",
    "C10_loop_index_2d",
    "C10_loop_index_3d",
    "C10_too_many_levels_rejected",
    "C10_too_many_levels_rejected_3d",
    "C10_level_coarser_than_block_refuted"
   ],
   "note": "for max level <= log2(block size); _refuted theorem: coarser levels are accepted and index one past the end"
  },
  {
   "property": "C11",
   "status": "proved",
   "theorems": [
    "C11_history_independent_2d",
    "C11_history_independent_3d"
   ],
   "note": ""
  },
  {
   "property": "C12",
   "status": "proved",
   "theorems": [
    "C12_rehydrate_2d",
    "C12_rehydrate_host_3d",
    "C12_page_2d",
    "C12_page_3d",
    "C12_round_trip_2d",
    "C12_round_trip_3d"
   ],
   "note": "2D and 3D-host overloads, pages, and the sparsify/rehydrate round trip, for every schedule"
  },
  {
   "property": "C13",
   "status": "proved",
   "theorems": [
    "C13_device_3d_refuted"
   ],
   "note": "REFUTED: the device overload faults on every non-empty grid (MiscSparse.cpp:199 tests z instead of y)"
  },
  {
   "property": "C14",
   "status": "proved",
   "theorems": [
    "C14_not_closed_refuted",
    "C14_interior_closed",
    "C14_full_grid_closed"
   ],
   "note": "C14_not_closed_refuted: violated on sparse grids, for every execution on the witness grid. C14_interior_closed and C14_full_grid_closed give the reads for which it holds."
  },
  {
   "property": "C15",
   "status": "proved",
   "theorems": [
    "C15_closed_3d"
   ],
   "note": "including zero-weight reads"
  },
  {
   "property": "C16",
   "status": "proved",
   "theorems": [
    "C16_executions_exist_2d",
    "C16_executions_exist_3d",
    "C16_cascade0_exact_2d",
    "C16_upper_exact_2d",
    "C16_marks_in_bounds_2d",
    "C16_exact_3d"
   ],
   "note": "2D limited to cascade-1 grids within the 2^16 Morton range"
  },
  {
   "property": "C17",
   "status": "proved",
   "theorems": [
    "C17_dense_bijection_2d",
    "C17_dense_bijection_3d"
   ],
   "note": ""
  },
  {
   "property": "C18",
   "status": "proved",
   "theorems": [
    "C18_in_bounds_2d",
    "C18_no_collision_2d",
    "C18_onto_2d",
    "C18_storage_of_rays_2d",
    "C18_in_bounds_3d",
    "C18_no_collision_3d",
    "C18_onto_3d"
   ],
   "note": ""
  },
  {
   "property": "C19",
   "status": "proved",
   "theorems": [
    "C19_children_partition_2d",
    "C19_children_valid_2d",
    "C19_subsets_partition_2d",
    "C19_children_mean_angle_2d",
    "C19_preaverage_texel_2d",
    "C19_subsets_partition_3d",
    "C19_children_partition_3d",
    "C19_children_subset_3d",
    "C19_children_count_2d",
    "C19_children_count_3d"
   ],
   "note": ""
  },
  {
   "property": "C20",
   "status": "proved",
   "theorems": [
    "C20_joined_2d",
    "C20_tiling_2d",
    "C20_positive_2d",
    "C20_last_interval_refuted",
    "C20_joined_3d",
    "C20_tiling_3d",
    "C20_positive_3d",
    "C20_powi"
   ],
   "note": "joined/tiling proved for every configuration; _refuted: for num_cascades=8 the committed configuration reverses the top interval (from > to)"
  },
  {
   "property": "C21",
   "status": "proved",
   "theorems": [
    "C21_weights_2d",
    "C21_weights_3d",
    "C21_reads_in_bounds_2d",
    "C21_reads_in_bounds_3d",
    "C21_affine_2d",
    "C21_affine_3d"
   ],
   "note": "2D bilinear and 3D trilinear"
  },
  {
   "property": "C22",
   "status": "proved",
   "theorems": [
    "C22_buffers_distinct",
    "C22_reads_previous_cascade",
    "C22_buffers_large_enough"
   ],
   "note": ""
  },
  {
   "property": "C23",
   "status": "proved",
   "theorems": [
    "C23_march_computes_recursion",
    "C23_dense_march",
    "C23_schedule_independent"
   ],
   "note": "end-to-end march vs a ray recursion, any schedule, dirty buffers; the ray integral itself is an arbitrary function"
  },
  {
   "property": "C24",
   "status": "proved",
   "theorems": [
    "C24_J_gains_mean_intensity",
    "C24_rest_unchanged",
    "C24_isotropic",
    "C24_dense",
    "C24_sparse",
    "C24_plane",
    "C24_host_copy"
   ],
   "note": "one wavelength batch end to end (all subsets, any schedules), dense and sparse storage, host copy; exact arithmetic"
  },
  {
   "property": "C25",
   "status": "proved",
   "theorems": [
    "C25_unpack_is_row_major",
    "C25_each_tuple_once",
    "C25_cuda_launch",
    "C25_cuda_launch_wraps_refuted",
    "C25_rank2_overflow_refuted"
   ],
   "note": "proved within the int ranges; _refuted theorems for the overflows"
  },
  {
   "property": "C26",
   "status": "proved",
   "theorems": [
    "C26_division",
    "C26_each_iteration_once",
    "C26_needs_two_blocks"
   ],
   "note": ""
  },
  {
   "property": "C27",
   "status": "proved",
   "theorems": [
    "C27_each_wavelength_once",
    "C27_terminates",
    "C27_progress"
   ],
   "note": ""
  },
  {
   "property": "C28",
   "status": "proved",
   "theorems": [
    "C28_batch_handed_out_twice_refuted",
    "C28_later_solutions_safe"
   ],
   "note": "REFUTED for the first formal solution; later ones proved safe for every interleaving"
  },
  {
   "property": "C29",
   "status": "proved",
   "theorems": [
    "C29_static_partition"
   ],
   "note": ""
  },
  {
   "property": "C30",
   "status": "proved",
   "theorems": [
    "C30_march_is_formal_solution",
    "C30_split",
    "C30_cascade_split",
    "C30_merge_assoc",
    "C30_unstored_tau_needs_order",
    "C30_voxel_subdivision",
    "C30_average_then_merge",
    "C30_transfer_equation"
   ],
   "note": "real-number semantics; also the continuous transfer equation (C30_transfer_equation)"
  },
  {
   "property": "C31",
   "status": "proved",
   "theorems": [
    "C31_source_defined",
    "C31_bounded",
    "C31_nonneg",
    "C31_isothermal",
    "C31_vacuum"
   ],
   "note": ""
  },
  {
   "property": "C32",
   "status": "proved",
   "theorems": [
    "C32_clip_exact",
    "C32_start_clipped",
    "C32_update_origin",
    "C32_negative_zero_refuted"
   ],
   "note": "clip exact in real arithmetic; _refuted: direction -0.0 with origin on a face"
  },
  {
   "property": "C33",
   "status": "proved",
   "theorems": [
    "C33_upper_bound",
    "C33_upper_bound_in_bounds",
    "C33_interp_clamps",
    "C33_interp_inside",
    "C33_interp_at_node"
   ],
   "note": ""
  },
  {
   "property": "C34",
   "status": "proved",
   "theorems": [
    "C34_mips_are_means",
    "C34_tile_level",
    "C34_level_stored",
    "C34_thin_blocks_merge",
    "C34_uniform_blocks_merge",
    "C34_criterion"
   ],
   "note": "2D storage level for any schedule; criterion in reals; 3D mips are C94"
  },
  {
   "property": "C35",
   "status": "proved",
   "theorems": [
    "C35_merged_grid",
    "C35_tie_order_irrelevant",
    "C35_one_governor",
    "C35_covers_model",
    "C35_bins",
    "C35_single_wavelength_refuted",
    "C35_index_range",
    "C35_index_range_inside",
    "C35_sigma_ranges",
    "C35_governing_index"
   ],
   "note": "rational wavelengths; hypotheses: own grids non-empty, strictly ascending, distances < 1e8; _refuted: a one-wavelength model reads past the grid"
  },
  {
   "property": "C36",
   "status": "proved",
   "theorems": [
    "C36_active_set",
    "C36_no_active_set_past_end",
    "C36_sixteen_bit_refuted",
    "C36_active_set_equals_scan",
    "C36_only_active_matter",
    "C36_all_is_static_plus_dynamic"
   ],
   "note": "_refuted beyond 65536 transitions (u16); static + dynamic for any commutative, associative addition with zero"
  },
  {
   "property": "C37",
   "status": "proved",
   "theorems": [
    "C37_mapping",
    "C37_throws_iff",
    "C37_visits_active_lines"
   ],
   "note": ""
  },
  {
   "property": "C38",
   "status": "proved",
   "theorems": [
    "C38_fixup",
    "C38_diagonal_ignored",
    "C38_idempotent",
    "C38_rate_of_change"
   ],
   "note": ""
  },
  {
   "property": "C39",
   "status": "proved",
   "theorems": [
    "C39_statistical_equilibrium",
    "C39_all_levels_populated",
    "C39_elimination_irrelevant",
    "C39_eliminated_level",
    "C39_unpivoted_refuted"
   ],
   "note": "exact real arithmetic; also covers the elimination algorithm itself; _refuted: zero pivot"
  },
  {
   "property": "C40",
   "status": "proved",
   "theorems": [
    "C40_positive",
    "C40_sums_to_element_density",
    "C40_sum_with_floor",
    "C40_saha_boltzmann",
    "C40_hydrogen_ionisation",
    "C40_hydrogen_saha",
    "C40_detailed_balance",
    "C40_lte_is_collisional_equilibrium",
    "C40_solver_returns_lte"
   ],
   "note": "exact real arithmetic; Saha powers as the code's repeated division"
  },
  {
   "property": "C41",
   "status": "proved",
   "theorems": [
    "C41_rate_probe_restores_state",
    "C41_number_and_charge",
    "C41_pressure",
    "C41_newton_step",
    "C41_converged_is_solution",
    "C41_solution_is_fixed_point"
   ],
   "note": "exact arithmetic; LU modelled as unpivoted elimination (None: zero pivot)"
  },
  {
   "property": "C42",
   "status": "proved",
   "theorems": [
    "C42_electron_density",
    "C42_electron_density_negative_refuted",
    "C42_populations_negative_refuted",
    "C42_schedule_dependent_refuted"
   ],
   "note": "electron density: iff theorem; REFUTED for large updates, populations, and determinism"
  },
  {
   "property": "C43",
   "status": "proved",
   "theorems": [
    "C43_restores_pressure",
    "C43_clamped_not_restored",
    "C43_electron_density_sign",
    "C43_neutral_state",
    "C43_electron_density_negative_refuted"
   ],
   "note": "iff theorems; REFUTED: negative electron density witness"
  },
  {
   "property": "C44",
   "status": "proved",
   "theorems": [
    "C44_hydrogen_sum",
    "C44_hydrogen_sum_refuted",
    "C44_other_atoms"
   ],
   "note": "REFUTED for every state whose density changes; other atoms proved"
  },
  {
   "property": "C45",
   "status": "proved",
   "theorems": [
    "C45_reported_is_maximum",
    "C45_detects",
    "C45_schedule_irrelevant",
    "C45_nan_change",
    "C45_nan_ignored_refuted",
    "C45_all_nan_converges_refuted",
    "C45_change_value"
   ],
   "note": "Refuted part: C45_nan_ignored_refuted, C45_all_nan_converges_refuted. Any reduction tree."
  },
  {
   "property": "C46",
   "status": "proved",
   "theorems": [
    "C46_terminates",
    "C46_exit",
    "C46_acceleration",
    "C46_reachable_ok",
    "C46_stops_when_allowed"
   ],
   "note": ""
  },
  {
   "property": "C47",
   "status": "proved",
   "theorems": [
    "C47_restart_same_result",
    "C47_restart_same_states",
    "C47_ng_history_lost_refuted",
    "C47_converged_not_recorded"
   ],
   "note": "Without Ng: exact. With Ng: C47_ng_history_lost_refuted."
  },
  {
   "property": "C48",
   "status": "proved",
   "theorems": [
    "C48_ranks_agree",
    "C48_ranks_agree_from_FS2",
    "C48_first_two_refuted",
    "C48_special_pops_refuted"
   ],
   "note": "Exact from FS2 and on restarts; refuted at FS 0/1."
  },
  {
   "property": "C49",
   "status": "proved",
   "theorems": [
    "C49_right_slot_iff",
    "C49_all_with_gamma",
    "C49_wrong_slot_refuted",
    "C49_detailed_solved_refuted"
   ],
   "note": "iff characterisation; refuted with a Detailed atom first."
  },
  {
   "property": "C50",
   "status": "proved",
   "theorems": [
    "C50_net_rate_unchanged",
    "C50_net_rate_floor_error",
    "C50_no_operator",
    "C50_rates_nonneg"
   ],
   "note": "also: error made by the 1e-20 opacity offset, non-negativity condition"
  },
  {
   "property": "C51",
   "status": "proved",
   "theorems": [
    "C51_continuum_lte_source",
    "C51_line_lte_source"
   ],
   "note": ""
  },
  {
   "property": "C52",
   "status": "proved",
   "theorems": [
    "C52_sequence",
    "C52_scalar_or_absent",
    "C52_undefined_iff_refuted",
    "C52_max_level"
   ],
   "note": "exact characterisation; C52_undefined_iff_refuted"
  },
  {
   "property": "C53",
   "status": "proved",
   "theorems": [
    "C53_with_section",
    "C53_requested",
    "C53_densities",
    "C53_conservation_requested",
    "C53_without_section_refuted",
    "C53_negative_cascade_refuted"
   ],
   "note": "with section proved; _refuted without it"
  },
  {
   "property": "C54",
   "status": "proved",
   "theorems": [
    "C54_edges",
    "C54_overlap_mean",
    "C54_edge_bins",
    "C54_bounded",
    "C54_flux_conserved",
    "C54_single_wavelength_refuted",
    "C54_straddling_bin_refuted"
   ],
   "note": "exact reals; the outer edges extrapolate half a spacing as in the code"
  },
  {
   "property": "C55",
   "status": "proved",
   "theorems": [
    "C55_storage_partition",
    "C55_decode",
    "C55_samples_inside",
    "C55_unit_step_refuted"
   ],
   "note": ""
  },
  {
   "property": "C56",
   "status": "proved",
   "theorems": [
    "C56_normalised",
    "C56_degenerate",
    "C56_positive",
    "C56_rates",
    "C56_isotropic",
    "C56_preconditioned_rates",
    "C56_normalised_2d",
    "C56_normalised_3d"
   ],
   "note": ""
  },
  {
   "property": "C57",
   "status": "proved",
   "theorems": [
    "C57_miss_iff",
    "C57_cosine",
    "C57_hit_is_behind",
    "C57_same_along_the_ray",
    "C57_scalar_form_agrees"
   ],
   "note": ""
  },
  {
   "property": "C58",
   "status": "proved",
   "theorems": [
    "C58_interpolates",
    "C58_uniform_velocity",
    "C58_bounded"
   ],
   "note": ""
  },
  {
   "property": "C59",
   "status": "proved",
   "theorems": [
    "C59_snapshot_name_differs",
    "C59_snapshot_name_longer",
    "C59_documented_rule",
    "C59_distinct_outputs",
    "C59_shared_snapshot_refuted",
    "C59_without_extension",
    "C59_last_occurrence",
    "C59_other_directory_refuted"
   ],
   "note": ""
  },
  {
   "property": "C60",
   "status": "proved",
   "theorems": [
    "C60_buffer_overflow_3d_refuted",
    "C60_upper_buffers_never_written_refuted"
   ],
   "note": "REFUTED (concrete overflow; all executions for the never-written buffers)"
  },
  {
   "property": "C61",
   "status": "proved",
   "theorems": [
    "C61_sparse_result",
    "C61_dense_result",
    "C61_by_configuration",
    "C61_final_dense_scrambled_refuted"
   ],
   "note": "REFUTED on fully active grids with final_dense_fs; correct in the other cases (proved)"
  },
  {
   "property": "C62",
   "status": "proved",
   "theorems": [
    "C62_psi_star_is_response",
    "C62_psi_star_bounded"
   ],
   "note": ""
  },
  {
   "property": "C63",
   "status": "proved",
   "theorems": [
    "C63_first_wave_has_continuum",
    "C63_no_continuum_no_use",
    "C63_stale_lte_populations_refuted"
   ],
   "note": "REFUTED; C63_first_wave_has_continuum / C63_no_continuum_no_use give the two cases that are correct"
  },
  {
   "property": "C64",
   "status": "proved",
   "theorems": [
    "C64_lines_keep_centre",
    "C64_continuum_dropped_refuted"
   ],
   "note": "REFUTED for continua; lines proved"
  },
  {
   "property": "C65",
   "status": "proved",
   "theorems": [
    "C65_core_and_voigt_exact"
   ],
   "note": ""
  },
  {
   "property": "C66",
   "status": "proved",
   "theorems": [
    "C66_zero_radiation_recombination_refuted"
   ],
   "note": "REFUTED (exact factor proved)"
  },
  {
   "property": "C67",
   "status": "proved",
   "theorems": [
    "C67_magma_pressure_refuted"
   ],
   "note": "REFUTED"
  },
  {
   "property": "C68",
   "status": "proved",
   "theorems": [
    "C68_refinement_keeps_exact",
    "C68_electron_density_not_refined_refuted",
    "C68_levels_refined"
   ],
   "note": "REFUTED for the electron density component"
  },
  {
   "property": "C69",
   "status": "proved",
   "theorems": [
    "C69_least_squares",
    "C69_defined_iff",
    "C69_affine_iteration",
    "C69_fixed_point",
    "C69_constant_level_refuted",
    "C69_two_cells_refuted",
    "C69_positivity_refuted",
    "C69_total_refuted",
    "C69_history_in_order"
   ],
   "note": "Exact reals; LU modelled as Gaussian elimination without pivoting."
  },
  {
   "property": "C70",
   "status": "proved",
   "theorems": [
    "C70_complete_roundtrip",
    "C70_previous_snapshot_lost_refuted",
    "C70_mixed_state_accepted_refuted",
    "C70_accepted_pops"
   ],
   "note": "A file is the prefix of completed writes; NetCDF buffering not modelled."
  },
  {
   "property": "C71",
   "status": "proved",
   "theorems": [
    "C71_interpolates",
    "C71_total_and_bounded",
    "C71_missing_ray_is_dark"
   ],
   "note": ""
  },
  {
   "property": "C72",
   "status": "proved",
   "theorems": [
    "C72_extension",
    "C72_physical"
   ],
   "note": ""
  },
  {
   "property": "C73",
   "status": "proved",
   "theorems": [
    "C73_lines_evenly_spaced"
   ],
   "note": ""
  },
  {
   "property": "C74",
   "status": "proved",
   "theorems": [
    "C74_grid_position",
    "C74_interpolation_is_a_mean",
    "C74_exact_at_samples",
    "C74_negative_weight_refuted"
   ],
   "note": ""
  },
  {
   "property": "C75",
   "status": "proved",
   "theorems": [
    "C75_line_variants_agree",
    "C75_continuum_variants_agree"
   ],
   "note": ""
  },
  {
   "property": "C76",
   "status": "proved",
   "theorems": [
    "C76_terminates_in_order"
   ],
   "note": "Exact rationals for fp_t; the epsilons of the code (1e-6, 1e-3, 1e-2, 1e-4 shrink) are kept."
  },
  {
   "property": "C77",
   "status": "proved",
   "theorems": [
    "C77_samples_are_the_cells_on_the_ray",
    "C77_corner_refuted"
   ],
   "note": "Positive theorem for generic rays plus refutation at corners."
  },
  {
   "property": "C78",
   "status": "proved",
   "theorems": [
    "C78_coverage",
    "C78_uniform_level_exact",
    "C78_gap_at_level_change_refuted"
   ],
   "note": "Coverage with the exact exceptional set, exact for uniform levels; gap refutation."
  },
  {
   "property": "C79",
   "status": "proved",
   "theorems": [
    "C79_edge_start_refuted"
   ],
   "note": "Refuted by a concrete ray."
  },
  {
   "property": "C80",
   "status": "proved",
   "theorems": [
    "C80_direction",
    "C80_covers_domain",
    "C80_starts_in_front",
    "C80_spacing"
   ],
   "note": ""
  },
  {
   "property": "C81",
   "status": "proved",
   "theorems": [
    "C81_reached_when_short",
    "C81_far_corner_missed_refuted",
    "C81_square_domain_refuted",
    "C81_vertical_view_refuted",
    "C81_unrotated_vertical"
   ],
   "note": "REFUTED: exact criterion proved; the shipped length misses the far corner for every view of a square domain"
  },
  {
   "property": "C82",
   "status": "proved",
   "theorems": [
    "C82_transfer_equation",
    "C82_same_as_formal_solution",
    "C82_optical_depth",
    "C82_background",
    "C82_depth_output",
    "C82_num_steps"
   ],
   "note": "intensity, optical depth and depth output; the traversal itself is C76-C79"
  },
  {
   "property": "C83",
   "status": "proved",
   "theorems": [
    "C83_unit_inside",
    "C83_unnormalised_refuted",
    "C83_velocity_used",
    "C83_projection_in_plane",
    "C83_wrong_sign_refuted"
   ],
   "note": "REFUTED for inclined and unnormalised directions; proved for the rest"
  },
  {
   "property": "C84",
   "status": "proved",
   "theorems": [
    "C84_direction_sign",
    "C84_3d",
    "C84_2d_upwards",
    "C84_2d_in_plane",
    "C84_2d_inclined_refuted"
   ],
   "note": "REFUTED for inclined 2D rays; proved for 3D and in-plane 2D rays"
  },
  {
   "property": "C85",
   "status": "proved",
   "theorems": [
    "C85_velocity",
    "C85_pixel_centres",
    "C85_image_covered",
    "C85_far_camera_refuted"
   ],
   "note": "REFUTED for far cameras; proved for the image tiling and velocity"
  },
  {
   "property": "C86",
   "status": "proved",
   "theorems": [
    "C86_atoms_recovered",
    "C86_short_rate_table_refuted"
   ],
   "note": "C86_short_rate_table_refuted: nothing checks the rate table's length (out-of-bounds read). Unit conversions of the payload are not modelled."
  },
  {
   "property": "C87",
   "status": "proved",
   "theorems": [
    "C87_hydrogen_first",
    "C87_gamma_atoms"
   ],
   "note": "Assumes, as physics guarantees, that hydrogen (Z=1) is lighter than every other species given."
  },
  {
   "property": "C88",
   "status": "proved",
   "theorems": [
    "C88_transitions",
    "C88_line_refused_iff",
    "C88_swapped_levels_refuted"
   ],
   "note": "C88_swapped_levels_refuted: levels in the wrong order are accepted. YAML typing is not modelled."
  },
  {
   "property": "C89",
   "status": "proved",
   "theorems": [
    "C89_broadening",
    "C89_no_natural_refuted",
    "C89_linear_grid",
    "C89_tabulated_grid",
    "C89_one_point_refuted"
   ],
   "note": "C89_no_natural_refuted (indeterminate natural width) and C89_one_point_refuted (NaN wavelength). Real arithmetic."
  },
  {
   "property": "C90",
   "status": "proved",
   "theorems": [
    "C90_bounds",
    "C90_margin",
    "C90_outside_refuted"
   ],
   "note": "C90_outside_refuted: violated for velocities with a y component outside the sector. Real arithmetic; zero and axis-parallel velocities (NaN angles) included."
  },
  {
   "property": "C91",
   "status": "proved",
   "theorems": [
    "C91_direction_lookup",
    "C91_own_ray"
   ],
   "note": "Used by the parallax-fix merges. Real arithmetic; optical depth part not modelled."
  },
  {
   "property": "C92",
   "status": "proved",
   "theorems": [
    "C92_division",
    "C92_wings_positive",
    "C92_lorentz_wing",
    "C92_even",
    "C92_operators",
    "C92_core_formula"
   ],
   "note": "Exact reals, the coefficients as written. Positivity of the 24-term branch (|v| + a < 15) is not claimed."
  },
  {
   "property": "C93",
   "status": "proved",
   "theorems": [
    "C93_memory_safe_and_bounded",
    "C93_exact_at_nodes",
    "C93_bilinear_exact",
    "C93_table_of_function",
    "C93_needs_nonnegative_v_refuted"
   ],
   "note": "Exact reals; the table is not used in the shipped configuration (USE_LUT=false) but is part of the API. The float-to-int conversion of a floor beyond the int range is not modelled."
  },
  {
   "property": "C94",
   "status": "proved",
   "theorems": [
    "C94_velocity_and_line_mips_are_means",
    "C94_emis_opac_mips_doubled_refuted",
    "C94_tile_level",
    "C94_line_criterion_merges_uniform",
    "C94_base_criterion_refuses_uniform_refuted",
    "C94_thin_blocks_merge",
    "C94_line_criterion"
   ],
   "note": "Field values are rationals and the criterion uses real logarithms; each array is treated separately. The refuted parts state exactly what the code computes (factor 2^l; |ln| threshold)."
  },
  {
   "property": "C95",
   "status": "proved",
   "theorems": [
    "C95_neutral_hydrogen_current",
    "C95_neutral_hydrogen_current_3d",
    "C95_all_passes_logged",
    "C95_special_populations_zero_hydrogen_refuted",
    "C95_special_populations_use_it",
    "C95_hydrogen_collisions_vanish_refuted",
    "C95_hydrogen_collisions_present"
   ],
   "note": "current in every pass proved; ZeroRadiation initialisation uses stale/zero density (refuted there)"
  },
  {
   "property": "C96",
   "status": "proved",
   "theorems": [
    "C96_file_used",
    "C96_file_used_lte_2d",
    "C96_restart_wins",
    "C96_file_ignored_with_charge_refuted"
   ],
   "note": "used without charge conservation proved; ignored with it (refuted there)"
  },
  {
   "property": "C97",
   "status": "proved",
   "theorems": [
    "C97_dense_2d",
    "C97_dense_3d",
    "C97_dense_output_between_maps",
    "C97_dense_output_between_maps_3d",
    "C97_new_cells_empty_refuted",
    "C97_sparse_same_map_2d",
    "C97_sparse_same_map_3d",
    "C97_refused_2d",
    "C97_refused_3d",
    "C97_sparse_other_map_refuted",
    "C97_ray_tool_out_of_bounds_refuted"
   ],
   "note": "dense and same-map sparse proved; three violations exhibited"
  },
  {
   "property": "C98",
   "status": "proved",
   "theorems": [
    "C98_all_lines",
    "C98_five_lines_refuted",
    "C98_exception_unreachable"
   ],
   "note": "up to four lines proved; out-of-bounds store before the exception otherwise"
  },
  {
   "property": "C99",
   "status": "proved",
   "theorems": [
    "C99_unit_directions",
    "C99_patches_disjoint",
    "C99_opposite_ray",
    "C99_no_net_flux",
    "C99_children_inside_parent",
    "C99_equal_area",
    "C99_direction_of_angles",
    "C99_face_offsets",
    "C99_accepted_counts",
    "C99_other_nside_refuted"
   ],
   "note": "Exact reals. C99_other_nside_refuted: other ray counts pass the assertion and give coinciding directions."
  },
  {
   "property": "C100",
   "status": "proved",
   "theorems": [
    "C100_never_axis_parallel",
    "C100_six_directions_refuted",
    "C100_marched_segment",
    "C100_marched_segment_3d",
    "C100_directions",
    "C100_propagation",
    "C100_positions"
   ],
   "note": "Exact reals. C100_six_directions_refuted: the division by zero for ray counts not a multiple of four."
  },
  {
   "property": "C101",
   "status": "proved",
   "theorems": [
    "C101_static",
    "C101_dynamic",
    "C101_max_cascade_zero_refuted",
    "C101_passes_3d"
   ],
   "note": "C101_max_cascade_zero_refuted and C101_passes_3d give the violated case."
  },
  {
   "property": "C102",
   "status": "proved",
   "theorems": [
    "C102_J_complete",
    "C102_mip_single_rank",
    "C102_mip_incomplete_refuted"
   ],
   "note": "C102_mip_incomplete_refuted: max_mip_block is not gathered."
  },
  {
   "property": "C103",
   "status": "proved",
   "theorems": [
    "C103_grid_wavelength",
    "C103_any_wavelength",
    "C103_below",
    "C103_beyond_edge_refuted",
    "C103_continuum_contribution"
   ],
   "note": "Exact reals; line profiles abstract. C103_beyond_edge_refuted: the continuum beyond its edge."
  },
  {
   "property": "C104",
   "status": "proved",
   "theorems": [
    "C104_J",
    "C104_J_given",
    "C104_isotropic",
    "C104_fits",
    "C104_overflow_refuted",
    "C104_dense",
    "C104_sparse"
   ],
   "note": "Exact rationals; the raymarch of a segment and merge_intervals are an arbitrary function. C104_fits: sufficient condition (2^N <= every side, shipped quadrature); C104_overflow_refuted: otherwise, if a cascade does not fit, every execution is out of bounds."
  },
  {
   "property": "C105",
   "status": "proved",
   "theorems": [
    "C105_sparse_image",
    "C105_sparse_ks",
    "C105_dense_image",
    "C105_all_active_refuted",
    "C105_scrambled_refuted",
    "C105_device_refuted",
    "C105_given_refuted"
   ],
   "note": "One MPI rank; the formal solution is an arbitrary function of a plane of J (C104 says what it computes); netCDF not modelled. The refuted theorems cover every map with all tiles active (and a concrete 16x8x8 grid), every non-empty map with device storage, every given-emissivity run."
  },
  {
   "property": "C106",
   "status": "proved",
   "theorems": [
    "C106_sparse_2d",
    "C106_sparse_3d",
    "C106_dense_2d",
    "C106_dense_3d",
    "C106_same_state_2d",
    "C106_same_state_3d",
    "C106_refused"
   ],
   "note": "One field stands for all eight (they are treated alike); netCDF is not modelled; a sparse file is assumed to list distinct tiles of the grid (the code trusts it), and sizes stay within the 16/10-bit Morton range (C04)."
  },
  {
   "property": "C107",
   "status": "proved",
   "theorems": [
    "C107_intensity",
    "C107_tau",
    "C107_merge",
    "C107_two_intervals",
    "C107_f32"
   ],
   "note": "The number format has no upper limit (no overflow), NaN and infinity are not modelled; chi, eta, dt are taken as given machine numbers (their own errors are not bounded here). exp/expm1 are specified by an absolute error and by their range, as hypotheses."
  },
  {
   "property": "C108",
   "status": "proved",
   "theorems": [
    "C108_width_from_file",
    "C108_width_bounds",
    "C108_width_monotone",
    "C108_doppler",
    "C108_damping"
   ],
   "note": "real arithmetic; pow on a negative base counted as non-finite"
  },
  {
   "property": "C109",
   "status": "proved",
   "theorems": [
    "C109_total_hydrogen_kept",
    "C109_densities_kept_without_charge",
    "C109_iterations",
    "C109_pressure_update"
   ],
   "note": "the solvers are arbitrary functions of what they read"
  },
  {
   "property": "C110",
   "status": "proved",
   "theorems": [
    "C110_march_within",
    "C110_between",
    "C110_thermal",
    "C110_segments_meet",
    "C110_alo_kept",
    "C110_bilinear_fix_alo_refuted",
    "C110_bilinear_fix_mu_refuted",
    "C110_outermost",
    "C110_bilinear_fix_value",
    "C110_parallax_lookup",
    "C110_cone_points"
   ],
   "note": "ParallaxFixInner not modelled; ParallaxFix with STORE_TAU_CASCADES = false; march abstract (its range is C110_march_within)"
  },
  {
   "property": "C111",
   "status": "proved",
   "theorems": [
    "C111_J",
    "C111_single_direction",
    "C111_clean_buffer",
    "C111_leftovers_refuted",
    "C111_directions",
    "C111_linear_field",
    "C111_second_moments",
    "C111_ray_ends_at_cell",
    "C111_ray_spans_grid"
   ],
   "note": "values in Q; per-direction intensities abstract (their march is C112); buffer bounds are C60"
  },
  {
   "property": "C112",
   "status": "proved",
   "theorems": [
    "C112_exact",
    "C112_transfer_equation",
    "C112_bounded",
    "C112_psi_star",
    "C112_line_of_sight",
    "C112_boundary",
    "C112_boundary_any_build",
    "C112_given_agrees"
   ],
   "note": "exact reals; voxel list from the DDA (C03/C31); single line-and-continuum evaluation abstract per voxel (C51, C98)"
  },
  {
   "property": "C113",
   "status": "proved",
   "theorems": [
    "C113_run",
    "C113_each_wavelength_alone"
   ],
   "note": "cascade mean intensity as in C23/C24/C101, march abstract; batch loop, copies and plane selection as written"
  },
  {
   "property": "C115",
   "status": "proved",
   "theorems": [
    "C115_wavelength",
    "C115_at_node",
    "C115_background",
    "C115_outside_refuted",
    "C115_inside_refuted"
   ],
   "note": "exact reals; geometry of the incidence cosine is C57, table lookup C71, solver resampling C54"
  },
  {
   "property": "C114",
   "status": "proved",
   "theorems": [
    "C114_state",
    "C114_old_file",
    "C114_no_populations",
    "C114_stale_density_refuted",
    "C114_state_3d",
    "C114_dense_3d_refuted"
   ],
   "note": "same atmosphere and threshold for run and tool (other maps: C97); netCDF layer abstract"
  },
  {
   "property": "C116",
   "status": "proved",
   "theorems": [
    "C116_net_rates",
    "C116_fixed_point_is_solution",
    "C116_solution_is_fixed_point",
    "C116_floor_is_negligible",
    "C116_line_rates_are_einstein"
   ],
   "note": "exact reals; the active sets of a wavelength are taken as the transitions whose range contains it (C36); wphi as in C56; LU as elimination without pivoting (C39)"
  },
  {
   "property": "C117",
   "status": "proved",
   "theorems": [
    "C117_total_change",
    "C117_imbalance",
    "C117_relative_imbalance",
    "C117_every_level_refuted"
   ],
   "note": "exact reals; the reported number itself, as a reduction with NaN and infinities, is C45, the loop that uses it C46"
  },
  {
   "property": "C118",
   "status": "proved",
   "theorems": [
    "C118_partition_function",
    "C118_split",
    "C118_hotter_is_more_ionised",
    "C118_more_electrons_less_ionised",
    "C118_table_nodes"
   ],
   "note": "exact reals; the first larger node stands for the binary search (C33); physical constants positive, the ionisation energy as in the code"
  },
  {
   "property": "C119",
   "status": "proved",
   "theorems": [
    "C119_saved_together",
    "C119_final_dense",
    "C119_lte",
    "C119_restart_at_limit_refuted",
    "C119_ends"
   ],
   "note": "one rank; J as one value; formal solution and update arbitrary functions; loop control as in C46/C47"
  },
  {
   "property": "C120",
   "status": "proved",
   "theorems": [
    "C120_fixed_point_is_solution",
    "C120_reported_change",
    "C120_ignored_level_refuted",
    "C120_converged_state",
    "C120_rescaled_change",
    "C120_rescale_unreported_refuted"
   ],
   "note": "exact reals; one hydrogen atom in one cell; solver as elimination without pivoting; reduction over cells as in C45"
  },
  {
   "property": "C121",
   "status": "proved",
   "theorems": [
    "C121_exact",
    "C121_unknown_key_silently_ignored_refuted",
    "C121_first_of_duplicates",
    "C121_inapplicable_setting_ignored_refuted",
    "C121_defined"
   ],
   "note": "YAML text to tree (yaml-cpp) not modelled; conversions are parameters; output masking and mip extension are C53/C52"
  },
  {
   "property": "C122",
   "status": "proved",
   "theorems": [
    "C122_weights_exact",
    "C122_intensity",
    "C122_J",
    "C122_order_of_additions",
    "C122_quadrature_weight_exact",
    "C122_f32",
    "C122_run_to_run_difference_refuted"
   ],
   "note": "no overflow or NaN; which voxels a ray samples, with which float opacity, emissivity and length, is given (geometry in exact arithmetic: C76-C79, C100); quadrature weights as stored floats"
  },
  {
   "property": "C123",
   "status": "proved",
   "theorems": [
    "C123_run",
    "C123_each_wavelength_alone"
   ],
   "note": "exact arithmetic; the march through the arrays (C112) is a parameter; FORCE_LC_QUADRATURE = false"
  },
  {
   "property": "C124",
   "status": "proved",
   "theorems": [
    "C124_bounds_2d",
    "C124_equilibrium_2d",
    "C124_monotone_2d",
    "C124_linear_2d",
    "C124_stable_2d",
    "C124_terminates_3d",
    "C124_bounds_3d",
    "C124_equilibrium_3d",
    "C124_monotone_3d",
    "C124_linear_3d",
    "C124_stable_3d"
   ],
   "note": "exact arithmetic (floating point: C107, C122); that a marched segment keeps [min,max] of its sources and the incoming intensity is C110/C112; quadrature weights non-negative with sum 1 (hypothesis of the 2D theorems, met by the shipped quadrature)"
  },
  {
   "property": "C125",
   "status": "proved",
   "theorems": [
    "C125_rates",
    "C125_rates_any_order",
    "C125_magma_solves",
    "C125_magma_fails_only_if_ambiguous",
    "C125_builds_agree",
    "C125_portable_fails_where_magma_does_not",
    "C125_zero_radiation",
    "C125_magma_resolves_all",
    "C125_start_builds_agree",
    "C125_magma_only_atom_refuted"
   ],
   "note": "exact arithmetic; LAPACK's gesv modelled as Gaussian elimination with partial pivoting; all atoms Active (other treatments: C49); one cell, since cells are independent"
  },
  {
   "property": "C126",
   "status": "proved",
   "theorems": [
    "C126_update",
    "C126_newton_step",
    "C126_number",
    "C126_pressure_refuted",
    "C126_race",
    "C126_nonneg",
    "C126_builds_agree",
    "C126_race_refuted"
   ],
   "note": "exact arithmetic; LAPACK's gesv as in C125; each kernel iteration is one atomic step, so finer interleavings of the race are not enumerated; hypotheses: at least one level, n_e > 0, continua inside the atom and at most n^2 of them"
  },
  {
   "property": "C127",
   "status": "proved",
   "theorems": [
    "C127_runs",
    "C127_coarse_tables",
    "C127_bounded",
    "C127_uniform_flow"
   ],
   "note": "exact reals; each kernel iteration is one atomic step; the velocity ranges (C90) and base tables (C58) are arguments; hypotheses: ranges not inverted, at least two bins, one wavelength"
  },
  {
   "property": "C128",
   "status": "proved",
   "theorems": [
    "C128_weights_exact",
    "C128_intensity",
    "C128_J",
    "C128_order_of_additions",
    "C128_f32"
   ],
   "note": "no overflow or NaN; which voxels a ray samples, with which float opacity, emissivity and length, is given (geometry in exact arithmetic: C99, C100, C104, C112); that two orders may really differ in binary32 is C122_run_to_run_difference_refuted"
  },
  {
   "property": "C129",
   "status": "proved",
   "theorems": [
    "C129_terminates",
    "C129_start",
    "C129_levels",
    "C129_f32"
   ],
   "note": "ray already clipped (exact clipping: C32); no overflow or NaN; first hits non-negative is proved for rays starting inside the grid (C129_start) and a hypothesis of C129_terminates for rays that must first be walked into it; delta of a zero direction component is uninitialised in the code and modelled as 0 (it is never the nearest axis before the end of the ray)"
  },
  {
   "property": "C130",
   "status": "proved",
   "theorems": [
    "C130_inside",
    "C130_complete",
    "C130_origin",
    "C130_f32",
    "C130_start_in_grid_refuted"
   ],
   "note": "no overflow; a zero direction component is +0 (the -0 case is C32); exact arithmetic: C32; refuted part: C130_start_in_grid_refuted (the traversal then walks the start into the grid)"
  },
  {
   "property": "C131",
   "status": "proved",
   "theorems": [
    "C131_cells",
    "C131_complete",
    "C131_f32"
   ],
   "note": "no overflow; the ray starts in the grid and not within 1e-6 of the end of its cell (as in C129_start); exact arithmetic: C76-C79; termination: C129; clipping: C130"
  },
  {
   "property": "C132",
   "status": "proved",
   "theorems": [
    "C132_level",
    "C132_raw",
    "C132_elsewhere",
    "C132_no_separate_merge",
    "C132_between",
    "C132_thermal",
    "C132_like_vanilla"
   ],
   "note": "exact reals; the march is an arbitrary function (its own properties: C23, C110_march_within); a configuration that is not the committed one (RC_CONFIG = Vanilla); the line-sweep branch is separate"
  },
  {
   "property": "C133",
   "status": "proved",
   "theorems": [
    "C133_length",
    "C133_points",
    "C133_near_end",
    "C133_f32",
    "C133_length_refuted"
   ],
   "note": "cosine and sine are given numbers (the counterexample's is within 1e-7 of the exact one); overflow excluded; the march along the segment is C129-C131"
  },
  {
   "property": "C134",
   "status": "proved",
   "theorems": [
    "C134_2d_exact",
    "C134_2d_defined",
    "C134_3d_exact",
    "C134_3d_renders_iff",
    "C134_3d_undefined_iff",
    "C134_3d_corners_unchecked_refuted",
    "C134_3d_no_pixels_refuted",
    "C134_pixels"
   ],
   "note": "yaml-cpp's conversions and the file system are parameters (as in C121); what main does between the checks and the loop over the views is taken to succeed"
  },
  {
   "property": "C135",
   "status": "proved",
   "theorems": [
    "C135_main_2d",
    "C135_main_3d",
    "C135_rays_2d",
    "C135_rays_3d"
   ],
   "note": "the NetCDF layer is assumed (first use of a dimension fixes its size, another size fails); attributes not modelled; the cascades asked for are non-negative (C53); the contents of the arrays are given"
  }
 ]
}