# DESIGN

Formal model of Goobley/DexRT in Rocq (Coq 8.16.1). `properties.jsonl` lists the properties, `MANIFEST.json` the theorem(s) for each,
`seeded/LOG.jsonl` the wrong programs the theorems were tested against. This file says what is modelled, how each property is proved, and what is trusted.

## Layout

- `rocq/theories/*Model*.v`: the code, function by function, each definition with the file and lines it models.
- `rocq/theories/*Spec.v`: small specifications written without the model's helpers. Where there is no separate Spec file the specification
  is at the head of the Props file, marked as such.
- `rocq/theories/*Proofs.v`, `*Thms.v`, `*Lemmas.v` and the remaining helpers: lemmas.
- `rocq/theories/Props*.v`: the theorems `Cnn_*`, with `Print Assumptions` after them, and for each property an `Example` (or a theorem with a
  closed instance) showing that a non-trivial case meets the hypotheses.
- A theorem whose name contains `_refuted` shows an input, schedule or history for which the expected behaviour fails in the model of the code as it is; the
  statement in `properties.jsonl` then says "Expected: ... Violated: ...". No theorem has the suffix `_partial`: no property is claimed in part.

## Trusted base

1. The Coq 8.16.1 kernel (including `vm_compute`, used for closed computations) and the `coqc` front end.
2. The axioms that `Print Assumptions` reports. No axiom is declared here. Four axioms of the standard library occur, all through
   `Coq.Reals` (and Flocq and Coquelicot, which build on it): `ClassicalDedekindReals.sig_forall_dec` (fa), `ClassicalDedekindReals.sig_not_dec` (nd),
   `FunctionalExtensionality.functional_extensionality_dep` (fe), `Classical_Prop.classic` (cl). The table gives the set for each theorem.
   A tool that lists every constant without a body also shows the sealed module fields of the standard library
   (`Rdefinitions.RbaseSymbolsImpl.*`, `RinvImpl.*`, `ssr.ssrunder.Under_rel.*`): these have definitions inside their modules, and are not axioms.
3. The correspondence between the C++ and the model, which is by reading. It is as fine as one definition per function (or per loop of a function),
   with the lines cited.

## Modelling conventions

- Integers are `Z` (or `nat` for indices); where a C++ type can wrap or truncate on inputs the property ranges over, the wrap is explicit (Morton codes,
  packed levels, flat loops, hash of tile indices). Elsewhere the model has unbounded integers and the comment says so.
- `fp_t` is `Q` or `R`, that is, without rounding, except in C107 (Flocq, any precision, any contraction) and C45 (NaN explicit). Division by zero, infinities and NaN are explicit
  outcomes where the code can produce them on inputs in range (`None`, `NonFinite`, `Nan`).
- Arrays are functions or lists with a length. A read or write outside, or a read of a slot never written, is a distinct outcome (`Fault`, `None`, `Indeterminate`).
- A parallel loop (`dex_parallel_for`, a Kokkos team loop, an atomic accumulation) is a list of stores in an arbitrary order: theorems quantify over every permutation.
  MPI is a transition system over all interleavings of rank steps; messages between two ranks do not overtake.
- `throw` is an outcome; `assert`s compiled out in release builds are not modelled.
- Files: a netCDF or YAML file is the typed values it converts to. A crash is a cut of the list of file operations at any point.
- Library routines (LAPACK/MAGMA solve, libm, std::sort) are specified, not implemented: any exact solution of the system, any sorted permutation, libm within an error bound.
- Compile-time configuration is the shipped one (`Config.hpp`, `UserConfig*.hpp`) unless a theorem quantifies over it. In particular RC_CONFIG = Vanilla,
  LINE_SCHEME = CoreAndVoigt, PREAVERAGE = false, HEALPix in 3D.

## Not modelled

The Kokkos/YAKL runtime and memory management (pools, reference counts), GPU code generation, logging, profiling, command-line parsing, netCDF/YAML libraries, the Python helper package
and tests, the parallax-fix and bilinear-fix variants of the cascade merge, the Humlicek Voigt variants that the build does not select, the Clarberg octahedral and trapezoidal quadratures, and the
rounding error of everything except the march (C107). No property on the list is inexpressible in the model; those whose full
statement does not hold of the code are shown as refuted.


## Per property: model, proof technique, theorems and their assumptions

Axiom codes as above; `none` means "Closed under the global context". "Model" lists the model files the theorem file imports directly.

| id | property | model | technique | theorems (axioms) |
|---|---|---|---|---|
| C01 | 2D Morton codes are a faithful, order-preserving address for tiles | MortonModel | u32 bit functions over Z with explicit wrap; bit-level lemmas give injectivity and order; refutation beyond 16 bits | C01_encode_is_interleave (none); C01_decode_encode (none); C01_encode_decode (none); C01_encode_injective (none); C01_alias_outside_range (none); C01_codes_stay_in_square (none); C01_every_code (none) |
| C02 | 3D Morton codes are a faithful address for tiles | MortonModel | same on 10-bit components | C02_encode_is_interleave (none); C02_decode_encode (none); C02_encode_decode (none); C02_encode_injective (none); C02_alias_outside_range (none); C02_every_code (none) |
| C03 | The block map activates exactly the tiles that contain a cool enough cell | BlockMapModel, MortonModel | setup_dense / setup_sparse as list functions over an abstract temperature field; sortedness + membership by induction. | C03_sparse_2d (none); C03_sparse_3d (none); C03_dense_2d (none); C03_dense_3d (none); C03_traversal_2d (none); C03_traversal_3d (none); C03_reload_2d (none); C03_reload_3d (none) |
| C04 | Lookup table and active list are mutually inverse | BlockMapModel, MortonModel | lookup table as a function built by folding over the sorted entries; rank argument. | C04_lookup_inverts_2d (none); C04_lookup_inverts_3d (none); C04_wide_grid_2d_refuted (none); C04_wide_grid_3d_refuted (none) |
| C05 | Flat storage index is a bijection between active cells and [0, num_active_cells) | BlockMapModel, IndexGenModel, MortonModel | loop_idx/loop_coord/idx; bijection by Euclidean division. | C05_loop_index_2d (none); C05_loop_index_3d (none); C05_bijection_2d (none); C05_bijection_3d (none) |
| C06 | The one-tile cache in the index generator never changes an answer | BlockMapModel, IndexGenModel, MortonModel | stateful generator, invariant over arbitrary query lists; refutation at (-1,-1). | C06_history_independent_2d (none); C06_history_independent_3d (none); C06_has_leaves_meaning_2d (none); C06_has_leaves_meaning_3d (none); C06_negative_corner_2d_refuted (none); C06_negative_corner_3d_refuted (none) |
| C07 | Grids whose size is not a multiple of the block size are rejected, others accepted | BlockMapModel, MortonModel | error outcome iff condition. | C07_dense_2d_outcome (none); C07_dense_3d_outcome (none); C07_sparse_2d_outcome (none); C07_sparse_3d_outcome (none) |
| C08 | Packed per-tile refinement levels are stored and read back independently | BlockMapModel, IndexGenModel, MortonModel, MultiLevelModel | 64-bit words, pack fold, read-back by bit lemmas. | C08_read_back (none); C08_independent (none); C08_large_values (none) |
| C09 | The hyperblock tile numbering is a permutation of the tiles | BlockMapModel, IndexGenModel, MortonModel, MultiLevelModel | flat_tile_index on Z, bijection by div/mod. | C09_hyperblock_permutation (none); C09_odd_rejected (none); C09_row_major_3d (none) |
| C10 | Mip levels occupy disjoint, gap-free storage | BlockMapModel, IndexGenModel, MortonModel, MultiLevelModel | offsets, induction over levels. | C10_levels_consecutive_2d (none); C10_levels_consecutive_3d (none); C10_bijection_2d (none); C10_bijection_3d (none); C10_loop_index_2d (none); C10_loop_index_3d (none); C10_too_many_levels_rejected (none); C10_too_many_levels_rejected_3d (none); C10_level_coarser_than_block_refuted (none) |
| C11 | The level used while marching never depends on earlier samples | BlockMapModel, IndexGenModel, MortonModel, MultiLevelModel | stateful level cache, invariant over histories. | C11_history_independent_2d (none); C11_history_independent_3d (none) |
| C12 | Writing sparse results as dense grids preserves every active value | BlockMapModel, IndexGenModel, MortonModel, ParModel, SparseModel | rehydrate/sparsify as folds over the active list. | C12_rehydrate_2d (none); C12_rehydrate_host_3d (none); C12_page_2d (none); C12_page_3d (none); C12_round_trip_2d (none); C12_round_trip_3d (none) |
| C13 | 3D device expansion of multi-row quantities covers the whole grid | BlockMapModel, IndexGenModel, MortonModel, ParModel, SparseModel | the loop as written; refutation | C13_device_3d_refuted (none) |
| C14 | 2D sparse solution: every probe a merge reads has been computed | BlockMapModel, IndexGenModel, MortonModel, ParModel, ProbeInterpModel, ProbeListModel | marking loop as written; refutation by a concrete map plus the part that holds for all maps | C14_not_closed_refuted (none); C14_interior_closed (none); C14_full_grid_closed (none) |
| C15 | 3D sparse solution: every probe a merge reads has been computed | BlockMapModel, IndexGenModel, MortonModel, ParModel, ProbeInterpModel, ProbeListModel | closure proof by case analysis on parity and clamping. | C15_closed_3d (none) |
| C16 | Active probe lists are duplicate-free, Morton sorted and exact | BlockMapModel, IndexGenModel, MortonModel, ParModel, ProbeInterpModel, ProbeListModel | sortedness and exactness. | C16_executions_exist_2d (none); C16_executions_exist_3d (none); C16_cascade0_exact_2d (none); C16_upper_exact_2d (none); C16_marks_in_bounds_2d (none); C16_exact_3d (none) |
| C17 | Dense probe enumeration visits every probe once | BlockMapModel, IndexGenModel, MortonModel, ParModel, ProbeInterpModel, ProbeListModel | dense enumeration bijection. | C17_dense_bijection_2d (none); C17_dense_bijection_3d (none) |
| C18 | Cascade storage addresses are collision free and in bounds | CascadeModel, MortonModel, PassModel, ProbeInterpModel | mixed radix injectivity. | C18_in_bounds_2d (none); C18_no_collision_2d (none); C18_onto_2d (none); C18_storage_of_rays_2d (none); C18_in_bounds_3d (none); C18_no_collision_3d (none); C18_onto_3d (none) |
| C19 | Direction refinement is a partition and stays within its subset | CascadeModel, MortonModel, PassModel, ProbeInterpModel | division arithmetic. | C19_children_partition_2d (none); C19_children_valid_2d (none); C19_subsets_partition_2d (none); C19_children_mean_angle_2d (none); C19_preaverage_texel_2d (none); C19_subsets_partition_3d (none); C19_children_partition_3d (none); C19_children_subset_3d (none); C19_children_count_2d (none); C19_children_count_3d (none) |
| C20 | Cascade intervals tile each ray without gap or overlap | CascadeModel, MortonModel, PassModel, ProbeInterpModel | geometric interval, over Q/R. | C20_joined_2d (none); C20_tiling_2d (none); C20_positive_2d (none); C20_last_interval_refuted (none); C20_joined_3d (none); C20_tiling_3d (none); C20_positive_3d (none); C20_powi (none) |
| C21 | Probe interpolation weights are a partition of unity and reproduce linear fields | CascadeModel, MortonModel, PassModel, ProbeInterpModel | weights over Q. | C21_weights_2d (none); C21_weights_3d (none); C21_reads_in_bounds_2d (none); C21_reads_in_bounds_3d (none); C21_affine_2d (none); C21_affine_3d (none) |
| C22 | Ping-pong cascade buffers never alias and deliver the previous cascade | CascadeModel, MortonModel, PassModel, ProbeInterpModel | ping-pong parity invariant over the whole downward pass. | C22_buffers_distinct (none); C22_reads_previous_cascade (none); C22_buffers_large_enough (none) |
| C23 | A cascade pass is deterministic under any parallel schedule | CascadeModel, MortonModel, PassModel, ProbeInterpModel | cascade pass as parallel stores (ParModel): commutation of stores to distinct slots, instantiated for whole marches over all cascades | C23_march_computes_recursion (none); C23_dense_march (none); C23_schedule_independent (none) |
| C24 | Mean intensity equals the quadrature sum and is placed in the right plane | BlockMapModel, CascadeModel, IndexGenModel, MergeJModel, MortonModel, OutputModel, ParModel, PassModel, ProbeInterpModel, ProbeListModel, SparseModel | sums over Q, permutation invariance, plane addressing | C24_J_gains_mean_intensity (none); C24_rest_unchanged (none); C24_isotropic (none); C24_dense (none); C24_sparse (none); C24_plane (none); C24_host_copy (none) |
| C25 | Flattened multi-dimensional loops visit every index tuple exactly once | FlatLoopModel | mixed radix over lists, 32-bit overflow explicit. | C25_unpack_is_row_major (none); C25_each_tuple_once (none); C25_cuda_launch (none); C25_cuda_launch_wraps_refuted (none); C25_rank2_overflow_refuted (none) |
| C26 | Host thread partition covers the iteration space exactly once | FlatLoopModel | partition of iterations. | C26_division (none); C26_each_iteration_once (none); C26_needs_two_blocks (none) |
| C27 | Load-balanced wavelength batches are handed out exactly once | WaveDistModel | transition system of the batch server and ranks; invariant over all interleavings | C27_each_wavelength_once (none); C27_terminates (none); C27_progress (none) |
| C28 | No rank can receive a batch before the dispenser is reset | WaveDistModel | execution trace | C28_batch_handed_out_twice_refuted (none); C28_later_solutions_safe (none) |
| C29 | Static wavelength striding partitions the wavelengths | WaveDistModel | arithmetic partition. | C29_static_partition (none) |
| C30 | Splitting a ray anywhere does not change the formal solution | RadianceModel | closed form of the march over R; composition of affine maps | C30_march_is_formal_solution (fa+fe+nd); C30_split (fa+fe+nd); C30_cascade_split (fa+fe+nd); C30_merge_assoc (fa+fe+nd); C30_unstored_tau_needs_order (cl+fa+fe+nd); C30_voxel_subdivision (fa+fe+nd); C30_average_then_merge (fa+fe+nd); C30_transfer_equation (fa+fe+nd) |
| C31 | The formal solution stays between the extremes of its inputs | RadianceModel | convexity over R, induction over voxels | C31_source_defined (fa+fe); C31_bounded (cl+fa+fe+nd); C31_nonneg (cl+fa+fe+nd); C31_isothermal (fa+fe+nd); C31_vacuum (fa+fe+nd) |
| C32 | Clipping a ray to the grid keeps exactly the part inside | RayGeomModel | slab clipping over Q extended with infinities | C32_clip_exact (none); C32_start_clipped (none); C32_update_origin (none); C32_negative_zero_refuted (none) |
| C33 | Table lookup and interpolation are exact at nodes and bounded | SearchModel | fuelled binary search over Q | C33_upper_bound (none); C33_upper_bound_in_bounds (none); C33_interp_clamps (none); C33_interp_inside (none); C33_interp_at_node (none) |
| C34 | Mip values are means of the underlying cells and a tile is coarsened only if all its voxels agree | BlockMapModel, IndexGenModel, MipModel, MortonModel, MultiLevelModel, ParModel | mip cells as means over Q; level criterion | C34_mips_are_means (none); C34_tile_level (none); C34_level_stored (none); C34_thin_blocks_merge (cl+fa+fe+nd); C34_uniform_blocks_merge (cl+fa+fe+nd); C34_criterion (cl+fa+fe+nd) |
| C35 | Merged wavelength grid is sorted, drawn from the inputs, with correct integration weights | WaveGridModel | sort, deduplicate, bins over Q; induction over the list | C35_merged_grid (none); C35_tie_order_irrelevant (none); C35_one_governor (none); C35_covers_model (none); C35_bins (none); C35_single_wavelength_refuted (none); C35_index_range (none); C35_index_range_inside (none); C35_sigma_ranges (none); C35_governing_index (none) |
| C36 | Active transition lists are exact | ActiveSetModel, WaveGridModel | lists of transitions per wavelength, membership | C36_active_set (none); C36_no_active_set_past_end (none); C36_sixteen_bit_refuted (none); C36_active_set_equals_scan (none); C36_only_active_matter (none); C36_all_is_static_plus_dynamic (none) |
| C37 | The wavelength-batch line table lists every active line once or refuses | ActiveSetModel, WaveGridModel | fixed-size table filled in order; membership or exception | C37_mapping (none); C37_throws_iff (none); C37_visits_active_lines (none) |
| C38 | Rate matrix fix-up makes every column sum to zero | StatEqModel | matrices as functions over R; finite sums | C38_fixup (fa+fe); C38_diagonal_ignored (fa+fe); C38_idempotent (fa+fe); C38_rate_of_change (fa+fe) |
| C39 | The statistical-equilibrium step returns the equilibrium populations of the rate matrix | StatEqModel | linear system with replaced row over R, any exact solution | C39_statistical_equilibrium (fa+fe); C39_all_levels_populated (fa+fe); C39_elimination_irrelevant (fa+fe); C39_eliminated_level (fa+fe); C39_unpivoted_refuted (fa+fe) |
| C40 | LTE populations conserve the element and are what the solver returns with collisions only | LteModel, StatEqModel | Boltzmann-Saha over R with exp; balance of collisional rates | C40_positive (cl+fa+fe+nd); C40_sums_to_element_density (cl+fa+fe+nd); C40_sum_with_floor (cl+fa+fe+nd); C40_saha_boltzmann (cl+fa+fe+nd); C40_hydrogen_ionisation (cl+fa+fe+nd); C40_hydrogen_saha (cl+fa+fe+nd); C40_detailed_balance (fa+fe+nd); C40_lte_is_collisional_equilibrium (cl+fa+fe+nd); C40_solver_returns_lte (cl+fa+fe+nd) |
| C41 | The Newton charge update conserves hydrogen, charge and pressure and is a Newton step of the rate equations | ChargeModel, StatEqModel | right-hand side and clamp as written, over R | C41_rate_probe_restores_state (fa+fe); C41_number_and_charge (fa+fe); C41_pressure (fa+fe); C41_newton_step (fa+fe); C41_converged_is_solution (fa+fe); C41_solution_is_fixed_point (fa+fe) |
| C42 | Clamped Newton updates keep densities non-negative and deterministic | ChargeModel, StatEqModel | same | C42_electron_density (fa+fe); C42_electron_density_negative_refuted (fa+fe); C42_populations_negative_refuted (fa+fe); C42_schedule_dependent_refuted (fa+fe) |
| C43 | The simple pressure update restores the gas pressure | ChargeModel, StatEqModel | same, pressure closed form | C43_restores_pressure (fa+fe); C43_clamped_not_restored (fa+fe); C43_electron_density_sign (fa+fe); C43_neutral_state (fa+fe); C43_electron_density_negative_refuted (fa+fe) |
| C44 | After a pressure-conserving Newton update hydrogen populations sum to the hydrogen density | ChargeModel, StatEqModel | same | C44_hydrogen_sum (fa+fe); C44_hydrogen_sum_refuted (fa+fe); C44_other_atoms (fa+fe) |
| C45 | A change above tolerance is never missed by the convergence test | IterModel | comparison with NaN as explicit value | C45_reported_is_maximum (none); C45_detects (none); C45_schedule_irrelevant (none); C45_nan_change (none); C45_nan_ignored_refuted (none); C45_all_nan_converges_refuted (none); C45_change_value (none) |
| C46 | The main loop stops, and for the right reason | IterModel | loop state machine with abstract solver results | C46_terminates (none); C46_exit (none); C46_acceleration (none); C46_reachable_ok (none); C46_stops_when_allowed (none) |
| C47 | Restarting from a snapshot reproduces the uninterrupted run | IterModel, RestartModel | state machine of iteration, snapshot and restart; bisimulation where it holds, refutations | C47_restart_same_result (none); C47_restart_same_states (none); C47_ng_history_lost_refuted (none); C47_converged_not_recorded (none) |
| C48 | All MPI ranks solve with the same populations and densities | IterModel, RestartModel | per-rank state machine | C48_ranks_agree (none); C48_ranks_agree_from_FS2 (none); C48_first_two_refuted (none); C48_special_pops_refuted (none) |
| C49 | Collisional rates of an atom go to that atom's rate matrix | IterModel, RestartModel | slot mapping of rate matrices | C49_right_slot_iff (none); C49_all_with_gamma (none); C49_wrong_slot_refuted (none); C49_detailed_solved_refuted (none) |
| C50 | Preconditioning does not change the net rate | LteModel, StatEqModel | algebra over R | C50_net_rate_unchanged (fa+fe); C50_net_rate_floor_error (fa+fe); C50_no_operator (fa+fe); C50_rates_nonneg (fa+fe) |
| C51 | Thermal source functions | LteModel, StatEqModel | ratio of coefficients over R with exp | C51_continuum_lte_source (cl+fa+fe+nd); C51_line_lte_source (cl+fa+fe+nd) |
| C52 | Configuration: mip levels per cascade are completely defined | ConfigModel | YAML node as typed value; total parse function | C52_sequence (none); C52_scalar_or_absent (none); C52_undefined_iff_refuted (none); C52_max_level (none) |
| C53 | Configuration: outputs that a mode cannot produce are never written, those requested are | ConfigModel | same | C53_with_section (none); C53_requested (none); C53_densities (none); C53_conservation_requested (none); C53_without_section_refuted (none); C53_negative_cascade_refuted (none) |
| C54 | Flux conserving boundary resampling is an overlap-weighted mean | PwModel, StatEqModel | overlap integrals over R | C54_edges (fa+fe); C54_overlap_mean (fa+fe); C54_edge_bins (fa+fe); C54_bounded (fa+fe); C54_flux_conserved (fa+fe); C54_single_wavelength_refuted (fa+fe); C54_straddling_bin_refuted (fa+fe) |
| C55 | Line-sweep storage slots of different lines never overlap | LineSweepModel, RayGeomModel, SearchModel | offsets as prefix sums over the sorted lines; disjointness and injectivity of slot addresses by induction; rational coordinates | C55_storage_partition (none); C55_decode (none); C55_samples_inside (none); C55_unit_step_refuted (none) |
| C56 | Line profiles integrate to one after normalisation | LteModel, ProfNormModel, StatEqModel | finite sums over wavelengths and directions (rsum); algebra over R: raw quadrature, factor, resulting Einstein rates, rates with the approximate operator | C56_normalised (fa+fe+nd); C56_degenerate (fa+fe+nd); C56_positive (fa+fe+nd); C56_rates (fa+fe+nd); C56_isotropic (fa+fe+nd); C56_preconditioned_rates (fa+fe+nd); C56_normalised_2d (fa+fe+nd); C56_normalised_3d (fa+fe+nd) |
| C57 | Boundary illumination angle is the true incidence cosine | PwModel, StatEqModel | vector algebra over R for the plane and spherical formulae | C57_miss_iff (fa+fe+nd); C57_cosine (fa+fe+nd); C57_hit_is_behind (fa+fe); C57_same_along_the_ray (fa+fe+nd); C57_scalar_form_agrees (fa+fe+nd) |
| C58 | Velocity-interpolated emissivity is a clamped linear interpolation | PwModel, VelInterpModel | table of bins as a function of the index; piecewise linear interpolation over R, clamping case analysis | C58_interpolates (fa+fe); C58_uniform_velocity (fa+fe); C58_bounded (fa+fe) |
| C59 | Where snapshots are written | IterModel, RestartModel | file names as byte strings | C59_snapshot_name_differs (none); C59_snapshot_name_longer (none); C59_documented_rule (none); C59_distinct_outputs (none); C59_shared_snapshot_refuted (none); C59_without_extension (none); C59_last_occurrence (none); C59_other_directory_refuted (none) |
| C60 | 3D cascades are stored in buffers big enough for them, and each output buffer holds its cascade | CascadeModel, MortonModel, PassModel, ProbeInterpModel | buffer lengths and addresses of RcUtilsModes3d as Z expressions; inequality by induction on the cascade number; refutation for the ping-pong-free configuration | C60_buffer_overflow_3d_refuted (none); C60_upper_buffers_never_written_refuted (none) |
| C61 | The J image written to the output file has every cell in its place | BlockMapModel, CascadeModel, IndexGenModel, MergeJModel, MortonModel, OutputModel, ParModel, PassModel, ProbeInterpModel, ProbeListModel, SparseModel | allocate_J / save_results / rehydrate on flat arrays with bounds; pointwise equality for all grids and active maps | C61_sparse_result (none); C61_dense_result (none); C61_by_configuration (none); C61_final_dense_scrambled_refuted (none) |
| C62 | The local-operator weight is the true response of the intensity to the last voxel | RadianceModel | differentiation of the step map over R (algebraic response), and the accumulated product over the later voxels | C62_psi_star_is_response (cl+fa+fe+nd); C62_psi_star_bounded (cl+fa+fe+nd) |
| C63 | Every wavelength of a batch uses the LTE populations of the current state | ActiveSetModel, WaveGridModel | n_star as part of a state machine of batches; invariant over batches | C63_first_wave_has_continuum (none); C63_no_continuum_no_use (none); C63_stale_lte_populations_refuted (none) |
| C64 | Every transition keeps at least one wavelength in the merged grid | WaveGridModel | merged grid over Q: blue/red indices after sorting and deduplication | C64_lines_keep_centre (none); C64_continuum_dropped_refuted (none) |
| C65 | The core-and-Voigt line data reproduce the directly evaluated line | LteModel, StatEqModel | algebraic identity over R for every profile function | C65_core_and_voigt_exact (fa+fe+nd) |
| C66 | Zero-radiation initial populations use the solver's own spontaneous rates | LteModel, StatEqModel | ratio of the two coefficients over R; refutation | C66_zero_radiation_recombination_refuted (cl+fa+fe+nd) |
| C67 | The MAGMA build conserves pressure | ChargeModel, StatEqModel | MAGMA right-hand side as written; refutation by evaluation of the residual | C67_magma_pressure_refuted (fa+fe) |
| C68 | Iterative refinement refines every unknown of the Newton system | ChargeModel, StatEqModel | loop over unknowns of the refinement; refutation and the part that holds | C68_refinement_keeps_exact (fa+fe); C68_electron_density_not_refined_refuted (fa+fe); C68_levels_refined (fa+fe) |
| C69 | Ng acceleration extrapolates towards the fixed point | IterModel, NgModel, RestartModel, StatEqModel | least squares normal equations over R; exactness on geometric sequences | C69_least_squares (fa+fe); C69_defined_iff (fa+fe); C69_affine_iteration (fa+fe); C69_fixed_point (fa+fe); C69_constant_level_refuted (fa+fe); C69_two_cells_refuted (fa+fe); C69_positivity_refuted (fa+fe); C69_total_refuted (fa+fe); C69_history_in_order (none) |
| C70 | A crash while saving a snapshot leaves a usable snapshot | IterModel, RestartModel | file-system trace with crash after any step | C70_complete_roundtrip (none); C70_previous_snapshot_lost_refuted (none); C70_mixed_state_accepted_refuted (none); C70_accepted_pops (none) |
| C71 | Boundary table sampling interpolates in incidence cosine and clamps | PwModel, StatEqModel | binary search + interpolation over R; node exactness, bounds, clamping | C71_interpolates (fa+fe); C71_total_and_bounded (fa+fe); C71_missing_ray_is_dark (fa+fe+nd) |
| C72 | Extending line-sweep samples composes the preceding segments | LineSweepModel, RayGeomModel, SearchModel | state machine over the samples of one line, composition of (I,tau) maps over R | C72_extension (none); C72_physical (none) |
| C73 | Lines of a sweep direction are evenly spaced and complete | LineSweepModel, RayGeomModel, SearchModel | line origins as rationals; spacing, coverage and counts | C73_lines_evenly_spaced (none) |
| C74 | Looking up a line-sweep result interpolates between the neighbouring lines | LineSweepModel, RayGeomModel, SearchModel | interpolation between neighbouring lines over R | C74_grid_position (none); C74_interpolation_is_a_mean (none); C74_exact_at_samples (none); C74_negative_weight_refuted (none) |
| C75 | The two ways of accumulating the rate matrix agree | LteModel, ProfNormModel, StatEqModel | algebra over R between the two unit conventions | C75_line_variants_agree (fa+fe+nd); C75_continuum_variants_agree (fa+fe+nd) |
| C76 | Grid traversal terminates and yields ordered, non-overlapping segments inside the ray | DdaModel, RayGeomModel, SearchModel | MultiLevelDDA::init/next_intersection over exact rationals with +-infinity; measure (remaining boundaries) for termination; ordering invariant | C76_terminates_in_order (none) |
| C77 | Each sample is the cell the ray is in | DdaModel, RayGeomModel, SearchModel | same model; invariant: the current cell contains the midpoint of the interval | C77_samples_are_the_cells_on_the_ray (none); C77_corner_refuted (none) |
| C78 | Every non-empty part of a ray is sampled | DdaModel, RayGeomModel, SearchModel | same model; coverage by telescoping of the intervals, with a tile map supplying empty tiles | C78_coverage (none); C78_uniform_level_exact (none); C78_gap_at_level_change_refuted (none) |
| C79 | Traversal is correct wherever a ray starts | DdaModel, RayGeomModel, SearchModel | same model; case analysis on the start cell, refutations for starts on a boundary | C79_edge_start_refuted (none) |
| C80 | 2D ray tool: the rays cover the domain | PwModel, RayToolModel | ray placement over R; coverage of the domain by the strip of rays, refutation where rounding up is missing | C80_direction (cl+fa+fe+nd); C80_covers_domain (cl+fa+fe+nd); C80_starts_in_front (cl+fa+fe+nd); C80_spacing (cl+fa+fe+nd) |
| C81 | 2D ray tool: rays reach the far side of the domain | PwModel, RayToolModel | segment length over R against the domain diagonal | C81_reached_when_short (cl+fa+fe+nd); C81_far_corner_missed_refuted (cl+fa+fe+nd); C81_square_domain_refuted (cl+fa+fe+nd); C81_vertical_view_refuted (cl+fa+fe+nd); C81_unrotated_vertical (cl+fa+fe+nd) |
| C82 | Ray tools: the reported intensity solves the transfer equation | PwModel, RayToolModel | fold of the voxel steps over R equals the closed-form solution | C82_transfer_equation (cl+fa+fe+nd); C82_same_as_formal_solution (fa+fe+nd); C82_optical_depth (fa+fe+nd); C82_background (fa+fe+nd); C82_depth_output (fa+fe+nd); C82_num_steps (none) |
| C83 | 2D ray tool: line-of-sight velocity matches the reported direction | PwModel, RayToolModel | vector algebra over R | C83_unit_inside (fa+fe+nd); C83_unnormalised_refuted (fa+fe+nd); C83_velocity_used (fa+fe+nd); C83_projection_in_plane (fa+fe+nd); C83_wrong_sign_refuted (fa+fe+nd) |
| C84 | Ray tools: background intensity is the boundary in the ray's direction | PwModel, RayToolModel | lookups with abstract boundary functions, per boundary type | C84_direction_sign (fa+fe+nd); C84_3d (fa+fe+nd); C84_2d_upwards (fa+fe+nd); C84_2d_in_plane (fa+fe+nd); C84_2d_inclined_refuted (fa+fe+nd) |
| C85 | 3D ray tool: image plane | PwModel, RayToolModel | image-plane geometry over R | C85_velocity (fa+fe); C85_pixel_centres (fa+fe); C85_image_covered (fa+fe); C85_far_camera_refuted (fa+fe+nd) |
| C86 | Packed atomic tables give back each model atom | AtomFlatModel | arrays of optional (uninitialised) slots with faulting writes; induction over the species | C86_atoms_recovered (none); C86_short_rate_table_refuted (none) |
| C87 | Hydrogen first, and the species solved for | AtomFlatModel | sort by mass as any mass-sorted permutation | C87_hydrogen_first (none); C87_gamma_atoms (none) |
| C88 | Model atoms: transitions refer to the levels the file names | CrtafModel | typed YAML values; key map; any energy-sorted permutation | C88_transitions (fa+fe); C88_line_refused_iff (fa+fe); C88_swapped_levels_refuted (fa+fe) |
| C89 | Model atoms: broadening and wavelength grid of a line | CrtafModel | same model; grids over R, uninitialised and NaN values explicit | C89_broadening (fa+fe); C89_no_natural_refuted (fa+fe); C89_linear_grid (fa+fe); C89_tabulated_grid (fa+fe); C89_one_point_refuted (fa+fe) |
| C90 | Tabulated velocity range contains the rays' line-of-sight velocities | PwModel, VelRangeModel | directions and inclinations of a subset as lists; min/max over R | C90_bounds (cl+fa+fe+nd); C90_margin (cl+fa+fe+nd); C90_outside_refuted (cl+fa+fe+nd) |
| C91 | Looking up a probe's intensity in an arbitrary direction | PwModel, VelRangeModel | bilinear interpolation in direction and position over R | C91_direction_lookup (cl+fa+fe+nd); C91_own_ray (cl+fa+fe+nd) |
| C92 | Voigt profile: complex division and line wings | PwModel, VoigtModel | complex arithmetic over R; rational approximation with explicit coefficients, limits of wings | C92_division (fa+fe); C92_wings_positive (fa+fe); C92_lorentz_wing (fa+fe); C92_even (fa+fe); C92_operators (fa+fe); C92_core_formula (fa+fe) |
| C93 | Tabulated Voigt lookup: in bounds, exact at nodes, bilinear, clamped | PwModel, VoigtModel | table lookup over R with index bounds | C93_memory_safe_and_bounded (fa+fe); C93_exact_at_nodes (fa+fe); C93_bilinear_exact (fa+fe); C93_table_of_function (fa+fe); C93_needs_nonnegative_v_refuted (fa+fe) |
| C94 | 3D mip chain: level values are means of the covered cells; tile levels count passing voxels | BlockMapModel, IndexGenModel, Mip3Model, MipModel, MortonModel, MultiLevelModel, ParModel | as C34, in 3D over Q, with the moments of CoreAndVoigtData3d | C94_velocity_and_line_mips_are_means (none); C94_emis_opac_mips_doubled_refuted (none); C94_tile_level (none); C94_line_criterion_merges_uniform (cl+fa+fe+nd); C94_base_criterion_refuses_uniform_refuted (cl+fa+fe+nd); C94_thin_blocks_merge (cl+fa+fe+nd); C94_line_criterion (cl+fa+fe+nd) |
| C95 | Neutral hydrogen density is current wherever it is used | LteModel, StartupModel | start-up and iteration as a state machine with abstract solvers; the history of every cell's nh0 | C95_neutral_hydrogen_current (none); C95_neutral_hydrogen_current_3d (none); C95_all_passes_logged (none); C95_special_populations_zero_hydrogen_refuted (none); C95_special_populations_use_it (none); C95_hydrogen_collisions_vanish_refuted (fa+fe+nd); C95_hydrogen_collisions_present (fa+fe+nd) |
| C96 | Initial populations from a file are where the iteration starts | LteModel, StartupModel | same state machine with file contents | C96_file_used (none); C96_file_used_lte_2d (none); C96_restart_wins (none); C96_file_ignored_with_charge_refuted (none) |
| C97 | Populations read from a file land on the cells they came from | BlockMapModel, IndexGenModel, LoadModel, MortonModel, ParModel, SparseModel | file arrays and parallel stores per level, any schedule (ParModel) | C97_dense_2d (none); C97_dense_3d (none); C97_dense_output_between_maps (none); C97_dense_output_between_maps_3d (none); C97_new_cells_empty_refuted (none); C97_sparse_same_map_2d (none); C97_sparse_same_map_3d (none); C97_refused_2d (none); C97_refused_3d (none); C97_sparse_other_map_refuted (none); C97_ray_tool_out_of_bounds_refuted (none) |
| C98 | 3D core-and-Voigt considers every active line or stops with an exception | ActiveSetModel, WaveGridModel | fixed array with an out-of-bounds store as a fault | C98_all_lines (none); C98_five_lines_refuted (none); C98_exception_unreachable (none) |
| C99 | Ray directions of the 3D cascades cover the sphere evenly | HealpixModel, MortonModel | HEALPix pixel centres over R; equal-area symmetric arguments, parent/child relation on integers | C99_unit_directions (fa+fe+nd); C99_patches_disjoint (fa+fe+nd); C99_opposite_ray (fa+fe+nd); C99_no_net_flux (fa+fe+nd); C99_children_inside_parent (fa+fe+nd); C99_equal_area (fa+fe+nd); C99_direction_of_angles (fa+fe+nd); C99_face_offsets (none); C99_accepted_counts (none); C99_other_nside_refuted (fa+fe+nd) |
| C100 | The ray marched for a probe is the right piece of the right line | ProbeRayModel, VelRangeModel | ray construction over R, division by zero explicit | C100_never_axis_parallel (fa+fe+nd); C100_six_directions_refuted (fa+fe+nd); C100_marched_segment (fa+fe+nd); C100_marched_segment_3d (fa+fe); C100_directions (fa+fe+nd); C100_propagation (fa+fe+nd); C100_positions (fa+fe) |
| C101 | The boundary radiation enters the solution exactly once whatever the number of cascades | CascadeModel, MortonModel, PassModel, ProbeInterpModel, SolveModel | list of (cascade, boundary) passes composed with the cascade pass semantics of PassModel/Pass3Model | C101_static (none); C101_dynamic (none); C101_max_cascade_zero_refuted (none); C101_passes_3d (none) |
| C102 | Rank 0 writes the complete result of a distributed formal solution | GatherModel, WaveDistModel | per-rank arrays and any assignment produced by the work queue of WaveDistModel | C102_J_complete (none); C102_mip_single_rank (none); C102_mip_incomplete_refuted (none) |
| C103 | The ray tools evaluate the same emissivity and opacity as the solver | SpecEmisModel | binary search over the wavelength grid + coefficients of LteModel over R | C103_grid_wavelength (fa+fe); C103_any_wavelength (fa+fe); C103_below (fa+fe); C103_beyond_edge_refuted (fa+fe); C103_continuum_contribution (cl+fa+fe+nd) |
| C104 | The 3D formal solution computes the mean intensity of the ray recursion, whatever the schedule | BlockMapModel, CascadeModel, IndexGenModel, MortonModel, Pass3Model, PassModel, ProbeInterpModel, ProbeListModel, SolveModel | cascade buffers with bounds-checked reads and writes over Q; schedule independence from ParModel; recursion specified separately | C104_J (none); C104_J_given (none); C104_isotropic (none); C104_fits (none); C104_overflow_refuted (none); C104_dense (none); C104_sparse (none) |
| C105 | A 3D run writes to the file the J it computed | BlockMapModel, IndexGenModel, MortonModel, Output3Model, ParModel, SparseModel | allocate_J/save_results of main_3d on flat arrays with bounds | C105_sparse_image (none); C105_sparse_ks (none); C105_dense_image (none); C105_all_active_refuted (none); C105_scrambled_refuted (none); C105_device_refuted (none); C105_given_refuted (none) |
| C106 | A sparse atmosphere file is as good as the dense one, cell by cell | AtmosFileModel, BlockMapModel, IndexGenModel, MortonModel, ParModel, SparseModel | file arrays as functions; block map of BlockMapModel; pointwise equality of the loaded atmospheres | C106_sparse_2d (none); C106_sparse_3d (none); C106_dense_2d (none); C106_dense_3d (none); C106_same_state_2d (none); C106_same_state_3d (none); C106_refused (none) |
| C107 | Floating-point marching stays close to the exact solution of the transfer equation | FpMarchModel | Flocq FLT format with arbitrary precision, round to nearest with any tie rule, any FMA contraction; error recurrence by induction over the voxels | C107_intensity (cl+fa+fe+nd); C107_tau (cl+fa+fe+nd); C107_merge (cl+fa+fe+nd); C107_two_intervals (cl+fa+fe+nd); C107_f32 (cl+fa+fe+nd) |
| C108 | Line widths come from the terms the model file lists | AtomFlatModel, BroadeningModel, CrtafModel, LteModel | parser (CrtafModel) + packed tables (AtomFlatModel) + evaluation, composed; pow with its zero and infinite cases | C108_width_from_file (cl+fa+fe+nd); C108_width_bounds (cl+fa+fe+nd); C108_width_monotone (cl+fa+fe+nd); C108_doppler (fa+fe+nd); C108_damping (fa+fe+nd) |
| C109 | Start-up changes the atmosphere only as far as conservation was requested | LteModel, StartupModel | start-up state machine with arbitrary solvers; induction over the LTE iteration | C109_total_hydrogen_kept (none); C109_densities_kept_without_charge (none); C109_iterations (none); C109_pressure_update (none) |
| C110 | Every way of merging with the cascade above is a proper average | CascadeModel, MergeCfgModel, MortonModel, ProbeInterpModel, ProbeRayModel, RadianceModel, VelRangeModel | the three merge functions over R with an arbitrary march; convexity, geometry by algebra | C110_march_within (cl+fa+fe+nd); C110_between (cl+fa+fe+nd); C110_thermal (cl+fa+fe+nd); C110_segments_meet (fa+fe+nd); C110_alo_kept (cl+fa+fe+nd); C110_bilinear_fix_alo_refuted (fa); C110_bilinear_fix_mu_refuted (fa+fe+nd); C110_outermost (cl+fa+fe+nd); C110_bilinear_fix_value (cl+fa+fe+nd); C110_parallax_lookup (cl+fa+fe+nd); C110_cone_points (fa+fe+nd) |
| C111 | Long characteristics in 3D: every direction reaches J once, with its quadrature weight | CascadeModel, LongCharModel, MortonModel, Pass3Model, PassModel, ProbeInterpModel, SolveModel | fold over directions and orders of the probe loop (Permutation), tables as exact decimals checked by computation | C111_J (none); C111_single_direction (none); C111_clean_buffer (none); C111_leftovers_refuted (none); C111_directions (none); C111_linear_field (none); C111_second_moments (none); C111_ray_ends_at_cell (none); C111_ray_spans_grid (none) |
| C112 | The 3D ray march solves the transfer equation | March3Model, PwModel, RadianceModel | march as a fold over voxels in R; reduction to the formal solution and its derivative | C112_exact (fa+fe+nd); C112_transfer_equation (fa+fe+nd); C112_bounded (cl+fa+fe+nd); C112_psi_star (cl+fa+fe+nd); C112_line_of_sight (fa+fe+nd); C112_boundary (fa+fe); C112_boundary_any_build (fa+fe); C112_given_agrees (fa+fe+nd) |
| C113 | A 2D run with given emissivity and opacity solves every wavelength alone | BlockMapModel, CascadeModel, GivenModel, IndexGenModel, MergeJModel, MortonModel, ParModel, PassModel, ProbeInterpModel, SparseModel | run as a fold over batches with arrays as functions carrying undefined contents; invariant on the planes written so far | C113_run (none); C113_each_wavelength_alone (none) |
| C115 | Ray tools: the background spectrum behind the model | BcInterpModel, PwModel, SpecEmisModel, StatEqModel | binary search and blend over R with bounds-checked reads; piecewise-linear specification | C115_wavelength (fa+fe); C115_at_node (fa+fe); C115_background (fa+fe); C115_outside_refuted (fa+fe); C115_inside_refuted (fa+fe) |
| C114 | Ray tools work on the state the run ended with | BlockMapModel, ConfigModel, IndexGenModel, LoadModel, MortonModel, ParModel, RayStateModel, SparseModel | file as variables with dimensions; write then read as partial functions, any order of the cells | C114_state (none); C114_old_file (none); C114_no_populations (none); C114_stale_density_refuted (none); C114_state_3d (none); C114_dense_3d_refuted (none) |
| C116 | A converged non-LTE solution is self-consistent | ConvergeModel, LteModel, ProfNormModel, StatEqModel | Gamma as a fold over all visits in any order; net rate of each transition independent of psi except for the floor; solver soundness and uniqueness from C39 | C116_net_rates (fa+fe+nd); C116_fixed_point_is_solution (fa+fe+nd); C116_solution_is_fixed_point (fa+fe+nd); C116_floor_is_negligible (fa+fe+nd); C116_line_rates_are_einstein (fa+fe+nd) |
| C117 | What the convergence criterion guarantees | ConvergeModel, LteModel, ProfNormModel, StatEqModel | negative part of the change bounded level by level, total from conservation; residual of the old populations through the balanced matrix | C117_total_change (fa+fe); C117_imbalance (fa+fe); C117_relative_imbalance (fa+fe); C117_every_level_refuted (fa+fe) |
| C118 | LTE hydrogen splits consistently into neutral and ionised | HydrogenModel, LteModel | tables as integers checked by computation segment by segment; chord monotonicity against the Saha exponential with ln 10 > 2.288 | C118_partition_function (cl+fa+fe+nd); C118_split (cl+fa+fe+nd); C118_hotter_is_more_ionised (cl+fa+fe+nd); C118_more_electrons_less_ionised (cl+fa+fe+nd); C118_table_nodes (fa+fe) |
| C119 | The saved radiation field and populations belong together | IterModel, RestartModel, RunModel | the loop with J threaded through, invariant: current state came from the current J by the last update | C119_saved_together (none); C119_final_dense (none); C119_lte (none); C119_restart_at_limit_refuted (none); C119_ends (none) |
| C120 | A converged charge-conserving iteration is an equilibrium, neutral state | ChargeIterModel, ChargeModel, ConvergeModel, StatEqModel | induction over the update schedule giving what each level read; the vanishing electron step forces an unclamped homogeneous system with only the zero solution | C120_fixed_point_is_solution (fa+fe); C120_reported_change (fa+fe); C120_ignored_level_refuted (fa+fe); C120_converged_state (fa+fe); C120_rescaled_change (fa+fe); C120_rescale_unreported_refuted (fa+fe) |
| C121 | The configuration file means what it says | ConfigModel, ConfigParseModel | reader in an error monad over YAML trees, specification by paths of keys; equivalence reader by reader, list induction for the atoms | C121_exact (none); C121_unknown_key_silently_ignored_refuted (none); C121_first_of_duplicates (none); C121_inapplicable_setting_ignored_refuted (none); C121_defined (none) |
| C122 | A whole floating-point cascade solution is close to the exact one, whatever the thread order | FpCascadeModel, FpMarchModel | Flocq FLT rounding; induction over accumulated sums and over the cascades on top of C107; permutation invariance of the exact sum | C122_weights_exact (cl+fa+fe+nd); C122_intensity (cl+fa+fe+nd); C122_J (cl+fa+fe+nd); C122_order_of_additions (cl+fa+fe+nd); C122_quadrature_weight_exact (cl+fa+fe+nd); C122_f32 (cl+fa+fe+nd); C122_run_to_run_difference_refuted (cl+fa+fe+nd) |
| C123 | A 3D run with given emissivity and opacity solves every wavelength alone | BlockMapModel, CascadeModel, Given3Model, IndexGenModel, MortonModel, ParModel, Pass3Model, PassModel, ProbeInterpModel, ProbeListModel, SolveModel, SparseModel | loop over wavelengths with state; invariant that each finished plane is the mean of C104's ray recursion on that wavelength's data; frame of C104 | C123_run (none); C123_each_wavelength_alone (none) |
| C124 | The formal solution as an operator: bounded, exact in equilibrium, monotone, linear and stable | BlockMapModel, CascadeModel, MergeJModel, MortonModel, Pass3Model, PassModel, ProbeInterpModel, ProbeListModel, SolveModel | generic recursion over convex combinations; bilinear/trilinear weights times direction averages are convex (C21, C19), then C24 / C104 | C124_bounds_2d (none); C124_equilibrium_2d (none); C124_monotone_2d (none); C124_linear_2d (none); C124_stable_2d (none); C124_terminates_3d (none); C124_bounds_3d (none); C124_equilibrium_3d (none); C124_monotone_3d (none); C124_linear_3d (none); C124_stable_3d (none) |
| C125 | Statistical equilibrium is the same in both builds; the zero-radiation start | MagmaModel, StatEqModel | memory-level model of the transposed matrix; pivoted elimination succeeds exactly on injective matrices (Schur complement induction), then uniqueness of the equilibrium (C39); induction over atoms and schemes with disjoint level ranges | C125_rates (fa+fe); C125_rates_any_order (fa+fe); C125_magma_solves (fa+fe); C125_magma_fails_only_if_ambiguous (cl+fa+fe); C125_builds_agree (fa+fe); C125_portable_fails_where_magma_does_not (fa+fe); C125_zero_radiation (fa+fe); C125_magma_resolves_all (fa+fe); C125_start_builds_agree (fa+fe); C125_magma_only_atom_refuted (fa+fe) |
| C126 | The MAGMA build's Newton update of populations and electron density | ChargeModel, MagmaModel, NrMagmaModel, StatEqModel | invariants of the fold over kernel iterations: entries assigned by one iteration (owned) against entries accumulated by many (sums), for every permutation; then soundness and completeness of pivoted elimination (C125) and the rows of C41 | C126_update (fa+fe); C126_newton_step (fa+fe); C126_number (fa+fe); C126_pressure_refuted (fa+fe); C126_race (fa+fe); C126_nonneg (fa+fe); C126_builds_agree (fa+fe); C126_race_refuted (fa+fe) |
| C127 | Coarsened velocity tables are means of the finer tables | BlockMapModel, IndexGenModel, MipModel, MortonModel, MultiLevelModel, ParModel, PwModel, VelInterpModel, VelMipModel | induction over levels on the kernel model (a fold over any permutation of iterations, addresses of levels disjoint by C10); a sample is a convex combination of two entries determined by the axis, so sampling commutes with averaging on a common axis | C127_runs (fa+fe); C127_coarse_tables (fa+fe); C127_bounded (fa+fe); C127_uniform_flow (fa+fe) |
| C128 | A whole 3D floating-point cascade solution is close to the exact one, whatever the thread order | Fp3Model, FpCascadeModel, FpMarchModel | as C122 with the 3D weights (exact by Flocq generic_format), the mean over directions with rounded 1/n, and 8 x 2^t accumulated samples | C128_weights_exact (cl+fa+fe+nd); C128_intensity (cl+fa+fe+nd); C128_J (cl+fa+fe+nd); C128_order_of_additions (cl+fa+fe+nd); C128_f32 (cl+fa+fe+nd) |
| C129 | Floating-point ray traversal of the grid always ends and reads stored cells only | FpDdaModel, FpMarchModel | invariant: all hits at most 2 roundings behind t; potential = (time left)/dlt x (hits left) + hits left decreases by 1/4 of a voxel per step or by a re-seed that moves t by 1e-3 (more than the accumulated rounding); exponent arguments with Flocq | C129_terminates (cl+fa+fe+nd); C129_start (cl+fa+fe+nd); C129_levels (cl+fa+fe+nd); C129_f32 (cl+fa+fe+nd) |
| C130 | Clipping a ray to the grid in floating point keeps the right part of it, to a small fraction of a voxel | FpClipModel, FpDdaModel, FpMarchModel | relative error of a difference of floats (Flocq), of 1/d and of the product gives (parameter x direction) = distance of the face to 4 roundings; monotone rounding orders entry and exit; fold over axes; explicit roundings for the counterexample | C130_inside (cl+fa+fe+nd); C130_complete (cl+fa+fe+nd); C130_origin (cl+fa+fe+nd); C130_f32 (cl+fa+fe+nd); C130_start_in_grid_refuted (cl+fa+fe+nd) |
| C131 | Rounding does not make a ray read the wrong cells or skip stored ones | FpClipModel, FpDdaModel, FpMarchModel | invariant over the traversal: the position at the current time and at the next hit lie in the cell, and each axis' hit is at its far face, up to e; e grows by one rounding per step and by twice the push when a hit is moved ahead, and is reset when the position is re-computed; coverage by induction over steps through empty blocks | C131_cells (cl+fa+fe+nd); C131_complete (cl+fa+fe+nd); C131_f32 (cl+fa+fe+nd) |
| C132 | ParallaxFixInner: the separate merge pass combines exactly the marched intervals with the cascade above | CascadeModel, InnerMergeModel, MergeCfgModel, MortonModel, ProbeInterpModel, ProbeRayModel, RadianceModel, VelRangeModel | three loops as folds over arbitrary lists with the same elements; addresses injective (C18), so each pass is a map; direction interpolation from C91; bounds from convexity and from exp(-min(-ln t, 1e4)) = max(t, exp(-1e4)) | C132_level (cl+fa+fe+nd); C132_raw (fa+fe+nd); C132_elsewhere (cl+fa+fe+nd); C132_no_separate_merge (cl+fa+fe+nd); C132_between (cl+fa+fe+nd); C132_thermal (cl+fa+fe+nd); C132_like_vanilla (cl+fa+fe+nd) |
| C133 | The ray of a 2D probe in floating point | FpClipModel, FpDdaModel, FpMarchModel, FpRayModel, VelRangeModel | error of each multiply-add (fused or not) from Flocq; subtraction and division errors composed; counterexample by computing the two rounded ends exactly and bounding the quotient | C133_length (cl+fa+fe+nd); C133_points (cl+fa+fe+nd); C133_near_end (cl+fa+fe+nd); C133_f32 (cl+fa+fe+nd); C133_length_refuted (cl+fa+fe+nd) |
| C134 | What a ray-tool configuration file means, and which views it renders | ConfigModel, ConfigParseModel, RayConfigModel | the reader as a total function on YAML trees with outcomes Ok/Throw/UB; equivalence with a relational meaning of the file; exact condition for the out-of-range read; counterexample files computed | C134_2d_exact (none); C134_2d_defined (none); C134_3d_exact (none); C134_3d_renders_iff (none); C134_3d_undefined_iff (none); C134_3d_corners_unchecked_refuted (none); C134_3d_no_pixels_refuted (none); C134_pixels (none) |
| C135 | What the output files contain | ConfigModel, OutFileModel | a file as maps from dimension and variable names; a list of writes succeeds and holds every variable when names are consistent; consistency from injectivity of formatted names; the loop over the views flattened to a list of writes | C135_main_2d (none); C135_main_3d (none); C135_rays_2d (none); C135_rays_3d (none) |

## What each model file covers and simplifies

The opening comment of each model file; every definition carries its own citation and, where it simplifies, says so.

- **ActiveSetModel.v**: Active sets of transitions per wavelength and their use: source/Populations.hpp:688-731, Utils.hpp:154-183, EmisOpac.hpp:288-405, Mipmaps.cpp:34-105, CoreAndVoigtEmisOpac.cpp:58-150, RayMarching.hpp:372-402, 514-549.
- **AtmosFileModel.v**: AtmosFileModel.v -- reading an atmosphere: source/Atmosphere.hpp:10-120 and 122-240 (dense), 276-296 (which format), 298-440 (sparse); BlockMap.cpp:326-425 and 427-450 (init_and_sparsify_atmos); MiscSparse.cpp:7-105 (sparsify_atmosphere). The file is a record of what netCDF would return; every physical field is handled the same way, so one field is modelled (any of temperature, pressure, ne, nh_tot, vturb, vx, vy, vz), with values of type V; the temperature is what decides activity in a dense file. nh0 is not read, it starts at zero. The scalars voxel_scale and offset_* are copied unchanged in both branches.
- **AtomFlatModel.v**: Packing the model atoms into the flat per-species tables and taking one atom out again: source/Populations.hpp:318-470, 655-690 (to_atomic_data) and 780-880 (extract_atom, extract_atoms_with_gamma_and_mapping). The payloads (energies, profile data, rates...) are copied unchanged, so they are abstract types; the conversion of Bji/Bij/abundance to other units and to fp_t is not modelled. The wavelength grid part is in WaveGridModel.
- **BcInterpModel.v**: The boundary illumination as the ray tools load it: PromweaverBoundary.cpp:11-33, 120-145 with PromweaverResampleType::Interpolation (dexrt_ray.cpp:906-912, dexrt_ray_3d.cpp), for one wavelength sought; the solver's variant (FluxConserving) is PwModel.resample. Simplification: exact real arithmetic; the table is indexed (wavelength, mu) as in the file (27-28).
- **BlockMapModel.v**: BlockMapModel.v -- source/BlockMap.cpp (BlockMapInit<2>, BlockMapInit<3>, setup_block_map_sparse_atmos) and BlockMapLookup from source/BlockMap.hpp. Simplifications: an array is a function from its index (a coordinate) to its contents, and every access is checked against the allocated extents, an out-of-range access being the outcome [UB]; std::sort is insertion sort (a sorted permutation of integers is unique, see [isort_unique]); host/device copies and fences are identities; printing is dropped. Signed 32-bit overflow of the tile-count products is the outcome [UB].
- **BroadeningModel.v**: The width of a line in a cell: source/EmisOpac.hpp:108-176 (thermal_vel, doppler_width, damping_from_gamma, gamma_from_broadening). Real numbers; std::pow on negative arguments (never a temperature or density) counts as non-finite. The line and the table of broadening terms are those packed by AtomFlatModel (Populations.hpp:412-435) from the lines read by CrtafModel.
- **CascadeModel.v**: CascadeModel.v -- cascade sizes, storage addresses, direction subsets, ray intervals and the ping-pong buffers. source/RcUtilsModes.hpp, source/RcUtilsModes3d.hpp, source/CascadeState.hpp. The compile-time switches of UserConfig2d.hpp / UserConfig3d.hpp are fields of a record, so theorems hold for every configuration and not only the committed one. Simplification: `int` ray counts and `1 << e` are exact integers (the code is undefined when a ray count exceeds 2^31-1); addresses are i64 in the code.
- **ChargeIterModel.v**: One non-LTE iteration of hydrogen in one cell with charge (and pressure) conservation: statistical equilibrium, then the Newton update, and the change both report. source/main.cpp:1023-1043 (main_3d.cpp:862-880), Populations.cpp:378-640, ChargeConservation.cpp:446-963. Exact reals. Gamma is the same matrix in both (already fixed up in the second: C38_idempotent).
- **ChargeModel.v**: Electron density and pressure updates of one cell: source/ChargeConservation.cpp:446-963 (the default build; the MAGMA build's right-hand side is nr_F_magma), source/Collisions.hpp:218-265, source/PressureConservation.hpp:9-103. Exact reals. Rows of the population array: hydrogen is atom 0, rows 0 .. n-1; further atoms follow.
- **ConfigModel.v**: Configuration parsing: source/DexrtConfig.hpp:11-62 (defaults), 64-74, 152-250, 252-300, 303-357; use in source/main.cpp:86-97, 743-835. A YAML node is what it converts to: absent (None), or a value of the requested type (conversion errors throw and are not modelled).
- **ConfigParseModel.v**: Reading the whole configuration file: source/DexrtConfig.hpp:11-62 (defaults), 64-368; ModelAtomConfig: source/Types.hpp:620-623. A YAML document is a tree; a scalar is its text. The conversions node.as<T>() are parameters (None: they throw), so the theorems hold whatever yaml-cpp accepts as a number or a boolean. Map keys are their text. Mode, output section and mip levels reuse ConfigModel (C52, C53). An exception leaves main: Throw. UB is the out-of-range read of the mip levels (C52).
- **ConvergeModel.v**: One atom in one cell through a whole non-LTE pass: Gamma = collisional rates + every radiative contribution, then the populations and the change reported. source/DynamicFormalSolution.cpp:177-392 (2D), DynamicFormalSolution3d.cpp:121-300 (3D), GammaMatrix.hpp:22-41, Populations.cpp:380-640, main.cpp:985-1027. Exact reals.
- **CrtafModel.v**: Reading a model atom: source/CrtafParser.hpp:38-208. The YAML document is given as already typed values; keys are integers standing for strings, numbers are reals. [None] as a result is a thrown std::runtime_error / std::out_of_range.
- **DdaModel.v**: The grid traversal used by every ray march: source/BlockMap.hpp:1017-1300 (MultiLevelDDA), its callers' do/while loop (RayMarching.hpp:501-603, DynamicFormalSolution3d.cpp, StaticFormalSolution3d.cpp, dexrt_ray*.cpp) and the clipping that precedes it (Types.hpp:273-297). fp_t is modelled by the rationals (no rounding); the traversal's own epsilons are kept.
- **FlatLoopModel.v**: FlatLoopModel.v -- source/LoopUtils.hpp: FlatLoop, its unpack specialisations, the three ways dex_parallel_for runs it, and the team work division. i64 arithmetic is exact (loops below 2^63 iterations); i32 products are checked: [None] is signed overflow, i.e. undefined behaviour.
- **Fp3Model.v**: Fp3Model.v -- a whole 3D cascade solution in floating point, on top of FpMarchModel (one marched ray, one merge): DynamicFormalSolution3d.cpp:464-515 (march_and_merge_average_interval_3d; StaticFormalSolution3d.cpp:56-104 is the same), RcUtilsModes3d.hpp:215-244 (trilinear_corner, trilinear_weights), DynamicFormalSolution3d.cpp:599-641 and StaticFormalSolution3d.cpp:179-214 (merge_c0_to_J_3d, atomic_add: any order). A ray is an abstract identifier (probe, polar, azimuth); which voxels it samples, which rays of the cascade above it merges with and the radiation its segment starts with are parameters (geometry: C60, C91, C99, C100, C104). A ray merges with 2^t rays of each probe above (the HEALPix quadrature and the exponent form: always a power of two; the shipped configuration has t = 2).
- **FpCascadeModel.v**: FpCascadeModel.v -- a whole 2D cascade solution in floating point, on top of FpMarchModel (one marched ray, one merge): RadianceCascades.hpp:25-83 (march_and_merge_average_interval: default RC_CONFIG), RcUtilsModes.hpp:248-275 (bilinear_corner, bilinear_weights), MergeToJ.hpp:19-68 (merge_c0_to_J, atomic_add: any order). A ray is an abstract identifier (probe, direction, inclination); which voxels it samples, which rays of the cascade above it merges with and the radiation its segment starts with are parameters (the geometry is C20-C23, C76-C79, C100, C101). Each cascade pass is its own kernel, so each may contract multiply-adds differently.
- **FpClipModel.v**: FpClipModel.v -- clipping a ray to the grid in floating point: Types.hpp:205-300 (RaySegment::intersects, clip, update_origin), as called by BlockMap.hpp:1046-1055. Numbers, rounding and fused operations as in FpMarchModel and FpDdaModel. A direction component of zero has inv_d = +infinity: (a - o) * inv_d is then +-infinity (or NaN for a = o, which every comparison ignores), which is written out as a case. (A component -0 is C32.)
- **FpDdaModel.v**: FpDdaModel.v -- the grid traversal of DdaModel in floating point: BlockMap.hpp:1017-1300 (MultiLevelDDA), after clip and update_origin (so the ray starts at t = 0 and has length t1). Numbers and rounding as in FpMarchModel (binary floating point, gradual underflow, no overflow, any tie rule). Each multiplication followed by an addition may be contracted into a fused operation by the compiler: [fuse] says so for each place. The levels of the map are an arbitrary function of the integer coordinate (get_sample_level clamped, MultiLevelModel).
- **FpMarchModel.v**: FpMarchModel.v -- the arithmetic of one marched ray in floating point: RayMarching.hpp:584-602 (the step of multi_level_dda_raymarch_2d, also StaticFormalSolution3d.cpp:46-52 and DynamicFormalSolution3d.cpp:450-455, where inv_sin_theta is absent: ist = 1) and RayMarching.hpp:293-305 (merge_intervals). Numbers are the binary floating-point numbers of precision prec with gradual underflow at emin and unbounded range above (Flocq's FLT format: the model has no overflow); every operation is the exact operation followed by rounding to nearest, whatever the tie rule. The C++ standard lets the compiler contract a multiplication and an addition into one fused operation (GCC and nvcc do by default), so the expression result.I * edt + source_fn * one_m_edt has three evaluations and each a += b * c two: all are modelled. std::exp and std::expm1 are unknown functions fexp, fexpm1 (hypotheses about them are in the theorems).
- **FpRayModel.v**: FpRayModel.v -- the ray of a 2D probe that is handed to the marcher, in floating point: RcUtilsModes.hpp:498-519 (ray_props, invert_direction) and RayMarching.hpp:440-444 (ray_seg_from_ray_props). Numbers, rounding and fused operations as in FpMarchModel and FpDdaModel. The centre c, the direction d (std::cos and std::sin of the rounded angle) and the interval are given floating-point numbers; their negation is exact.
- **GatherModel.v**: What rank 0 writes after a distributed formal solution: J (summed over the ranks) and max_mip_block (rank 0's own copy). source/main.cpp:401-438 (setup/finalise_wavelength_batch, copy_J_plane_to_host), 869, 995-1017, 1092-1117, 743-790 (only rank 0 saves), source/WavelengthParallelisation.hpp:193-221 (reduce_J). [log] is WaveDistModel.d_log: (rank, la_start), latest first. One spatial cell / one tile is followed; val w is the mean intensity the formal solution gives at wavelength w.
- **Given3Model.v**: Given3Model.v -- a whole 3D run with given emissivity and opacity, radiance cascades: source/StaticFormalSolution3d.cpp:332-470 (static_formal_sol_rc_given_3d with FORCE_LC_QUADRATURE = false), main_3d.cpp:53-104 (init_given_emis_opac), 30-52 (allocate_J). The passes of one wavelength and the merge into J are formal_sol3 of Pass3Model.v over all probes of every cascade (404-443, 177-216). V is the type of the given values; J is Q (exact). [march E X n p up] is what the ray p of cascade n makes, by marching through the arrays E and X (the base arrays and the mips computed from them, 369) and merging, of the interpolated intensity up. Reading or writing outside an array is None. J, of which plane la is written, has nw planes of x_dim * y_dim * z_dim entries.
- **GivenModel.v**: GivenModel.v -- a whole 2D run with given emissivity and opacity: source/main.cpp:40-64 (allocate_J), 402-437 (setup and finalise of a batch), 872-894 (the loop over batches), 779-790 (the J written; sparse_calculation is forced off by DexrtConfig.hpp:64-73), and source/StaticFormalSolution.cpp:11-42 (copy of the given data into the base of the mip chain; the passes and the merge are formal_sol of MergeJModel.v, StaticFormalSolution.cpp:57-95). V is the type of the given values; J is Q (exact). [march E X wb] is what the march of a ray makes of the batch held in the base arrays E and X (emissivity, opacity; mips included), [lev E X wb t] the mip level chosen for tile t. Reading or writing outside an array is a Fault.
- **HealpixModel.v**: Ray directions of the 3D cascades with the HEALPix quadrature: source/RcUtilsModes3d.hpp:471-570 (the branch ANGULAR_QUADRATURE_TYPE == Healpix). Integers are exact (the caller must keep npix below 2^31, as int does); floating point numbers are exact reals.
- **HydrogenModel.v**: LTE ionisation of hydrogen as the code tabulates it: source/LteHPops.hpp:36-78 (the tables and the functor), with the table lookup of source/Utils.hpp:92-139. Exact reals. The binary search is replaced by the search for the first larger node (C33_upper_bound proves that this is what it finds). The free function nh0_lte (LteHPops.hpp:13-33) has the same tables and formula.
- **IndexGenModel.v**: IndexGenModel.v -- source/BlockMap.hpp:446-702, struct IndexGen (2D and 3D). BLOCK_SIZE is 2^L (Config.hpp:77 static_assert), L = L2_BLOCK_SIZE. INNER_MORTON_LOOKUP = false and assume_lower_tile_bound_0 = true as compiled. Reading the lookup table outside its extents is UB ([None]). The DEXRT_DEBUG throw of lines 548-552 is not compiled in.
- **InnerMergeModel.v**: One cascade level of the 2D solution in the configuration ParallaxFixInner: source/RadianceCascades.hpp:346-380 (march_parallax_fix_inner), 424-443 (its dispatch), 452-613 (parallax_fix_inner_merge), 688-786 (the loop that calls both), with 203-242 (interp_probe_dir of the level's own rays). Config.hpp:46-58 allows this configuration only without PREAVERAGE and DIR_BY_DIR and with STORE_TAU_CASCADES, so one ray per texel and one subset holding every direction. fp_t is R; -log of the mean transmittance is exact (it is positive in R; in binary32 it can be 0, giving infinity, which the min then turns into 1e4). The march itself is an arbitrary function of the inclination and wavelength numbers, the ray and mu. A loop is a fold over the list of its iterations in the order in which they happen to run; each iteration writes only its own texel.
- **IterModel.v**: Convergence test, main non-LTE loop, Ng acceleration, snapshots, ranks and rate-matrix slots. source/Populations.cpp:592-646, source/main.cpp:258-335, 108-118, 896-1060, source/NgAcceleration.hpp, NgAcceleration.cpp, source/WavelengthParallelisation.hpp:160-246, source/Collisions.cpp:12-50, source/Populations.hpp:852-877, Types.hpp:723-728.
- **LineSweepModel.v**: Line sweeping: source/LineSweepSetup.hpp:10-85, LineSweepSetup.cpp:12-150 and LineSweeping.hpp:86-345, 352-555. Coordinates are rationals (no rounding); directions may have zero components as in RayGeomModel.
- **LoadModel.v**: Reading populations back from a file: source/main.cpp:336-398 and main_3d.cpp:606-674 (load_initial_pops), main.cpp:262-297 (handle_restart, the same test as for a sparse file), dexrt_ray.cpp:234-262 (load_dex_output); what the files hold: main.cpp:758-771, 797-799 (save_results). Values are opaque. The netCDF layer: a file is its dimensions and the array. Simplification: the level loop of the sparsifying kernels is taken outside (each level has its own, arbitrary, order of cells).
- **LongCharModel.v**: LongCharModel.v -- long characteristics in 3D with given emissivity and opacity: source/StaticFormalSolution3d.cpp:218-330 (static_formal_sol_long_char_3d; taken iff FORCE_LC_QUADRATURE, 339-342), 177-216 (merge_c0_to_J_3d with an explicit weight) and the tables of UserConfig3d.hpp:86-114 (LcTables.v). Values are Q (exact); what the march returns for direction number k at probe p is the function [inten k p]. The probes of a loop may be visited in any order. Buffers are not bounds-checked here (C60).
- **LteModel.v**: LTE populations, collisional rates, radiative coefficients. Exact reals; physical constants are parameters. source/Populations.hpp:878-926, Collisions.hpp:27-215, LteHPops.hpp:60-78, EmisOpac.hpp:100-275, GammaMatrix.hpp:22-41, CoreAndVoigtEmisOpac.cpp:19-48, CoreAndVoigtEmisOpac.hpp:36-80, InitialPops.cpp:9-66.
- **MagmaModel.v**: MagmaModel.v -- statistical equilibrium of all atoms in both builds, and the zero-radiation start: source/Populations.cpp:102-379 (stat_eq_impl with DEXRT_USE_MAGMA), 380-645 (without), 647-662; source/InitialPops.cpp:9-101. One spatial cell (all cells are treated alike, in parallel, on their own planes); numbers are exact reals; 64-bit internal precision (refinement passes). The reported change is C45's. All atoms are Active (what happens with others is C49).
- **March3Model.v**: March3Model.v -- marching one ray in 3D: source/DynamicFormalSolution3d.cpp:322-463 (multi_level_dda_raymarch_3d, core-and-Voigt scheme as shipped: LINE_SCHEME_3D, 361-398, and the scheme without lines, 399-402) and StaticFormalSolution3d.cpp:16-58 (given emissivity and opacity). fp_t is R. The voxels the traversal delivers, in order, are a list (C76-C79 are about the traversal).
- **MergeCfgModel.v**: The three in-place ways of merging a ray with the cascade above: source/RadianceCascades.hpp:25-90 (Vanilla), 91-201 (BilinearFix), 243-346 (ParallaxFix), selected by RC_CONFIG (395-450). ParallaxFixInner (346-394, 452-613) is in InnerMergeModel.v. fp_t is R. The march itself is an arbitrary function of the ray and of mu (what multi_level_dda_raymarch_2d is given and the other arguments, which are the same in all calls, fixed). Simplification: in ParallaxFix STORE_TAU_CASCADES = false, as committed.
- **MergeJModel.v**: MergeJModel.v -- accumulation of cascade 0 into J and one wavelength batch of the formal solution. source/MergeToJ.hpp:10-69, source/DynamicFormalSolution.cpp:449-514, source/main.cpp:402-424 (host copy of J). fp_t is Q (exact): rounding, and therefore the rounding effects of the order of the atomic additions, are not modelled. The per-subset mip fill and the Gamma terms (DynamicFormalSolution.cpp:462-463, 494-502) do not touch J or the intensity buffers; what a ray integrates is the function [mrg] of PassModel.
- **Mip3Model.v**: source/Mipmaps3d.cpp:148-421 (MultiResMipChain3d::compute_mips) and the 3D line arrays of source/CoreAndVoigtEmisOpac.cpp:403-596 (CoreAndVoigtData3d::compute_mip_n). Field values are rationals. BLOCK_SIZE_3D = 2^L. mip_block = 8. One array at a time: no kernel writes two levels, and each array's mip reads only that array. The factor the sum of eight values is multiplied by is a parameter [s]: the code uses 0.125 for vx, vy, vz (249-251) and for the line arrays (CoreAndVoigtEmisOpac.cpp:549-552), but 0.25 for emis and opac (340-341).
- **MipModel.v**: source/Mipmaps.cpp:152-374 (MultiResMipChain::compute_mips), 2D, and the same reductions in source/CoreAndVoigtEmisOpac.cpp:151-330. Field values are rationals. BLOCK_SIZE = 2^L.
- **MortonModel.v**: MortonModel.v -- source/MortonCodes.hpp, function by function.
- **MultiLevelModel.v**: MultiLevelModel.v -- source/BlockMap.hpp:231-444 (MultiLevelLookup, MultiResBlockMap) and 704-1015 (MultiLevelIndexGen), with ENTRY_SIZE = 3, HYPERBLOCK2x2 = true, INNER_MORTON_LOOKUP = false, assume_lower_tile_bound_0 = true. BLOCK_SIZE = 2^L.
- **NgModel.v**: Ng acceleration of one level's populations: source/NgAcceleration.cpp:36-104. Exact reals; x s k: population of this level at stored step s (0 oldest .. 4 newest) in cell k; n cells.
- **NrMagmaModel.v**: NrMagmaModel.v -- the Newton update of hydrogen populations and electron density in the MAGMA build: source/ChargeConservation.cpp:8-445. One cell (cells are independent); exact reals; 64-bit internal precision. What the cell reads is ChargeModel's nr_in; nr_C and nr_Cp are the collisional rates at n_e and 1.01 n_e (compute_collisions_to_gamma with the electron density perturbed and put back: 84-122).
- **OutFileModel.v**: Writing the output files: variables, their dimensions and sizes. source/main.cpp:743-832, source/main_3d.cpp:434-531, source/dexrt_ray.cpp:754-835, 912-945 and source/dexrt_ray_3d.cpp:434-442, 484-492, 548-584. The NetCDF layer (yakl::SimpleNetCDF, not in the repository) is taken to behave as follows: a dimension is created by the first variable that names it (or by createDim), and has one size from then on; writing an array one of whose extents differs from the size of the dimension named for it fails; a variable written again must have the same dimension names. The contents of an array are a function of its indices.
- **Output3Model.v**: Output3Model.v -- how J reaches the output file in 3D: source/main_3d.cpp:30-52 (allocate_J), 438-497 (save_results), 677-686 (copy_J_plane_to_host), 824-850 and 893-920 (the loop over the wavelengths), 724-726 (given emissivity and opacity). One MPI rank. The netCDF layer is not modelled: the result is the array handed to nc.write, with the meaning of its dimensions. The formal solution of wavelength la is a function that turns one plane of J into another: dynamic_formal_sol_rc_3d (C104).
- **OutputModel.v**: OutputModel.v -- how J reaches the output file: source/main.cpp:40-64 (allocate_J), 743-790 (save_results), 1060-1089 (final dense formal solution). The netCDF layer is not modelled: the result is the array handed to nc.write with dimensions {"z","x"} (one wavelength plane).
- **ParModel.v**: ParModel.v -- parallel loops and host loops. A dex_parallel_for (source/LoopUtils.hpp:88-220) whose iterations each perform one array store is a list of stores executed in an unspecified order; host loops run in order, can fault on an out-of-range array access, or fail to terminate.
- **Pass3Model.v**: Pass3Model.v -- the 3D cascade passes with their memory, and J: source/DynamicFormalSolution3d.cpp:472-521 (merge with the cascade above, the same as StaticFormalSolution3d.cpp:60-105), 601-640 (merge_c0_to_J_3d), 642-778 (compute_cascade_i_3d), 783-848 (passes of a subset), 850-892 (loop over the subsets); CascadeState3d.cpp:16-44 and CascadeState.hpp:26-48 (which buffers exist and which are used). Values are Q (exact). What a ray segment does with the interpolated intensity of the cascade above (raymarch and merge_intervals), with the boundary radiation iff the flag is set, is the function [mrg bc n p upper]. A read or write outside a buffer makes the run [None]. The ALO variant of the last pass computes the same intensities. J itself is not bounds-checked (its size is the subject of C61/C98).
- **PassModel.v**: PassModel.v -- one cascade pass (the "RC Loop" of source/RadianceCascades.hpp:688-790) and the march over the cascades of one direction subset. The radiance of the ray segment itself, and merge_intervals, are an arbitrary function [mrg n p upper] of cascade index, ray and interpolated upper intensity (march_and_merge_average_interval, RadianceCascades.hpp:25-90). Values are Q: the argument only needs that the same expression gives the same value. Each iteration reads the upper buffer and writes one entry of its own buffer, in any order; nothing is assumed about the two buffers being different.
- **ProbeInterpModel.v**: ProbeInterpModel.v -- which upper-cascade probes a merge reads and with which weights: source/RcUtilsModes.hpp:34-41, 246-325 and RcUtilsModes3d.hpp:59-70, 211-301. All weights are products of 1, 1/4, 3/4 and their complements, which fp_t represents exactly, so Q is exact here.
- **ProbeListModel.v**: ProbeListModel.v -- source/MiscSparse.cpp:294-584 compute_active_probe_lists and source/Types.hpp:324-382 DeviceProbesToCompute. The parallel marking loops are lists of atomic operations in any order; std::sort is any sorted permutation. PROBE0_SPACING = 1, so c0 probes are the cells (main.cpp:205-207: c0_rays.num_probes = (x_dim, z_dim)).
- **ProbeRayModel.v**: The rays of a 2D probe and how they are marched: source/RcUtilsModes.hpp:235-241, 488-529, source/RayMarching.hpp:440-444, 462, source/Types.hpp:203-221, RadianceCascades.hpp:37 (invert_direction before the march); and the 3D ray, source/RcUtilsModes3d.hpp:573-585. Exact reals. A division by zero is [None].
- **ProfNormModel.v**: Line profile normalisation and the accumulation of the radiative rates into Gamma. source/ProfileNormalisation.cpp:46-140 (wphi), DynamicFormalSolution.cpp:14-392 (2D, both variants), DynamicFormalSolution3d.cpp:121-300 (3D), GammaMatrix.hpp:22-41, EmisOpac.hpp:186-238. Exact reals.
- **PwModel.v**: Promweaver boundary conditions: source/PromweaverBoundary.hpp:36-125 and PromweaverBoundary.cpp:36-140. Exact reals; arrays are functions on indices with an explicit length, a read outside the length gives None.
- **RadianceModel.v**: Formal solution along one ray: source/RayMarching.hpp:293-305 (merge_intervals) and 452-609 (multi_level_dda_raymarch_2d). fp_t is modelled by the real numbers: rounding, overflow and denormals are not modelled (expm1/exp are exact).
- **RayConfigModel.v**: The configuration of the two ray tools and the views they render: source/dexrt_ray.cpp:26-37 (defaults), 94-190, 850-866, 912-914 and the per-view reads of compute_ray_set 319-320; source/dexrt_ray_3d.cpp:24-36, 71-190, 506-518, 548-549 and 268-281. YAML documents, conversions, node[key] and the outcomes Ok/Throw/UB as in ConfigParseModel. The model's own configuration (C121) and the wavelengths stored in its output file come from the file system: [load] and [stored] give what loading them does. Reading a std::vector past its end is UB. Simplification: what main does between the checks and the loop over the views (reading atoms, atmosphere, populations) is taken to succeed.
- **RayGeomModel.v**: source/Types.hpp:186-314 (RaySegment). Coordinates are rationals; 1/d of an axis-parallel ray is an IEEE infinity, so the parameters t live in the rationals extended with +-infinity and NaN (no rounding, no overflow of finite values).
- **RayStateModel.v**: What the ray tools take from a finished run: dexrt_ray.cpp:190-211 (dex_data_is_sparse), 232-308 (load_dex_output, update_atmosphere), 885-894 (their use); dexrt_ray_3d.cpp:193-248, 530-550; what the run writes: main.cpp:668-672, 743-771, 794-815, main_3d.cpp:353-357, 433-463, 500-514 (save_results, rank 0), with the output configuration of ConfigModel. Simplifications: values are opaque; the netCDF layer: a file is its attribute and its variables with their dimensions; reading a variable into an array of another rank is an exception, into one of another size replaces the array; densities have one row.
- **RayToolModel.v**: The ray tools: source/dexrt_ray.cpp:309-750 (2D) and source/dexrt_ray_3d.cpp:267-430. fp_t is R: rounding is not modelled, so std::ceil and friends act on exact values.
- **RestartModel.v**: Snapshots, restarts, ranks and rate-matrix slots. source/main.cpp:258-335 (handle_restart, save_snapshot), 896-1060 (main loop), source/NgAcceleration.*, source/WavelengthParallelisation.hpp:160-246, source/Collisions.cpp:12-50, source/Populations.hpp:852-877, Types.hpp:723-728, source/Populations.cpp:387-394, source/main.cpp:108-116, 291-330.
- **RunModel.v**: RunModel.v -- a whole run with a level solution: what is in J, in the populations and densities, and which iteration number, when the results are saved. source/main.cpp:957-1113, main_3d.cpp:716-921 (the loops), main.cpp:40-63, main_3d.cpp allocate_J. The loop itself is RestartModel/IterModel. Simplifications: one rank; J is one value for all wavelengths and cells (C102, C105 and C61 are about its parts); a formal solution is an arbitrary function of the state it reads, its dense variant another; the rest of a pass (rate matrix, statistical equilibrium, charge, pressure) is an arbitrary function of the pass number, the state and the J of this pass.
- **SearchModel.v**: source/Utils.hpp:92-139 (upper_bound, interp). T is modelled by Q (exact arithmetic).
- **SolveModel.v**: Which cascade passes a formal solution runs, in order: (cascade index, does the pass sample the boundary condition). 2D non-LTE / LTE: DynamicFormalSolution.cpp:425-497; 2D given emissivity and opacity: StaticFormalSolution.cpp:43-85; 3D: DynamicFormalSolution3d.cpp:783-848. The ALO variant of the last pass (RcModeAlo) computes the same intensities as RcModeNoBc (it adds psi_star), so both are (0, false) here.
- **SparseModel.v**: SparseModel.v -- source/MiscSparse.cpp:7-292: sparsify_atmosphere, rehydrate_page and the rehydrate_sparse_quantity overloads. Floating-point values are opaque (type V; [zero] is FP(0.0)): these functions only move them. [order] is the order in which the parallel iterations run.
- **SpecEmisModel.v**: Emissivity and opacity at an arbitrary wavelength, as the ray tools compute it: source/EmisOpac.hpp:410-511 (overload for EmisOpacSpecState; called from dexrt_ray.cpp:548, dexrt_ray_3d.cpp:349), and at a wavelength of the grid, EmisOpac.hpp:294-405 with mode All and no active sets. Exact reals; [None] is a read outside an array. What a line contributes at wavelength lambda (nj * Uji, ni * Vij - nj * Vji with compute_uv, EmisOpac.hpp:186-213) is the function [line_c lambda kr] in both; what a continuum contributes given the cross-section value is [cont_c].
- **StartupModel.v**: What happens before and around the formal solutions: initial populations, the LTE electron-density iteration, special initial populations, and the neutral hydrogen density kept beside the populations. source/main.cpp:895-1107, main_3d.cpp:733-925, Populations.cpp:68-97, InitialPops.cpp:68-101, Atmosphere.hpp:420-421. Numbers are an arbitrary type; the solvers are arbitrary functions of exactly what they read. One rank.
- **StatEqModel.v**: Rate matrix and statistical equilibrium: source/GammaMatrix.hpp:43-60, source/Populations.cpp:378-640. Numbers are exact reals. One spatial cell k; matrices are functions of (row, column).
- **VelInterpModel.v**: source/DirectionalEmisOpacInterp.hpp:36-160: the velocity-interpolated emissivity and opacity of one cell and wavelength. Exact reals. [f v] stands for the emissivity or opacity emis_opac computes with local_atmos.vel = v (lines 100-127).
- **VelMipModel.v**: source/DirectionalEmisOpacInterp.cpp:165-271 (DirectionalEmisOpacInterp::compute_subset_mip_n) and its driver source/Mipmaps.cpp:377-402 (MultiResMipChain::compute_subset_mips), for LINE_SCHEME == VelocityInterp, 2D. Exact reals. The velocity range of every cell of the level (compute_min_max_vel, VelRangeModel.v) is the argument [rng].
- **VelRangeModel.v**: The range of line-of-sight velocities of a cell over the directions of a subset: source/DirectionalEmisOpacInterp.cpp:4-150 with source/Utils.hpp:208-237 and source/RcUtilsModes.hpp:488-496, 521-573. Exact reals; [None] stands for a NaN (acos or atan2 of a division by zero), for which every comparison is false.
- **VoigtModel.v**: The Voigt profile: source/Voigt.hpp. Exact reals.
- **WaveDistModel.v**: WaveDistModel.v -- source/WavelengthParallelisation.hpp:33-155 (WavelengthDistributor) and its use in source/main.cpp:1000-1018. Load balancing (MPI_LOAD_BALANCE = true): the counter [la] lives on rank 0 and is only touched under the mutex, by rank 0's own next_batch and by the service thread that answers the other ranks. The ranks run concurrently: an execution is any list of events allowed by [dstep]. A remote request is one event, the critical section that answers it (the MPI messages before and after it only delay the asker).
- **WaveGridModel.v**: source/Populations.hpp:400-630: merged wavelength grid of the model atoms. Wavelengths are rationals; the cast U -> T of the final grid is taken as exact.

## Notes per property

- C04: 2D/3D inversion proved for grids within the Morton range; _refuted theorems show wider grids are accepted and lose tiles
- C06: history independence proved; _refuted theorems: fresh generator reports data at (-1,-1)
- C07: UB = signed overflow of the number of tiles; example 2^20 x 2^20 cells with blocks of 16
- C10: for max level <= log2(block size); _refuted theorem: coarser levels are accepted and index one past the end
- C12: 2D and 3D-host overloads, pages, and the sparsify/rehydrate round trip, for every schedule
- C13: REFUTED: the device overload faults on every non-empty grid (MiscSparse.cpp:199 tests z instead of y)
- C14: C14_not_closed_refuted: violated on sparse grids, for every execution on the witness grid. C14_interior_closed and C14_full_grid_closed give the reads for which it holds.
- C15: including zero-weight reads
- C16: 2D limited to cascade-1 grids within the 2^16 Morton range
- C20: joined/tiling proved for every configuration; _refuted: for num_cascades=8 the committed configuration reverses the top interval (from > to)
- C21: 2D bilinear and 3D trilinear
- C23: end-to-end march vs a ray recursion, any schedule, dirty buffers; the ray integral itself is an arbitrary function
- C24: one wavelength batch end to end (all subsets, any schedules), dense and sparse storage, host copy; exact arithmetic
- C25: proved within the int ranges; _refuted theorems for the overflows
- C28: REFUTED for the first formal solution; later ones proved safe for every interleaving
- C30: real-number semantics; also the continuous transfer equation (C30_transfer_equation)
- C32: clip exact in real arithmetic; _refuted: direction -0.0 with origin on a face
- C34: 2D storage level for any schedule; criterion in reals; 3D mips are C94
- C35: rational wavelengths; hypotheses: own grids non-empty, strictly ascending, distances < 1e8; _refuted: a one-wavelength model reads past the grid
- C36: _refuted beyond 65536 transitions (u16); static + dynamic for any commutative, associative addition with zero
- C39: exact real arithmetic; also covers the elimination algorithm itself; _refuted: zero pivot
- C40: exact real arithmetic; Saha powers as the code's repeated division
- C41: exact arithmetic; LU modelled as unpivoted elimination (None: zero pivot)
- C42: electron density: iff theorem; REFUTED for large updates, populations, and determinism
- C43: iff theorems; REFUTED: negative electron density witness
- C44: REFUTED for every state whose density changes; other atoms proved
- C45: Refuted part: C45_nan_ignored_refuted, C45_all_nan_converges_refuted. Any reduction tree.
- C47: Without Ng: exact. With Ng: C47_ng_history_lost_refuted.
- C48: Exact from FS2 and on restarts; refuted at FS 0/1.
- C49: iff characterisation; refuted with a Detailed atom first.
- C50: also: error made by the 1e-20 opacity offset, non-negativity condition
- C52: exact characterisation; C52_undefined_iff_refuted
- C53: with section proved; _refuted without it
- C54: exact reals; the outer edges extrapolate half a spacing as in the code
- C60: REFUTED (concrete overflow; all executions for the never-written buffers)
- C61: REFUTED on fully active grids with final_dense_fs; correct in the other cases (proved)
- C63: REFUTED; C63_first_wave_has_continuum / C63_no_continuum_no_use give the two cases that are correct
- C64: REFUTED for continua; lines proved
- C66: REFUTED (exact factor proved)
- C67: REFUTED
- C68: REFUTED for the electron density component
- C69: Exact reals; LU modelled as Gaussian elimination without pivoting.
- C70: A file is the prefix of completed writes; NetCDF buffering not modelled.
- C76: Exact rationals for fp_t; the epsilons of the code (1e-6, 1e-3, 1e-2, 1e-4 shrink) are kept.
- C77: Positive theorem for generic rays plus refutation at corners.
- C78: Coverage with the exact exceptional set, exact for uniform levels; gap refutation.
- C79: Refuted by a concrete ray.
- C81: REFUTED: exact criterion proved; the shipped length misses the far corner for every view of a square domain
- C82: intensity, optical depth and depth output; the traversal itself is C76-C79
- C83: REFUTED for inclined and unnormalised directions; proved for the rest
- C84: REFUTED for inclined 2D rays; proved for 3D and in-plane 2D rays
- C85: REFUTED for far cameras; proved for the image tiling and velocity
- C86: C86_short_rate_table_refuted: nothing checks the rate table's length (out-of-bounds read). Unit conversions of the payload are not modelled.
- C87: Assumes, as physics guarantees, that hydrogen (Z=1) is lighter than every other species given.
- C88: C88_swapped_levels_refuted: levels in the wrong order are accepted. YAML typing is not modelled.
- C89: C89_no_natural_refuted (indeterminate natural width) and C89_one_point_refuted (NaN wavelength). Real arithmetic.
- C90: C90_outside_refuted: violated for velocities with a y component outside the sector. Real arithmetic; zero and axis-parallel velocities (NaN angles) included.
- C91: Used by the parallax-fix merges. Real arithmetic; optical depth part not modelled.
- C92: Exact reals, the coefficients as written. Positivity of the 24-term branch (|v| + a < 15) is not claimed.
- C93: Exact reals; the table is not used in the shipped configuration (USE_LUT=false) but is part of the API. The float-to-int conversion of a floor beyond the int range is not modelled.
- C94: Field values are rationals and the criterion uses real logarithms; each array is treated separately. The refuted parts state exactly what the code computes (factor 2^l; |ln| threshold).
- C95: current in every pass proved; ZeroRadiation initialisation uses stale/zero density (refuted there)
- C96: used without charge conservation proved; ignored with it (refuted there)
- C97: dense and same-map sparse proved; three violations exhibited
- C98: up to four lines proved; out-of-bounds store before the exception otherwise
- C99: Exact reals. C99_other_nside_refuted: other ray counts pass the assertion and give coinciding directions.
- C100: Exact reals. C100_six_directions_refuted: the division by zero for ray counts not a multiple of four.
- C101: C101_max_cascade_zero_refuted and C101_passes_3d give the violated case.
- C102: C102_mip_incomplete_refuted: max_mip_block is not gathered.
- C103: Exact reals; line profiles abstract. C103_beyond_edge_refuted: the continuum beyond its edge.
- C104: Exact rationals; the raymarch of a segment and merge_intervals are an arbitrary function. C104_fits: sufficient condition (2^N <= every side, shipped quadrature); C104_overflow_refuted: otherwise, if a cascade does not fit, every execution is out of bounds.
- C105: One MPI rank; the formal solution is an arbitrary function of a plane of J (C104 says what it computes); netCDF not modelled. The refuted theorems cover every map with all tiles active (and a concrete 16x8x8 grid), every non-empty map with device storage, every given-emissivity run.
- C106: One field stands for all eight (they are treated alike); netCDF is not modelled; a sparse file is assumed to list distinct tiles of the grid (the code trusts it), and sizes stay within the 16/10-bit Morton range (C04).
- C107: The number format has no upper limit (no overflow), NaN and infinity are not modelled; chi, eta, dt are taken as given machine numbers (their own errors are not bounded here). exp/expm1 are specified by an absolute error and by their range, as hypotheses.
- C108: real arithmetic; pow on a negative base counted as non-finite
- C109: the solvers are arbitrary functions of what they read
- C110: ParallaxFixInner not modelled; ParallaxFix with STORE_TAU_CASCADES = false; march abstract (its range is C110_march_within)
- C111: values in Q; per-direction intensities abstract (their march is C112); buffer bounds are C60
- C112: exact reals; voxel list from the DDA (C03/C31); single line-and-continuum evaluation abstract per voxel (C51, C98)
- C113: cascade mean intensity as in C23/C24/C101, march abstract; batch loop, copies and plane selection as written
- C115: exact reals; geometry of the incidence cosine is C57, table lookup C71, solver resampling C54
- C114: same atmosphere and threshold for run and tool (other maps: C97); netCDF layer abstract
- C116: exact reals; the active sets of a wavelength are taken as the transitions whose range contains it (C36); wphi as in C56; LU as elimination without pivoting (C39)
- C117: exact reals; the reported number itself, as a reduction with NaN and infinities, is C45, the loop that uses it C46
- C118: exact reals; the first larger node stands for the binary search (C33); physical constants positive, the ionisation energy as in the code
- C119: one rank; J as one value; formal solution and update arbitrary functions; loop control as in C46/C47
- C120: exact reals; one hydrogen atom in one cell; solver as elimination without pivoting; reduction over cells as in C45
- C121: YAML text to tree (yaml-cpp) not modelled; conversions are parameters; output masking and mip extension are C53/C52
- C122: no overflow or NaN; which voxels a ray samples, with which float opacity, emissivity and length, is given (geometry in exact arithmetic: C76-C79, C100); quadrature weights as stored floats
- C123: exact arithmetic; the march through the arrays (C112) is a parameter; FORCE_LC_QUADRATURE = false
- C124: exact arithmetic (floating point: C107, C122); that a marched segment keeps [min,max] of its sources and the incoming intensity is C110/C112; quadrature weights non-negative with sum 1 (hypothesis of the 2D theorems, met by the shipped quadrature)
- C125: exact arithmetic; LAPACK's gesv modelled as Gaussian elimination with partial pivoting; all atoms Active (other treatments: C49); one cell, since cells are independent
- C126: exact arithmetic; LAPACK's gesv as in C125; each kernel iteration is one atomic step, so finer interleavings of the race are not enumerated; hypotheses: at least one level, n_e > 0, continua inside the atom and at most n^2 of them
- C127: exact reals; each kernel iteration is one atomic step; the velocity ranges (C90) and base tables (C58) are arguments; hypotheses: ranges not inverted, at least two bins, one wavelength
- C128: no overflow or NaN; which voxels a ray samples, with which float opacity, emissivity and length, is given (geometry in exact arithmetic: C99, C100, C104, C112); that two orders may really differ in binary32 is C122_run_to_run_difference_refuted
- C129: ray already clipped (exact clipping: C32); no overflow or NaN; first hits non-negative is proved for rays starting inside the grid (C129_start) and a hypothesis of C129_terminates for rays that must first be walked into it; delta of a zero direction component is uninitialised in the code and modelled as 0 (it is never the nearest axis before the end of the ray)
- C130: no overflow; a zero direction component is +0 (the -0 case is C32); exact arithmetic: C32; refuted part: C130_start_in_grid_refuted (the traversal then walks the start into the grid)
- C131: no overflow; the ray starts in the grid and not within 1e-6 of the end of its cell (as in C129_start); exact arithmetic: C76-C79; termination: C129; clipping: C130
- C132: exact reals; the march is an arbitrary function (its own properties: C23, C110_march_within); a configuration that is not the committed one (RC_CONFIG = Vanilla); the line-sweep branch is separate
- C133: cosine and sine are given numbers (the counterexample's is within 1e-7 of the exact one); overflow excluded; the march along the segment is C129-C131
- C134: yaml-cpp's conversions and the file system are parameters (as in C121); what main does between the checks and the loop over the views is taken to succeed
- C135: the NetCDF layer is assumed (first use of a dimension fixes its size, another size fails); attributes not modelled; the cascades asked for are non-negative (C53); the contents of the arrays are given

## Defects of the code shown by `_refuted` theorems

- C04 (Lookup table and active list are mutually inverse): Violated: wider grids are accepted and lose tiles. Theorems: C04_wide_grid_2d_refuted, C04_wide_grid_3d_refuted
- C06 (The one-tile cache in the index generator never changes an answer): The index and has-leaves answers for an in-grid coordinate are the same whatever sequence of earlier queries the generator has served. A fresh generator queried at a coordinate just outside the negative corner of the grid wrongly reports data (documented counterexample). Theorems: C06_negative_corner_2d_refuted, C06_negative_corner_3d_refuted
- C10 (Mip levels occupy disjoint, gap-free storage): Violated: it is accepted, has no storage, and its voxels index one past the end of the buffer. Theorems: C10_level_coarser_than_block_refuted
- C13 (3D device expansion of multi-row quantities covers the whole grid): Violated: its y loop tests z, so on every non-empty grid the call indexes the result array out of bounds. Theorems: C13_device_3d_refuted
- C14 (2D sparse solution: every probe a merge reads has been computed): Violated: the first interior probe next to the grid edge can be dropped. It holds for every other read (all but upper probe 1 read from a lower probe at index at most 2 on the same axis), and for every read when no tile is empty. Theorems: C14_not_closed_refuted
- C20 (Cascade intervals tile each ray without gap or overlap): Violated only for the top cascade when it is extended to MAX_CASCADE_DIST: with enough cascades (8 in the committed configuration) its interval is reversed. Theorems: C20_last_interval_refuted
- C25 (Flattened multi-dimensional loops visit every index tuple exactly once): Violated beyond: rank-2 loops over 2^31 iterations overflow an int product (undefined behaviour), and GPU launches over 2^32 iterations never visit the indices past 2^32. Theorems: C25_cuda_launch_wraps_refuted, C25_rank2_overflow_refuted
- C28 (No rank can receive a batch before the dispenser is reset): Violated in the first formal solution: a remote request can be served between the barrier and the reset and the first batch is then computed by two ranks and summed twice. (In later solutions an early request is only told to stop, and every wavelength is still computed exactly once.) Theorems: C28_batch_handed_out_twice_refuted
- C32 (Clipping a ray to the grid keeps exactly the part inside): Violated only for an axis-parallel ray with a negative-zero direction component starting exactly on a face: it is rejected although its points are in the closed box. Theorems: C32_negative_zero_refuted
- C35 (Merged wavelength grid is sorted, drawn from the inputs, with correct integration weights): The combined grid is strictly ascending and does not depend on how the sort orders equal wavelengths, each point comes from a transition's own grid and is kept iff that transition governs there (lines before continua, nearest line centre); the quadrature bins are non-negative and sum to the total span; the [blue,red) index range of each transition contains exactly the grid points inside its wavelength range. Theorems: C35_single_wavelength_refuted
- C36 (Active transition lists are exact): For every wavelength the active line/continuum list contains exactly the transitions covering it, in increasing order; computing emissivity and opacity with the list equals scanning all transitions (up to 65536 transitions: the list stores 16-bit numbers); static + dynamic contributions equal the full computation. Theorems: C36_sixteen_bit_refuted
- C39 (The statistical-equilibrium step returns the equilibrium populations of the rate matrix): Violated outside that case: elimination without pivoting divides by zero when a level has no way out and is eliminated before the conserved one, although the equilibrium is unique. Theorems: C39_unpivoted_refuted
- C42 (Clamped Newton updates keep densities non-negative and deterministic): Violated beyond that, and for populations: their step is scaled by the electron density, so they can become negative, by more than the unclamped step, and the result depends on whether the electron density was updated first. Theorems: C42_electron_density_negative_refuted, C42_populations_negative_refuted, C42_schedule_dependent_refuted
- C43 (The simple pressure update restores the gas pressure): Violated: the electron density goes negative exactly when total_abundance*nH*(n_p - ne) > n_p*P/kT. Theorems: C43_electron_density_negative_refuted
- C44 (After a pressure-conserving Newton update hydrogen populations sum to the hydrogen density): Violated whenever the density changes: hydrogen, which already carries the new total, is rescaled once more, so its sum is nH_new^2/nH_old and its charge ne*nH_new/nH_old. Other atoms are rescaled correctly. Theorems: C44_hydrogen_sum_refuted
- C45 (A change above tolerance is never missed by the convergence test): Violated for NaN: a population that becomes NaN counts as no change, so an all-NaN solution is reported as converged; the rest holds. Theorems: C45_nan_ignored_refuted, C45_all_nan_converges_refuted
- C47 (Restarting from a snapshot reproduces the uninterrupted run): Violated with Ng acceleration: the five stored iterates and changes are not saved, so the restarted run accelerates at other passes. Theorems: C47_ng_history_lost_refuted
- C48 (All MPI ranks solve with the same populations and densities): Violated at FS 0 and FS 1 of a fresh run with charge conservation (the LTE n_e iteration updates rank 0 only and n_e is not broadcast before the end of pass 1) and at FS 0 with special initial populations. Holds on restarts, without charge conservation, and from FS 2 on. Theorems: C48_first_two_refuted, C48_special_pops_refuted
- C49 (Collisional rates of an atom go to that atom's rate matrix): Violated: exactly when a Detailed atom precedes a, a's collisions go to an earlier atom's matrix; and every atom, Detailed or not, is solved for. Theorems: C49_wrong_slot_refuted, C49_detailed_solved_refuted
- C52 (Configuration: mip levels per cascade are completely defined): Violated exactly by an empty sequence, which reads before the start of the array. Theorems: C52_undefined_iff_refuted
- C53 (Configuration: outputs that a mode cannot produce are never written, those requested are): Violated without an output section (GivenFs mode then computes LTE populations of a missing atmosphere) and for negative cascade numbers, which are accepted and index the buffers. Theorems: C53_without_section_refuted, C53_negative_cascade_refuted
- C54 (Flux conserving boundary resampling is an overlap-weighted mean): Violated: the end values weigh in (example); and with a single input or output wavelength the edges are computed from outside the table. Theorems: C54_single_wavelength_refuted, C54_straddling_bin_refuted
- C55 (Line-sweep storage slots of different lines never overlap): Violated for a unit grid step: a kept line can have its only sample outside the box. Theorems: C55_unit_step_refuted
- C59 (Where snapshots are written): Violated: outputs run and run.nc share one snapshot; the last .nc is replaced wherever it is, so with output runs.nc/out the snapshot goes to the directory runs_snapshot.nc. Theorems: C59_shared_snapshot_refuted, C59_other_directory_refuted
- C60 (3D cascades are stored in buffers big enough for them, and each output buffer holds its cascade): Violated: the buffers are allocated one per cascade but addressed in ping-pong fashion, so e.g. on an 8x8x8 grid with 5 cascades above cascade 0 the 12288 entries of cascade 5 go to a buffer of 3072, and buffers 2, 3, ... are never written. Theorems: C60_buffer_overflow_3d_refuted, C60_upper_buffers_never_written_refuted
- C61 (The J image written to the output file has every cell in its place): Violated: when a sparse run ends with the final dense formal solution and every tile is active, the dense J is mistaken for a sparse one (only the array length is compared) and its cells are permuted. Theorems: C61_final_dense_scrambled_refuted
- C63 (Every wavelength of a batch uses the LTE populations of the current state): Violated: the LTE populations are only computed at the first wavelength of the batch and only if that wavelength has an active continuum; otherwise later wavelengths of the batch read whatever the freshly allocated scratch array contains. Theorems: C63_stale_lte_populations_refuted
- C64 (Every transition keeps at least one wavelength in the merged grid): Violated for continua: a continuum whose samples all lie inside a line's range, between two of the line's samples, is left with no wavelength. Theorems: C64_continuum_dropped_refuted
- C66 (Zero-radiation initial populations use the solver's own spontaneous rates): Violated: the recombination coefficient is 2 exp(hc/(lambda k T)) times the solver's for every continuum, temperature, density and wavelength (the spin factor 1/2 and the stimulated-emission exponential are missing). Theorems: C66_zero_radiation_recombination_refuted
- C67 (The MAGMA build conserves pressure): Violated: the pressure defect is computed but never stored, so every step leaves total_abundance*sum(n_H) + ne exactly where it was. Theorems: C67_magma_pressure_refuted
- C68 (Iterative refinement refines every unknown of the Newton system): Violated: the correction of the electron density is never added (the loop covers the levels only). Theorems: C68_electron_density_not_refined_refuted
- C69 (Ng acceleration extrapolates towards the fixed point): Violated: a level unchanged over five iterates, or any level with fewer than three cells, gives a zero pivot (NaN); positive populations with changes below 5% can become negative; the total over levels is not conserved. Theorems: C69_constant_level_refuted, C69_two_cells_refuted, C69_positivity_refuted, C69_total_refuted
- C70 (A crash while saving a snapshot leaves a usable snapshot): Violated: the previous snapshot is truncated first, so both are lost; and a file cut after the populations is accepted with the input electron density. A completed save always round-trips. Theorems: C70_previous_snapshot_lost_refuted, C70_mixed_state_accepted_refuted
- C74 (Looking up a line-sweep result interpolates between the neighbouring lines): Violated: the line coordinate is truncated towards zero instead of floored, so a probe before the first line gets a negative weight and can receive negative intensity. Theorems: C74_negative_weight_refuted
- C77 (Each sample is the cell the ray is in): Violated for rays through corners: a cell touched in one point only is sampled with a length of about 2e-6. Theorems: C77_corner_refuted
- C78 (Every non-empty part of a ray is sampled): Expected: every point of the clipped ray in a non-empty tile belongs to a sampled segment. Holds exactly where the level is uniform (segments tile the ray), and elsewhere except within 11/1000 of a cell after each change of level. Exactness violated: the traversal restarts 1/1000 (or 11/1000 on leaving refined tiles) ahead after a change of level. Theorems: C78_gap_at_level_change_refuted
- C79 (Traversal is correct wherever a ray starts): Violated: a ray starting in an empty tile within 2e-6 of leaving it keeps the lower corner of the next tile as its cell, so all its samples come from cells it never visits, and the first segments are out of order. Theorems: C79_edge_start_refuted
- C81 (2D ray tool: rays reach the far side of the domain): Violated: rays are cut at max(num_x, num_z) from a start plane one cell outside the domain, so whenever the domain's extent along the view plus one exceeds that length a corner of the domain is missed by the whole deficit; on a square domain this happens for every view direction, and seen from above a domain at least as tall as wide never has its bottom row sampled. It holds exactly when extent + 1 <= max(num_x, num_z), and for the unrotated vertical view. Theorems: C81_far_corner_missed_refuted, C81_square_domain_refuted, C81_vertical_view_refuted
- C83 (2D ray tool: line-of-sight velocity matches the reported direction): Violated: (1) a requested direction with mux^2+muz^2 = N > 1 is divided by N instead of sqrt N, so velocities are too small by 1/sqrt N; (2) for mux^2+muz^2 < 1 the y component enters with the opposite sign to the reported mu. Holds when mux^2+muz^2 = 1, or < 1 with no y velocity. Theorems: C83_unnormalised_refuted, C83_wrong_sign_refuted
- C84 (Ray tools: background intensity is the boundary in the ray's direction): Violated in the 2D tool for inclined rays (mux^2+muz^2 < 1): the boundary is looked up for the direction projected on the x-z plane. Theorems: C84_2d_inclined_refuted
- C85 (3D ray tool: image plane): Violated: rays are cut after 8192 cells. Theorems: C85_far_camera_refuted
- C86 (Packed atomic tables give back each model atom): Violated: a collision with fewer rates than temperatures is read past its end. Theorems: C86_short_rate_table_refuted
- C88 (Model atoms: transitions refer to the levels the file names): Violated: a line with its levels in the wrong order is accepted. Theorems: C88_swapped_levels_refuted
- C89 (Model atoms: broadening and wavelength grid of a line): Violated: without a natural entry the width is uninitialised memory; with n = 1 the wavelength is NaN. Theorems: C89_no_natural_refuted, C89_one_point_refuted
- C90 (Tabulated velocity range contains the rays' line-of-sight velocities): Violated otherwise, in spite of the 2% margin (from cascade 4 on with the compiled quadrature): such rays are sampled at the end of the table. Theorems: C90_outside_refuted
- C93 (Tabulated Voigt lookup: in bounds, exact at nodes, bilinear, clamped): For every table with at least two points per axis and an increasing range, a lookup at any (a, v) reads only inside the table; its value lies between the smallest and largest samples within one step of the point; at a table node it returns the stored value; every bilinear function is reproduced exactly inside the range and continued by its boundary value outside. For a real profile this needs the v axis to start at 0 or above: with a negative lower end stored values at negative v are never returned. Theorems: C93_needs_nonnegative_v_refuted
- C94 (3D mip chain: level values are means of the covered cells; tile levels count passing voxels): Violated: emissivity and opacity sums of eight cells are multiplied by 0.25, so level l holds 2^l times the mean, and in given-source-function mode the criterion's moments are doubled so a uniform optically thick block is refused unless |ln(chi ds)| is within tolerance. Theorems: C94_emis_opac_mips_doubled_refuted, C94_base_criterion_refuses_uniform_refuted
- C95 (Neutral hydrogen density is current wherever it is used): Violated: the ZeroRadiation initial populations are computed with whatever density was left there: zero without charge conservation, so collisions with neutral hydrogen have rate zero. Theorems: C95_special_populations_zero_hydrogen_refuted, C95_hydrogen_collisions_vanish_refuted
- C96 (Initial populations from a file are where the iteration starts): Violated: with charge conservation the LTE electron-density iteration replaces every population first; two files with the same hydrogen ground level give the same start, whatever else they hold (in 3D also in LTE mode). Theorems: C96_file_ignored_with_charge_refuted
- C97 (Populations read from a file land on the cells they came from): Violated: cells active now but not in the run that wrote a dense output start with zero populations; a sparse file of a different map with the same number of active tiles is accepted and its populations are assigned to other cells; the ray tool does not compare sizes and reads past the end. Theorems: C97_new_cells_empty_refuted, C97_sparse_other_map_refuted, C97_ray_tool_out_of_bounds_refuted
- C98 (3D core-and-Voigt considers every active line or stops with an exception): Violated: a fifth line is stored past the end of the fixed array before the count is tested, so the exception is never reached in a defined execution. Theorems: C98_five_lines_refuted
- C99 (Ray directions of the 3D cascades cover the sphere evenly): Violated: 108 rays (12*3^2) pass the assertion but several rays share one direction. Theorems: C99_other_nside_refuted
- C100 (The ray marched for a probe is the right piece of the right line): For every probe and direction, the segment marched consists of exactly the points between the cascade's start and end distances from the probe in that direction, walked towards the probe; directions are unit length, distinct and come in opposite pairs; the 3D propagation vector used for Doppler shifts and boundary lookups is a unit vector along the march. Expected further: no ray is axis-parallel, as the segment length is computed by dividing by the first component. Proved when the number of rays is a multiple of 4 (the shipped configurations); violated for 6 rays, where a ray parallel to an axis divides by zero. Theorems: C100_six_directions_refuted
- C101 (The boundary radiation enters the solution exactly once whatever the number of cascades): Violated: the iterating modes with max_cascade = 0 compute the radiation without the boundary (2D: the pass with the boundary is overwritten; 3D: there is none). Theorems: C101_max_cascade_zero_refuted
- C102 (Rank 0 writes the complete result of a distributed formal solution): Violated for max_mip_block: rows solved by another rank keep the initial -1 or the value of an earlier iteration. Theorems: C102_mip_incomplete_refuted
- C103 (The ray tools evaluate the same emissivity and opacity as the solver): Violated: it keeps absorbing with its last cross-section up to the next grid wavelength (for ever, if there is none). Theorems: C103_beyond_edge_refuted
- C104 (The 3D formal solution computes the mean intensity of the ray recursion, whatever the schedule): Violated: the cascades above 1 are stored in the buffers allocated for cascades 0 and 1, and when the grid is small for the number of cascades every execution writes out of bounds. Theorems: C104_overflow_refuted
- C105 (A 3D run writes to the file the J it computed): Violated: (1) when every tile is active the J of a dense calculation is taken for a block-sparse one and the cells of the image are permuted; (2) with J kept on the device the conversion of a sparse J indexes out of bounds; (3) with given emissivity and opacity the computed J is never written: by default the file is written from an array that was never allocated. Theorems: C105_all_active_refuted, C105_scrambled_refuted, C105_device_refuted, C105_given_refuted
- C110 (Every way of merging with the cascade above is a proper average): Violated in BilinearFix: the operator is zero whenever there is a cascade above, and mu stays that of the unmodified ray. Theorems: C110_bilinear_fix_alo_refuted, C110_bilinear_fix_mu_refuted
- C111 (Long characteristics in 3D: every direction reaches J once, with its quadrature weight): Violated: the accumulation sums every stored direction of cascade 0 although only the first is written for each direction of the set, so what the buffer held before is added in with the whole weight (12 times the answer for a uniform field in the default layout); it holds when cascade 0 stores one direction or the buffer starts cleared. The direction sets are unit vectors with positive weights integrating every linear field and the second moments to the tabulated precision, and each ray starts outside any grid of up to 11000 cells a side. Theorems: C111_leftovers_refuted
- C115 (Ray tools: the background spectrum behind the model): Violated: the solver resamples the same file flux-conservingly: zero beyond the file's range where the tool takes the last intensity, and a bin average inside. Theorems: C115_outside_refuted, C115_inside_refuted
- C114 (Ray tools work on the state the run ended with): Violated: a charge- or pressure-conserving run asked not to write a density is synthesised silently with the initial density and the final populations; the 3D tool refuses every model written in the default (dense) format. Theorems: C114_stale_density_refuted, C114_dense_3d_refuted
- C117 (What the convergence criterion guarantees): Violated: a level below the threshold may change by any factor without being reported (example: a factor 500000 with tol = frac = 1e-6). Theorems: C117_every_level_refuted
- C119 (The saved radiation field and populations belong together): Violated: restarting at or beyond the pass limit without the final dense solution saves J = 0 beside the snapshot populations. Theorems: C119_restart_at_limit_refuted
- C120 (A converged charge-conserving iteration is an equilibrium, neutral state): Violated: a level below the threshold that is driven negative is not reported and its step is multiplied by at least 0.95(1-tol)/tol; under pressure conservation the populations are rescaled after the change was measured (1% reported, 2.01% real; never more than 2 tol + tol^2). Theorems: C120_ignored_level_refuted, C120_rescale_unreported_refuted
- C121 (The configuration file means what it says): Violated: both are ignored without effect, even if their value does not parse. Theorems: C121_unknown_key_silently_ignored_refuted, C121_inapplicable_setting_ignored_refuted
- C122 (A whole floating-point cascade solution is close to the exact one, whatever the thread order): Violated: for every tie rule two orders of three contributions give different binary32 results. Theorems: C122_run_to_run_difference_refuted
- C125 (Statistical equilibrium is the same in both builds; the zero-radiation start): Violated: the MAGMA build ignores only_atom, so one atom with the zero-radiation start re-solves all of them; atoms to be left in LTE end in the equilibrium of their collisional rates, which is the same only when those rates are in detailed balance (not with charge exchange). Theorems: C125_magma_only_atom_refuted
- C126 (The MAGMA build's Newton update of populations and electron density): Violated: under pressure conservation the total particle density stays what it was; and one matrix entry is assigned by one iteration while another adds to it, so in the other order hydrogen atoms appear or vanish in proportion to the electron density step (two-level example: 2 atoms become 1). Theorems: C126_pressure_refuted, C126_race_refuted
- C130 (Clipping a ray to the grid in floating point keeps the right part of it, to a small fraction of a voxel): Violated: a ray from 18040 voxels away starts 1/1024 voxel outside, in cell -1. Theorems: C130_start_in_grid_refuted
- C133 (The ray of a 2D probe in floating point): Violated for directions close to vertical: in cascade 6 of the committed configuration, a probe at x = 4064 and direction 4095 of 16384 give a segment more than one voxel too long. Theorems: C133_length_refuted
- C134 (What a ray-tool configuration file means, and which views it renders): A configuration file of the 2D or 3D ray tool is accepted exactly when it has the mandatory keys with the right shapes, the lists of directions agree in number and are not empty, and the model it points to has atoms and a Promweaver boundary; every setting then has the value of its key or its documented default, the wavelengths are those asked for or else those of the model's output, and view i uses entry i of each list. The 2D tool never reads outside a list. Expected of the 3D tool too; violated: the number of image_corner entries is never compared with the number of views, so a file with fewer corners than views is accepted and the tool reads past the end of the list (exactly then), and supersample: 0 is accepted and gives images without pixels. Theorems: C134_3d_corners_unchecked_refuted, C134_3d_no_pixels_refuted
