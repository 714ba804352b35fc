# Formal model of ryujin - design

All statements refer to the source tree in /repo/source. Nothing is compiled or
executed from it; the Rocq model is a transcription of the text, each
definition citing file and lines.

## Approach

* Index manipulation, storage layout, concurrency, run control and file
  handling are modelled by executable, total functions or small step relations
  over nat / Z / lists. No axioms needed.
* Floating point arithmetic is modelled by exact real arithmetic (Coq's `R`).
  Rounding, overflow, NaN and SIMD intrinsics are outside of the model. The
  epsilon of the number type appears as a parameter `eps > 0` wherever the code
  mentions it. `sqrt` and `pow` are `sqrt` and `Rpower`, used on the domain on
  which the code uses them; statements carry the domain as a hypothesis.
* deal.II, MPI, OpenMP, the C++ library are not modelled except for the
  operations listed in the individual files (e.g. a Partitioner is a list of
  owned and ghost ranges, an OpenMP loop is an assignment of iterations to
  threads in ascending order, a compare-exchange is an atomic step that may
  fail spuriously).

File naming: `X.v` contains the model, `XSpec.v` independent specifications
(where the statement needs some), `XProofs.v` lemmas, `XThms.v` the property
theorems only, each closed by `exact`, with `Print Assumptions` and a concrete
instance of the hypotheses beside it.

If the full statement of a property is false of the faithful model the theorem
file contains a `_refuted` theorem with a witness, together with the largest
statement that does hold (`_partial`).

## Trusted base

* Coq 8.16.1 kernel.
* For statements about real numbers the axioms of the standard library's
  construction of R (`ClassicalDedekindReals.sig_forall_dec`, `sig_not_dec`,
  `functional_extensionality_dep`) and, where used by the library itself,
  `Classical_Prop.classic`. The exact list is printed below each theorem.
* The transcription itself (model versus text of the C++ code).

### Axioms of each theorem (output of Print Assumptions)

* No axioms (118 theorems): C01_read_in, C01_reads_defined, C01_write_read, C01_writes_refine, C02_vector_read, C02_vector_write, C03_reinit_pattern, C03_transposed, C03_transposed_exists, C03_transposed_vectorized, C04_add_tensor, C04_extract_is_tensor_component, C04_insert_extract, C04_vector_add, C04_vector_gather, C04_vector_read, C04_vector_write, C04_write_read, C05_local_numbering, C05_membership, C06_internal_range_groups, C07_export_indices_first, C07_exported_below_bound, C07_keeps_uniform_strides, C08_consistent_stride_range, C08_inconsistent_strides_last, C09_exchange_may_start_early_refuted, C09_export_count_covers_partial, C09_export_count_covers_refuted, C10_payload_exactly_once, C10_payload_sees_all_rows, C10_payload_sees_exported_rows, C10_region_completes, C10_unordered_schedule_unsafe, C11_all_calls_complete, C11_created_once_before_use, C11_creator_is_exclusive, C11_value_is_stable, C120_accepted, C120_distinct, C120_range_refuted, C120_schlieren, C120_vorticity, C12_independent_of_row_assignment, C12_intermediate_values, C12_tau_max_is_minimum, C12_terminates, C134_files, C134_names, C134_width, C153_fallback, C155_columns, C155_eta_text, C155_head, C155_table, C156_files, C156_name_refuted, C156_names, C156_overwrite_refuted, C156_progress, C156_status, C156_templates, C156_terminates, C157_lines, C158_completes, C158_converted, C158_gather, C158_loop, C158_read, C158_regular, C158_tensor, C158_width, C158_write, C158_write_converted, C159_agree, C159_copy, C159_failure, C159_race_refuted, C159_terminates, C160_eospac_refuted, C160_libraries, C160_parse, C160_parse_unknown, C160_selects, C160_unknown, C160_unlisted_refuted, C161_calls, C161_threads, C20_extended_bounds, C32_scalar_kinds, C49_completed, C49_crash_refuted, C49_latest, C49_never_mixed, C49_old_survives, C49_two_crashes_refuted, C52_missing, C52_names, C52_round_trip, C52_tables, C53_only_selected, C53_order, C53_second_call, C53_shipped, C53_success, C53_twice, C56_exact, C56_once, C56_symmetric, C57_accepts, C57_extract, C57_shipped, C59_columns, C59_diagonal_refuted, C59_exchange_partial, C59_isolated_refuted, C59_mutual, C59_stale_refuted.
* `sig_forall_dec` (6 theorems): C153_both, C153_density_refuted, C153_setup, C161_scalar, C32_aeos_kinds, C76_base.
* `functional_extensionality_dep`, `sig_forall_dec` (253 theorems): C102_constrained, C102_definite, C102_expansion, C102_galerkin, C102_integral, C102_lumped, C102_measure, C102_positive, C102_symmetric, C103_boundary, C103_column_sum, C103_continuous, C103_discontinuous, C103_faces_cancel, C103_row_sum, C103_skew, C104_inverse, C104_inverse_symmetric, C105_measure, C105_measure_refuted, C105_measure_without, C107_density, C107_energy, C107_momentum, C108_dirichlet_energy, C108_dirichlet_velocity, C108_no_slip, C108_slip, C108_slip_length, C108_slip_refuted, C109_energy, C109_kinetic, C109_mass, C109_momentum, C109_rigid, C109_tolerance, C110_flag, C110_flag_refuted, C110_minimum, C110_nonnegative, C111_density, C111_energy, C111_kinetic, C111_momentum, C111_positive_refuted, C111_total, C112_guess, C112_inviscid, C112_rigid, C112_unique, C127_sw, C128_burgers, C128_default, C128_quadratic, C130_affine, C130_centre_refuted, C130_continuous, C130_file, C130_outside_partial, C130_outside_refuted, C130_pixel, C130_range, C130_size_refuted, C130_undefined, C130_value, C130_water, C133_speed, C134_curved_refuted, C134_owner, C134_plane, C134_selected, C134_twice_refuted, C137_corners_refuted, C137_film_refuted, C137_periodic, C137_sides, C138_arc, C138_cylinder, C138_step, C138_step_conforming, C138_step_position_refuted, C138_tank, C138_tank_default_refuted, C138_wall, C138_wall_front_refuted, C139_cut, C139_extruded, C140_front, C141_blend, C141_blend_3, C141_edges, C141_faces, C141_joins, C142_exists, C142_flat, C142_found, C142_guesses, C142_mean, C142_safe, C142_secant, C142_solved, C142_start, C143_contrast, C143_four, C143_jet, C143_three, C143_uniform, C144_aeos, C144_euler, C145_function, C145_hou, C145_hou_ground, C145_regions, C145_tank_state, C147_gas_refuted, C14_erk_11_order, C14_erk_22_order, C14_erk_33_order, C14_erk_43_order, C152_energy, C152_mass, C152_operators, C152_skew_refuted, C152_velocity, C153_same, C153_singular_refuted, C153_tolerance, C155_averages, C155_cast_refuted, C155_collectives, C155_cpu, C155_cpu_share, C155_eta, C155_eta_refuted, C155_final, C155_interval, C155_partition, C155_resume_refuted, C155_running, C155_shares, C155_shares_refuted, C155_skew, C155_timers, C155_timers_sum, C157_boundary, C157_clash_refuted, C157_first, C157_ignored_refuted, C157_interior, C157_nan_refuted, C157_prepare, C157_prepare_boundary, C15_ssprk_22_order, C15_ssprk_33_order, C161_gas, C161_geotiff, C161_threads_refuted, C161_water, C16_prepare, C27_aeos_combine, C27_euler_combine, C27_scalar_combine, C27_scalar_order, C27_sw_combine, C27_sw_order, C30_bounds, C30_failure_reported, C30_full_update_accepted, C30_largest, C30_range, C30_success_reported, C31_aeos_bijection, C31_aeos_initial, C31_euler_bijection, C31_euler_initial, C31_sw_bijection, C31_sw_expand, C31_sw_initial, C34_aeos_conservative, C34_aeos_covariant, C34_aeos_flux, C34_euler_conservative, C34_euler_covariant, C34_euler_flux, C34_sw_covariant, C34_sw_flat, C34_sw_flat_high_order, C34_sw_flux, C34_sw_mass, C35_aeos_internal_energy, C35_euler_internal_energy, C35_sw_entropy, C36_scalar_order, C36_scalar_range, C36_scalar_uniform, C36_sw_order, C36_sw_range, C36_sw_uniform, C41_noble_abel, C41_polytropic, C41_van_der_waals, C43_cycle0, C43_exchange, C43_surrogate, C43_vector_exchange_partial, C43_vector_values_partial, C44_star_states, C44_thin_layer_refuted, C46_inverse_depth, C47_first_level, C47_late_refuted, C47_once, C47_terminates, C47_zero_multiplier_refuted, C48_adaptation_refuted, C48_analytic_refuted, C48_bounds_refuted, C48_resume, C48_statistics_refuted, C48_time_zero, C50_adapted, C50_exactly_once, C50_last_interval_refuted, C51_adaptation_refuted, C51_average, C51_header_refuted, C51_mean_bounds, C51_one_file, C51_series, C51_tiling_refuted, C58_decomposition, C58_max_min, C60_midpoint, C69_combine_kinetic_refuted, C70_exact_bounds_refuted, C71_kruzkov, C73_scalar_nonneg, C73_scalar_symmetric, C74_noble_abel_partial, C74_noble_abel_refuted, C74_polytropic_partial, C74_polytropic_refuted, C74_van_der_waals_partial, C74_van_der_waals_refuted, C76_sesame_pressure, C76_sesame_sie, C80_filters, C86_admissible_refuted, C86_bounded, C86_later, C86_sign, C91_leblanc, C93_smooth_wave.
* `functional_extensionality_dep`, `sig_forall_dec`, `sig_not_dec` (215 theorems): C113_sw_closed_refuted, C113_sw_verdict, C114_conservation, C114_one_rank, C114_ranks_refuted, C118_schlieren, C118_vorticity_2d, C118_vorticity_3d, C119_first, C119_history, C119_kept, C119_ranks, C121_debug_none, C121_debug_refuted, C121_exact, C121_normalized_refuted, C121_only_exact, C121_ranks, C121_sum, C121_units, C121_vanishing, C123_compatible, C126_thin, C128_formulas, C128_kpp, C131_trace, C133_completes, C133_total, C134_level, C138_corner, C139_seam, C139_seam_lower, C13_imex_22_33_never_complete, C13_no_overshoot, C13_progress, C13_step_size, C140_angles, C143_placed, C143_radial, C144_aeos_refuted, C145_inflow, C145_islands, C145_lake, C145_rest, C145_ridge, C145_tank, C146_wave, C147_plane, C147_water_refuted, C148_coverage_refuted, C148_hole, C148_inside, C148_reflect, C148_remaining, C148_square, C148_wall, C149_ansatz, C149_complete, C149_continuous, C149_gauss, C149_lagrange, C149_lobatto, C149_lumped, C149_matching, C149_nodes, C149_partition, C149_parts, C149_positive, C149_support, C14_erk_11, C14_erk_22, C14_erk_33, C14_erk_43, C14_erk_54, C150_coarse_refuted, C150_global, C150_marks, C150_merge, C150_nodes, C150_quadratic_refuted, C150_same, C150_states, C150_total, C151_distorted_refuted, C151_marks, C151_merge, C151_mismatch, C151_refined, C151_resume, C151_unknown, C15_convex_invariance, C15_convex_invariance_unflagged, C15_erk_invariance_unflagged, C15_ssprk_22, C15_ssprk_22_documented_tableau_refuted, C15_ssprk_33, C16_bang_bang, C16_no_recovery, C16_no_silent_violation, C16_restart_never_escapes, C16_retry_from_old_state, C17_diagonal, C17_step_size, C17_viscosity, C18_convex_combination, C18_invariant_domain, C19_conservation, C19_exact, C20_inside_bounds, C21_uniform, C22_unflagged, C22_verdict, C23_bracket_shrinks, C24_exact_sign_with_eps_refuted, C24_zero_at_right_end_refuted, C27_aeos_relaxed_positive, C27_euler_relaxed_positive, C27_scalar_relaxed_contains, C27_sw_relaxed_contains, C28_depth_bounds, C28_failure_reported, C28_full_update_accepted, C28_range, C28_success_reported, C29_velocity_bound, C32_sw_kinds, C32_sw_no_slip, C32_sw_slip, C33_sw_consistent, C33_sw_regimes, C39_dry_front_refuted, C39_regularised_depth, C39_wave_speed, C40_separated, C41_function, C41_function_parse, C41_function_polytropic, C41_jwl_partial, C41_jwl_refuted, C42_function, C42_jwl_partial, C42_noble_abel, C42_polytropic, C42_van_der_waals, C43_vector_exchange_refuted, C43_vector_rows_refuted, C44_step, C44_verdict, C44_wet_step, C45_damps, C46_velocity, C54_1d_refuted, C54_aligned_2d, C54_aligned_3d, C54_diagonal_refuted, C54_distances, C54_inverse, C54_isometry, C54_normalize, C54_opposite_refuted, C54_state, C54_unknown, C55_corner, C55_groups, C55_indices, C55_once_refuted, C55_rays, C55_slip_once, C55_sorted, C55_total, C55_unit, C60_imex_11, C60_strang_erk_33_cn, C60_strang_erk_43_cn, C60_strang_ssprk_33_cn, C61_boundary_rows_refuted, C61_sources_refuted, C61_unlimited_update, C62_discontinuous_refuted, C62_independence, C62_step_size, C65_cap_partial, C66_kinetic_bound, C66_kinetic_largest, C67_square_velocity_largest_refuted, C68_depth_only_refuted, C73_shallow_nonneg, C73_shallow_symmetric, C74_function, C74_jwl, C75_noble_abel, C75_noble_abel_sound, C75_polytropic, C75_polytropic_sound, C75_van_der_waals, C75_van_der_waals_refuted, C77_depth_nonneg, C78_depth_bounds, C79_volume, C87_complete_refuted, C87_level, C87_owned_refuted, C89_covolume_refuted, C89_shock_front, C92_noh, C92_noh_iff, C92_noh_refuted, C94_ramp_up, C95_gamma_refuted, C95_icf, C97_ritter, C98_paraboloid_1d, C98_paraboloid_2d, C99_bathymetry_iff, C99_vortex.
* `classic`, `functional_extensionality_dep`, `sig_forall_dec`, `sig_not_dec` (188 theorems): C100_slope, C101_crest, C101_downstream_refuted, C101_jump_refuted, C101_seam_refuted, C101_subsonic, C101_transcritical_partial, C104_encounters, C104_incidence_symmetric, C104_once_refuted, C105_uncompressed, C105_with_trilinos, C105_without_trilinos, C106_conservation, C106_mesh, C106_outside, C106_uniform, C113_aeos_closed_refuted, C113_aeos_density, C113_aeos_verdict, C113_euler_closed_refuted, C113_euler_density, C113_euler_verdict, C115_kpp_refuted, C115_low_order, C116_inside, C116_verdict, C117_local, C117_relaxed, C117_run, C119_extremes, C119_history_refuted, C119_order, C119_range, C119_strict, C122_one_rank, C122_ranks, C122_ranks_refuted, C123_admissible, C123_covolume, C123_covolume_refuted, C123_invariant, C124_bounds_partial, C124_unrelaxed, C125_combine, C125_extended_refuted, C127_aeos, C127_euler, C128_between, C129_bar, C129_computed, C129_minimum, C129_pair, C129_step, C131_completes, C131_conservation, C131_forward_euler, C131_run, C131_step, C132_completes, C132_run, C132_step, C132_volume, C133_run, C133_step, C133_transport, C135_completes, C135_forward_euler, C135_run, C135_step, C135_total, C136_checked, C136_conservation, C136_positivity, C136_ranks, C136_uniform, C136_untouched, C136_walls, C139_abscissa, C139_between, C139_center_refuted, C139_chart, C139_clone, C139_curve, C139_flat, C139_grading, C139_round_trip, C140_cambered_refuted, C140_debug_refuted, C140_ends, C140_seam, C140_shape, C140_symmetric, C140_trailing, C145_run, C146_solution_refuted, C148_large_refuted, C148_outside, C150_gas, C154_accuracy, C154_exact, C154_max_refuted, C154_min_refuted, C154_monotone_refuted, C154_overflow, C154_range, C154_sign_refuted, C154_trivial, C24_iterable, C24_left_end_admissible, C24_left_end_admissible_plus, C24_left_end_admissible_up_to_eps, C25_density_bounds, C25_full_update_accepted, C25_range, C26_entropy_bound, C26_success_reported, C27_aeos_order, C27_aeos_relaxed_contains, C27_euler_order, C27_euler_relaxed_contains, C31_aeos_expand, C31_euler_expand, C32_aeos_admissible, C32_aeos_no_slip, C32_aeos_slip, C32_euler_admissible, C32_euler_kinds, C32_euler_no_slip, C32_euler_slip, C33_euler_consistent, C33_euler_regimes, C35_aeos_harten, C35_aeos_limiter, C35_euler_harten, C35_euler_limiter, C35_euler_mathematical, C36_aeos_defined, C36_aeos_order, C36_aeos_range, C36_aeos_uniform, C36_euler_defined, C36_euler_order, C36_euler_range, C36_euler_uniform, C37_characteristics, C37_exact_exists, C37_mixed_refuted, C37_vacuum, C37_wave_speed_partial, C38_characteristics, C38_exact_exists, C38_pinf_refuted, C38_vacuum, C38_wave_speed_partial, C40_bar_state, C40_convex, C42_jwl_refuted, C43_two_cycles, C45_h_star, C45_manning, C63_density_bounds, C63_full_update_accepted, C63_range, C64_entropy_bound, C64_success_reported, C65_cap_refuted, C72_kpp_refuted, C73_aeos_nonneg, C73_aeos_symmetric, C73_aeos_tie_refuted, C73_euler_nonneg, C73_euler_symmetric, C81_conservation, C82_estimate_positive, C82_positivity, C83_density, C84_entropy, C84_verdict, C85_accepted, C88_vortex, C90_rarefaction, C96_becker, C96_velocity_partial, C96_velocity_refuted, C98_manning_iff, C98_manning_refuted, C99_bathymetry_refuted.

### Parts of the code that are modelled

A line range names the text that the definitions of the given files transcribe;
what is simplified is said in the comment of the definition.

* `source/convenience_macros.h` (225 lines), lines 79-104: EulerSystem.v, RVec.v
* `source/cubic_spline.h` (94 lines), lines 37-51: Airfoil.v
* `source/discretization.h` (365 lines), lines 48-123, 131-152, 156-173: BoundaryMap.v, Discretization.v, EnumParams.v, EulerSystem.v, Geometry.v, NSRun.v, Parabolic.v
* `source/discretization.template.h` (194 lines), lines 31-47, 57, 77, 81-190: Discretization.v, MeshResume.v, MeshTransfer.v, RunParams.v, Selection.v, SelectionSpec.v
* `source/equation_dispatch.h` (291 lines), lines 36-44, 50-103, 158, 167-232, 244-287: Dispatch.v, RunParams.v, Selection.v, StartUp.v
* `source/euler/hyperbolic_system.h` (1308 lines), lines 70-74, 218-223, 240-297, 702-979, 1037-1181, 1208-1305: EulerRun.v, EulerScheme.v, EulerSystem.v, Extractor.v, InitialRegions.v, RVec.v
* `source/euler/indicator.h` (260 lines), lines 21-40, 168-174, 187-258: EulerScheme.v, Indicator.v
* `source/euler/initial_state_astro_jet.h` (95 lines), lines 45-60, 66-80: InitialRegions.v, InitialRegionsExamples.v
* `source/euler/initial_state_becker_solution.h` (233 lines), lines 59-84, 107-108, 112-132, 136-144, 148-187, 199: Becker.v, BeckerFinal.v, BeckerStall.v
* `source/euler/initial_state_contrast.h` (78 lines), lines 54-66: InitialRegions.v
* `source/euler/initial_state_four_state_contrast.h` (123 lines), lines 79-107: InitialRegions.v
* `source/euler/initial_state_function.h` (134 lines), lines 36-66, 92-116, 127-131: FunctionTime.v, InitialRegions.v, InitialRegionsExamples.v
* `source/euler/initial_state_icf_like.h` (180 lines), lines 41-44, 93-159: EulerInitialStates.v
* `source/euler/initial_state_isentropic_vortex.h` (101 lines), lines 53-91: EulerInitialStates.v
* `source/euler/initial_state_leblanc.h` (116 lines), lines 45-110: EulerInitialStates.v
* `source/euler/initial_state_library.template.h` (38 lines), lines 8-38: InitialRegions.v
* `source/euler/initial_state_library_euler.h` (60 lines), lines 42-57: Selection.v
* `source/euler/initial_state_noh.h` (116 lines), lines 71-106: EulerInitialStates.v
* `source/euler/initial_state_radial_contrast.h` (88 lines), lines 62-75: InitialRegions.v
* `source/euler/initial_state_ramp_up.h` (102 lines), lines 69-88: EulerInitialStates.v
* `source/euler/initial_state_rarefaction.h` (169 lines), lines 35, 50-52, 57-74, 87-96, 112-154: EulerInitialStates.v
* `source/euler/initial_state_shock_front.h` (125 lines), lines 66-109: EulerInitialStates.v
* `source/euler/initial_state_smooth_wave.h` (99 lines), lines 62-87: EulerInitialStates.v
* `source/euler/initial_state_three_state_contrast.h` (109 lines), lines 43-71, 77-92: InitialRegions.v, InitialRegionsExamples.v
* `source/euler/initial_state_uniform.h` (66 lines), lines 44-56: InitialRegions.v
* `source/euler/limiter.h` (393 lines), lines 20-62, 142-147, 207-213, 240-246, 255-377: EulerLimiter.v, EulerScheme.v
* `source/euler/limiter.template.h` (330 lines), lines 15-327: EulerLimiter.v, Newton.v
* `source/euler/parabolic_system.h` (56 lines), lines 34: EulerRun.v
* `source/euler/riemann_solver.h` (282 lines), lines 20-47, 76-81: EulerRiemann.v, EulerScheme.v
* `source/euler/riemann_solver.template.h` (600 lines), lines 21-107, 122-149, 164-181, 189-205, 217-238, 252-263, 274-319, 330-597: EulerRiemann.v, EulerScheme.v
* `source/euler_aeos/equation_of_state.h` (236 lines), lines 45-57, 71-228: AeosSystem.v, Eos.v, EosFunction.v
* `source/euler_aeos/equation_of_state_function.h` (132 lines), lines 29-129: EosFunction.v
* `source/euler_aeos/equation_of_state_jones_wilkins_lee.h` (151 lines), lines 67-78, 88-98, 107-116, 121-148: Eos.v
* `source/euler_aeos/equation_of_state_library.cc` (42 lines), lines 34-39: Selection.v
* `source/euler_aeos/equation_of_state_noble_abel_stiffened_gas.h` (126 lines), lines 27-62, 71-75, 84-89, 97-100, 109-123: Eos.v
* `source/euler_aeos/equation_of_state_polytropic_gas.h` (95 lines), lines 27-43, 51-54, 62-65, 73-76, 84-92: Eos.v
* `source/euler_aeos/equation_of_state_sesame.h` (512 lines), lines 227-229, 239-261, 311-333: Eos.v, Selection.v
* `source/euler_aeos/equation_of_state_van_der_waals.h` (123 lines), lines 27-57, 66-72, 81-88, 96-99, 108-120: Eos.v
* `source/euler_aeos/hyperbolic_system.h` (1528 lines), lines 73-83, 335-396, 771-1227, 1303-1390, 1421-1526: AeosPrecompute.v, AeosRun.v, AeosScheme.v, AeosSystem.v, Extractor.v, InitialRegions.v, Selection.v, SelectionSpec.v
* `source/euler_aeos/indicator.h` (267 lines), lines 21-40, 189-265: AeosScheme.v, Indicator.v
* `source/euler_aeos/initial_state_library.template.h` (38 lines), lines 8-38: InitialRegions.v
* `source/euler_aeos/limiter.h` (461 lines), lines 20-62, 149, 242-249, 261-445: AeosLimiter.v, AeosScheme.v
* `source/euler_aeos/limiter.template.h` (364 lines), lines 15-361: AeosLimiter.v, AeosScheme.v
* `source/euler_aeos/parabolic_system.h` (56 lines), lines 34: AeosRun.v
* `source/euler_aeos/riemann_solver.h` (259 lines), lines 61-66: AeosRiemann.v
* `source/euler_aeos/riemann_solver.template.h` (678 lines), lines 51-387, 442-674: AeosRiemann.v, AeosScheme.v
* `source/geometry_airfoil.h` (1416 lines), lines 42, 47-143, 166-217, 250-283, 298-353, 651-682, 699-736, 740-755, 759-766: Airfoil.v
* `source/geometry_annulus.h` (279 lines), lines 52-91, 108-110, 116-120, 124-129, 151-152, 159-183: Annulus.v
* `source/geometry_cylinder.h` (268 lines), lines 102-107, 127-140: Geometry.v
* `source/geometry_library.h` (52 lines), lines 41-49: Selection.v
* `source/geometry_rectangular_domain.h` (255 lines), lines 42-109, 118-236: Geometry.v
* `source/geometry_step.h` (178 lines), lines 47-68, 77-83, 93-94, 118-124: Geometry.v
* `source/geometry_tank.h` (174 lines), lines 59-104, 111-115: Geometry.v
* `source/geometry_wall.h` (136 lines), lines 49-68, 76-89: Geometry.v
* `source/hyperbolic_module.h` (338 lines), lines 37-50, 59-61, 223, 278, 311-331: AeosRun.v, EulerRun.v, ScalarRun.v, TimeInt.v
* `source/hyperbolic_module.template.h` (1213 lines), lines 96-190, 199-228, 234-1211: AeosPrecompute.v, AeosRun.v, Conc.v, EulerRun.v, FunctionTime.v, Indicator.v, NSRun.v, SWLimiterFinal.v, SWRun.v, SWScheme.v, ScalarRun.v, ScalarScheme.v, ScalarSpec.v, Scheme.v, SimdLoop.v, TimeInt.v, TimeIntSpec.v
* `source/initial_state_library.h` (123 lines), lines 32-85: Selection.v
* `source/initial_values.template.h` (305 lines), lines 33, 57-62, 70-109, 115-149, 158-196, 200-218, 251-264: ErrorNorms.v, InitialPlacement.v, Selection.v, SelectionSpec.v
* `source/lazy.h` (183 lines), lines 53-55, 63-66, 122-148: Conc.v
* `source/local_index_handling.h` (515 lines), lines 100-204, 214-296, 313-371, 404-422, 457-508: Assembly.v, Renumber.v, Vec.v
* `source/main.cc` (128 lines), lines 59-128: RunParams.v, StartUp.v
* `source/mesh_adaptor.h` (186 lines), lines 22-34, 43-48, 55-60, 64-76: EnumParams.v
* `source/mesh_adaptor.template.h` (204 lines), lines 91-203: MeshTransfer.v, TimeLoop.v
* `source/multicomponent_vector.cc` (44 lines), lines 13-40: MultiVec.v
* `source/multicomponent_vector.h` (405 lines), lines 208-225, 240-244, 252-276, 301-314, 341-358, 380-397: Extractor.v, MultiVec.v
* `source/navier_stokes/description.h` (52 lines), lines 30-50: NSRun.v
* `source/navier_stokes/parabolic_solver.h` (292 lines), lines 260-271: Multigrid.v, Parabolic.v
* `source/navier_stokes/parabolic_solver.template.h` (864 lines), lines 163-848: Multigrid.v, NSRun.v, Parabolic.v, SimdLoop.v, TimeInt.v
* `source/navier_stokes/parabolic_solver_gmg_operators.h` (798 lines), lines 64-84, 105-138, 169-183, 190-394, 404-434, 558-570, 588-740, 749-757: Multigrid.v, Parabolic.v
* `source/navier_stokes/parabolic_system.h` (89 lines), lines 44-60, 72-85: Parabolic.v
* `source/newton.h` (105 lines), lines 37-101: Newton.v
* `source/offline_data.h` (376 lines), lines 66-72: BoundaryMap.v
* `source/offline_data.template.h` (1464 lines), lines 146-182, 255-273, 353-354, 372-379, 426-1000, 1122, 1148-1161, 1165-1167, 1173-1462: Assembly.v, BoundaryMap.v, Discretization.v, GhostRows.v, Multigrid.v, NSRun.v, Renumber.v
* `source/openmp.h` (185 lines), lines 144-181: AeosPrecomputeSpec.v, Conc.v
* `source/parabolic_module.h` (144 lines), lines 125, 136-139: Multigrid.v, TimeInt.v
* `source/parabolic_module.template.h` (98 lines), lines 40-86: Multigrid.v, NSRun.v, TimeInt.v
* `source/patterns_conversion.h` (94 lines), lines 32-75: EnumParams.v
* `source/postprocessor.h` (171 lines), lines 112-115, 166-167: Postprocess.v
* `source/postprocessor.template.h` (281 lines), lines 69, 74-97, 101-103, 107-279: Postprocess.v
* `source/quantities.h` (242 lines), lines 137-160, 168-173, 178-214: Quantities.v, QuantitiesMesh.v
* `source/quantities.template.h` (684 lines), lines 63-79, 84-334, 340-424, 429-459, 494-682: Quantities.v, QuantitiesMesh.v
* `source/scalar_conservation/flux.h` (94 lines), lines 30-91: Scalar.v, Selection.v
* `source/scalar_conservation/flux_burgers.h` (43 lines), lines 29-40: Scalar.v
* `source/scalar_conservation/flux_function.h` (92 lines), lines 29-79: ScalarFlux.v, Selection.v, SelectionSpec.v
* `source/scalar_conservation/flux_kpp.h` (63 lines), lines 25, 29-60: Scalar.v, SelectionSpec.v
* `source/scalar_conservation/flux_library.cc` (33 lines), lines 26-30: Selection.v
* `source/scalar_conservation/hyperbolic_system.h` (830 lines), lines 43, 187-236, 512-641, 645-784: Extractor.v, Scalar.v, ScalarRun.v, ScalarScheme.v, Selection.v, SelectionSpec.v
* `source/scalar_conservation/indicator.h` (211 lines), lines 21-40, 135-139, 151-208: Indicator.v, ScalarScheme.v
* `source/scalar_conservation/initial_state_function.h` (74 lines), lines 59-65: FunctionTime.v
* `source/scalar_conservation/initial_state_library.template.h` (40 lines), lines 36-37: Selection.v
* `source/scalar_conservation/limiter.h` (326 lines), lines 18-42, 157-161, 189-195, 207-309: Scalar.v, ScalarScheme.v, ScalarSpec.v
* `source/scalar_conservation/limiter.template.h` (131 lines), lines 14-127: Scalar.v
* `source/scalar_conservation/parabolic_system.h` (55 lines), lines 33: ScalarRun.v
* `source/scalar_conservation/riemann_solver.h` (144 lines), lines 20-60: ScalarScheme.v
* `source/scalar_conservation/riemann_solver.template.h` (218 lines), lines 22-215: Scalar.v, ScalarRun.v, ScalarScheme.v
* `source/scope.h` (55 lines), lines 15-54: ReportTimers.v, ReportTimersSpec.v
* `source/scratch_data.h` (95 lines), lines 23-72: Assembly.v, Discretization.v
* `source/selected_components_extractor.h` (128 lines), lines 27-126: Extractor.v
* `source/shallow_water/hyperbolic_system.h` (1330 lines), lines 70-76, 185-190, 201, 207-264, 301, 676-1086, 1115-1218, 1251-1327: Extractor.v, SWRun.v, SWScheme.v, SWSystem.v
* `source/shallow_water/indicator.h` (226 lines), lines 22-40, 133-144, 155-222: Indicator.v, SWScheme.v
* `source/shallow_water/initial_state_circular_dam_break.h` (67 lines), lines 19-33: SelectionSpec.v
* `source/shallow_water/initial_state_contrast.h` (63 lines), lines 49-54: InitialRegions.v
* `source/shallow_water/initial_state_flow_over_bump.h` (137 lines), lines 55-106, 119-131: SWInitialStates.v
* `source/shallow_water/initial_state_function.h` (113 lines), lines 80-97: FunctionTime.v, InitialRegions.v
* `source/shallow_water/initial_state_geotiff.h` (397 lines), lines 117-139, 145-291, 295-362, 367-372, 385-389: FunctionTime.v, Geotiff.v
* `source/shallow_water/initial_state_hou_test.h` (111 lines), lines 42-60, 74-107: InitialRegions.v
* `source/shallow_water/initial_state_library_shallow_water.h` (57 lines), lines 42-54: Selection.v
* `source/shallow_water/initial_state_paraboloid.h` (153 lines), lines 70-116, 136-143: SWInitialStates.v
* `source/shallow_water/initial_state_ritter_dam_break.h` (92 lines), lines 58-80: SWInitialStates.v
* `source/shallow_water/initial_state_sloping_friction.h` (94 lines), lines 53-70, 83-87: SWInitialStates.v
* `source/shallow_water/initial_state_smooth_vortex.h` (124 lines), lines 55-87, 100-115: SWInitialStates.v
* `source/shallow_water/initial_state_soliton.h` (75 lines), lines 43-63: InitialRegions.v
* `source/shallow_water/initial_state_three_bumps_dam_break.h` (131 lines), lines 63-82, 95-122: InitialRegions.v
* `source/shallow_water/initial_state_transient.h` (181 lines), lines 58-77, 90-171: InitialRegions.v
* `source/shallow_water/initial_state_uniform.h` (61 lines), lines 45-50: InitialRegions.v
* `source/shallow_water/limiter.h` (414 lines), lines 21-79, 131-136, 192-196, 225-234, 247-397: SWLimiter.v, SWLimiterFinal.v, SWScheme.v
* `source/shallow_water/limiter.template.h` (452 lines), lines 16-449: SWLimiter.v
* `source/shallow_water/parabolic_system.h` (57 lines), lines 35: SWRun.v
* `source/shallow_water/riemann_solver.template.h` (254 lines), lines 25-251: SWRiemann.v, SWScheme.v
* `source/simd.h` (491 lines), lines 48-52, 111-115, 123-127, 149-160, 175-478: FastPow.v, Opt.v, RVec.v, Simd.v, SimdLoop.v
* `source/simd.template.h` (365 lines), lines 280-320: FastPow.v
* `source/simd_fast_pow.template.h` (166 lines), lines 35-162: FastPow.v
* `source/skeleton/hyperbolic_system.h` (417 lines), lines 136-193, 286-361: Extractor.v, Scheme.v
* `source/skeleton/indicator.h` (132 lines), lines cited as a whole: Scheme.v
* `source/skeleton/initial_state_library.template.h` (38 lines), lines 35: Selection.v
* `source/skeleton/limiter.h` (202 lines), lines cited as a whole: Scheme.v
* `source/skeleton/riemann_solver.h` (95 lines), lines cited as a whole: Scheme.v
* `source/sparse_matrix_simd.h` (774 lines), lines 109-142, 301, 313-321, 326-335, 340-350, 355-358, 363-368, 389-440, 479-546, 595-640, 651-772: GhostRows.v, Sparse.v
* `source/sparse_matrix_simd.template.h` (416 lines), lines 39-268, 298-355: GhostRows.v, Opt.v, Sparse.v
* `source/state_vector.h` (76 lines), lines 47-52: AeosRun.v, SWRun.v, ScalarRun.v, Scheme.v
* `source/time_integrator.h` (470 lines), lines 25-39, 47-206, 210-229: EnumParams.v, TimeInt.v, TimeIntSpec.v
* `source/time_integrator.template.h` (800 lines), lines 18-25, 74-800: AeosRun.v, EulerRun.v, NSRun.v, Parabolic.v, SWRun.v, ScalarRun.v, TimeInt.v, TimeIntSpec.v
* `source/time_loop.h` (214 lines), lines 191: ReportTimers.v
* `source/time_loop.template.h` (1386 lines), lines 27-884, 912, 917-991, 1023-1100, 1107-1268, 1289-1304: Checkpoint.v, ErrorNorms.v, MeshResume.v, MeshTransfer.v, Postprocess.v, Report.v, ReportPartition.v, ReportPartitionSpec.v, ReportTimers.v, RunParams.v, TimeLoop.v, VtuOutput.v
* `source/transfinite_interpolation.template.h` (937 lines), lines 21, 61-73, 92-382, 392-560, 764-884, 890-907: Transfinite.v
* `source/vtu_output.template.h` (207 lines), lines 39-50, 142-201: VtuOutput.v

### Parts of the code that are not modelled

* `source/`: diagonal_preconditioner.h, discretization.cc, equation_dispatch.cc, geometry.h, geometry_common_includes.h, geometry_disk.h, geometry_reader.h, hyperbolic_module.cc, initial_values.cc, initial_values.h, introspection.h, mesh_adaptor.cc, offline_data.cc, parabolic_module.cc, postprocessor.cc, quantities.cc, simd.cc, sparse_matrix_simd.cc, stub_solver.h, time_integrator.cc, time_loop.cc, transfinite_interpolation.h, version_info.cc, version_info.h, vtu_output.cc, vtu_output.h
* `source/euler/`: description.h, equation_dispatch.cc, initial_state_library.cc, instantiate.h, limiter.cc, riemann_solver.cc
* `source/euler_aeos/`: description.h, equation_dispatch.cc, equation_of_state_library.h, initial_state_library.cc, instantiate.h, limiter.cc, riemann_solver.cc
* `source/navier_stokes/`: equation_dispatch.cc, initial_state_library.cc, initial_state_library.template.h, instantiate.h, parabolic_solver.cc
* `source/scalar_conservation/`: description.h, equation_dispatch.cc, flux_library.h, initial_state_library.cc, initial_state_uniform.h, instantiate.h, limiter.cc, riemann_solver.cc
* `source/shallow_water/`: description.h, equation_dispatch.cc, initial_state_library.cc, initial_state_library.template.h, instantiate.h, limiter.cc, riemann_solver.cc, riemann_solver.h
* `source/skeleton/`: description.h, equation_dispatch.cc, initial_state_library.cc, initial_state_uniform.h, instantiate.h, parabolic_system.h

Rounding of floating point numbers, SIMD intrinsics, MPI and deal.II beyond the
operations described in the individual files, and the performance of the code are
not modelled either.

## Plan per property

* **C01** SIMD sparse matrix: a written entry is read back and nothing else changes. Sparse.v: storage as a total map of addresses; pattern = (width, n_internal, row lengths); addresses as in get/write; proof: address map injective.
* **C02** SIMD sparse matrix: vectorized access equals the scalar accesses of its lanes. Same model; vectorized accessors as separate functions; lane-wise equality by address arithmetic.
* **C03** SIMD sparse matrix: transposed access reads the mirrored entry. Sparse.v: executable reinit (row_starts, column_indices, indices_transposed); proof by induction over rows.
* **C04** Multi-component vectors: tensor and component access are mutually consistent. MultiVec.v: interleaved total map; round trips, non-interference, lane equality.
* **C05** Vector partitioner: the multi-component index set is the component-expanded scalar index set. MultiVec.v: interval lists; membership equivalence by div/mod.
* **C06** Stencil grouping yields a permutation with uniform SIMD strides. Renumber.v: fold over rows with association-list bins; invariant: multiset of assigned + pending indices, strides uniform.
* **C07** Export-first renumbering keeps strides intact and puts all exported strides first. Renumber.v: two-pass fold; stride-level stable partition; induction.
* **C08** Inconsistent strides are moved last without disturbing consistent ones. Renumber.v: same two-pass shape with a different predicate; consistent_stride_range modelled too.
* **C09** The recomputed export count covers every exported vectorized row. Renumber.v: recomputation fold over ranges. Expected: refuted for ranges straddling n_internal, proved for non-straddling ones.
* **C10** Overlapped halo exchange runs exactly once and only after all exported rows are written. Conc.v: small-step semantics for threads, counter, future and destructor; inductive invariants over all traces.
* **C11** Lazy initialization is performed exactly once before any use. Conc.v: small-step semantics with flag and mutex; invariants over all traces.
* **C12** The thread-parallel CFL reduction is an exact minimum. Conc.v: small-step semantics of load / compare_exchange_weak (spurious failure) per thread; invariant + termination measure statement.
* **C13** A time step never overshoots the final time. TimeInt.v: all schemes over an abstract hyperbolic / parabolic module (any behaviour), state and exception monad; theorems in TimeIntThms.v.
* **C14** Explicit Runge-Kutta methods realize their Butcher tableaux. TimeIntRK.v: stage recursions over an abstract vector space of functions; equality with the tableau; order conditions over R.
* **C15** SSP methods are convex combinations of forward Euler steps. TimeIntInv.v: convex sets as predicates closed under convex combination.
* **C16** CFL recovery: at most one retry, retried state untouched, violations never silently accepted. TimeInt.v, TimeIntInv.v: step as a function of modules with exception outcome; invariants over all runs.
* **C17** The graph viscosity is symmetric, nonnegative and yields a positive step size. Scheme.v: steps 2-7 of HyperbolicModule::step for an arbitrary record of the equation-specific functions and an arbitrary mesh; SchemeProofs.v.
* **C18** The low-order update is a convex combination of bar states. Scheme.v; update of one row as a list sum; rewriting into a convex combination (SchemeLimit.v); invariant domains follow from a contract of the Riemann solver.
* **C19** Mass is conserved by the low-order update and by every limiting pass. Scheme.v; double sums over a symmetric stencil, antisymmetry cancels (SchemeUpdate.v).
* **C20** Convex limiting keeps the update inside the local bounds. Scheme.v; convex combination with weights 1/(row_length-1), both passes (SchemeLimit.v).
* **C21** A uniform state is a fixed point of the update. Scheme.v; algebra with sum_j c_ij = 0 and equal states (SchemeLimit.v).
* **C22** Step verdict: a step is flagged if and only if some limiter call of the first pass failed. Scheme.v combined with TimeInt.hyperbolic_step: the verdict as the time integrator sees it.
* **C23** Quadratic Newton step: the bracket only shrinks. Newton.v, NewtonProofs.v over R: the four clamps and the min/max.
* **C24** Quadratic Newton step keeps the left end on the admissible side. NewtonSign.v, NewtonFinal.v: interpolation error of the two quadratics; exact arithmetic, a quantitative version for eps > 0, and two refuted readings.
* **C25** Euler limiter: the returned coefficient is in range and enforces the density bounds. EulerLimiter.v (all SIMD lanes, tolerance, iteration budget), EulerLimiterProofs.v: density is affine, range is a loop invariant.
* **C26** Euler limiter: the specific entropy bound is preserved by the Newton loop. EulerLimiterEntropy.v: psi is a quadratic minus s rho^(gamma+1), its third derivative has one sign, psi/rho is concave, hence C24 applies in every iteration.
* **C27** Bounds: combination and relaxation never exclude an admissible state. EulerLimiterBounds.v, AeosLimiterBounds.v, SWLimiterFinal.v, ScalarProofs.v: folds of accumulate; bounds commute and are monotone. Shallow water combine_bounds is refuted for one entry (C69).
* **C28** Shallow water limiter: range and water depth bounds. SWLimiter.v, SWLimiterProofs.v: SIMD lanes as lists; the early returns are common to all lanes.
* **C29** Shallow water limiter: velocity bound. SWLimiterProofs.v: |q|^2 - v2 h^2 is a quadratic; the line search bracket is kept by C23.
* **C30** Scalar limiter: range and maximum principle. Scalar.v, ScalarProofs.v.
* **C31** Conversion between primitive and conserved states is a bijection. EulerSystem.v, AeosSystem.v, SWSystem.v; PhysThms.v C31_*: componentwise inverse, quantities of expand_state and from_initial_state.
* **C32** Slip and no-slip boundary conditions are idempotent projections preserving admissibility. PhysThms.v C32_* for the three systems: slip/no-slip as projections (unit normal), admissibility.
* **C33** The dynamic boundary condition is consistent. PhysThms.v C33_*: consistency, and in each regime the Riemann invariants, entropy and tangential velocity of the result; notions in PhysSpec.v. AEOS traps on dynamic boundaries (modelled as None).
* **C34** The fluxes are covariant under rotations and the numerical fluxes are conservative and consistent. PhysThms.v C34_*: flux in primitive variables, covariance under linear isometries, antisymmetry and consistency of the numerical fluxes.
* **C35** Entropy derivatives used by indicator and limiter are the true derivatives. PhysThms.v C35_*: derivable_pt_lim of the entropies along U + t P, and of the limiter functions psi along the update (eps = 0).
* **C36** The smoothness indicator takes values in [0,1] for every stencil. Indicator.v, IndicatorProofs.v: folds of accumulate, triangle inequality; a zero denominator is an undefined value.
* **C37** Euler Riemann solver: the computed wave speed bounds the exact maximal wave speed. EulerRiemann.v (model), EulerRiemannSpec.v (exact solution: isentropic rarefactions, Rankine-Hugoniot shocks, vacuum), GasWaves.v (shock curve above rarefaction curve), EulerRiemannProofs/Exist/Newton/Final.v: existence of the exact solution by the intermediate value theorem, upper bounds of the pressure estimates, Newton steps keep the root in the bracket. Refuted for a shock and a rarefaction.
* **C38** AEOS Riemann solver: the computed wave speed bounds the exact maximal wave speed. AeosRiemann.v (model), AeosRiemannSpec.v (exact solution for the surrogate gases: isentropic rarefactions, Rankine-Hugoniot shocks, vacuum), GasWaves.v (scaled rarefaction curve below shock curve for every gamma > 1), AeosRiemannProofs/Final.v: change of variables to ideal gases, bounds for strict and interpolated pressure estimates. Refuted for two shocks with pinf > 0 (phi_of_p_max mixes shifted and unshifted pressures).
* **C39** Shallow water Riemann solver: the computed wave speed bounds the exact maximal wave speed. SWRiemann.v (model), SWRiemannSpec.v (exact solution: rarefactions, Rankine-Hugoniot shocks, dry bed), SWRiemannProofs.v/SWRiemannFinal.v: existence of the exact solution by the intermediate value theorem; the bounds of the depth function give h_star >= exact depth. Refuted for the unregularised dry front.
* **C40** Scalar Riemann solver: the wave speed makes the bar state obey the maximum principle. Scalar.v, ScalarProofs.v: mean value theorem for an arbitrary flux with monotone derivative.
* **C41** Equations of state: energy and pressure formulas are inverse to each other. Eos.v, EosProofs.v: algebra for polytropic, Noble-Abel and van der Waals; Jones-Wilkins-Lee proved for q_0 = 0 and refuted for every other q_0 (the energy formula omits it).
* **C42** Equations of state: the sound speed matches the pressure law. Eos.v, EosSpec.v (sound_law with the derivatives of the pressure), EosProofs.v. Jones-Wilkins-Lee proved for omega = 1, q_0 = 0 and refuted for omega = 1/2 (wrong exponent).
* **C43** AEOS: precomputed pressure and surrogate gamma are right, complete and exchanged in time. AeosPrecompute.v (event traces of the two calls of the loop on one rank, cycle 1 in place), AeosPrecomputeSpec.v, AeosPrecomputeProofs.v. Scalar interface proved; interface with arrays proved under the conditions that make its wrong index harmless, refuted otherwise.
* **C44** Shallow water: a lake at rest stays at rest. SWScheme.v instantiates the interface of Scheme.v with the functions of source/shallow_water/. C44_star_states, C44_step (complete update with dry rows, any stages and passes), C44_wet_step (all limiter options), C44_verdict (never flagged). C44_thin_layer_refuted: depths between zero and the cut off depth of the regularisation are not balanced.
* **C45** Shallow water: Manning friction only damps. PhysThms.v C45_*: the momentum after a friction step is theta times the momentum, 0 < theta <= 1; depth source 0.
* **C46** Shallow water: regularised velocity is bounded and exact for wet states. PhysThms.v C46_*: inverse_water_depth_mollified and the velocity formed with it.
* **C47** Output, checkpoint and statistics are produced at each timer tick exactly once. TimeLoop.v: main loop over abstract numerical components, Quantities.v for the statistics. Induction over the iterations (ticks of a linked list of levels); termination by the number of steps of size delta. Refuted for steps larger than the granularity (one tick per iteration) and for a zero multiplier of a disabled output.
* **C48** A resumed run continues exactly where the checkpoint was written. TimeLoop.v: [resume]; simulation between the uninterrupted and the resumed loop (equal up to schlieren bounds and statistics). Refuted for error computation (checkpoint overwritten by the analytic solution), past adaptation points, fixed schlieren bounds, time averages.
* **C49** A crash during checkpointing always leaves a consistent checkpoint behind. Checkpoint.v models the file operations of write_checkpoint and read_checkpoint as a small-step relation with a crash between and within any two operations. Proved: a resume never mixes checkpoints, finds a completed one, never an older one, and after a single crash each old file still exists under its own or its backup name. Refuted: resume after a crash (C49_crash_refuted), and after two crashes not even the backups are complete (C49_two_crashes_refuted).
* **C50** Each prescribed mesh adaptation time triggers exactly one adaptation. TimeLoop.v: adaptor_prepare, adaptor_analyze within the loop. Characterisation of all adaptations by induction over the levels. Refuted for points first reached at the last level (the loop is left before analyze).
* **C51** Averages written by Quantities are the trapezoidal and mass weighted averages of the trajectory. Quantities.v: accumulate, write_out and clear over arbitrary call sequences; invariant relating the statistics to the recorded history. Refuted: tiling with clearing, header of the second manifold, rows lost on mesh adaptation.
* **C52** Enumeration parameters survive a round trip through the parameter file. EnumParams.v models Convert and the seven enumerations with their tables; round trip proved for every complete table and instantiated. The match of Patterns::Selection is modelled as splitting at the separator.
* **C53** Equation dispatch runs exactly the selected driver. Dispatch.v models the slots and dispatch(); proved for all lists of registrations, all dimensions, all equation names, and all orders of the six drivers.
* **C54** Initial value placement is an isometry aligned with the prescribed direction. InitialPlacement.v models both transformations, the normalization and the selection of the configuration. Inverse, isometry, thermodynamics and rejection proved for dimensions 1 to 3; alignment proved in 2d and characterized exactly in 3d; refuted in 3d (opposite and diagonal directions) and in 1d.
* **C55** The boundary map accounts for every boundary contribution exactly once. BoundaryMap.v models the loop over faces (as a list of visits), the multimap, the merge loop and the normalization. An instrumented filter that records the members of each entry (BoundaryMapProofs.v) gives the sums; C55_total for at most two contributions per degree of freedom, C55_rays for flat sides, C55_slip_once/C55_corner for 2d. Refuted in 3d (C55_once_refuted): the loop `continue`s after a merge and may add one face to two entries.
* **C56** Coupling boundary pairs are found symmetrically and completely. BoundaryMap.v models collect_coupling_boundary_pairs; C56_exact, C56_once, C56_symmetric by induction over the visits and rows.
* **C57** Selected components are extracted in the requested order. Extractor.v models check() and extract() with the index pairs and the filling loops, and the name tables of the five systems in one, two, three dimensions.
* **C58** Positive and negative part helpers. Simd.v, SimdProofs.v.
* **C59** Ghost rows agree with their owner after an exchange. GhostRows.v models the exchange pattern of SparsityPatternSIMD::reinit (receive targets, send targets, entries to be sent, the rank matching loop, what std::vector::resize keeps) and update_ghost_rows() on all ranks (packing, slicing, receives in place); deal.II's partitioner is a specification in the same file (ranges, ascending ghosts, import indices). A receive without send, a send without receive, a truncated message or an access out of range is None. Proved: reinit and the exchange succeed on all ranks, owned rows are unchanged, every entry of a ghost row is the owner's entry for the same global row and column; the columns of a ghost row are exactly the diagonal and the owned columns. The diagonal is only transferred if the owner has a ghost of the receiver (always so if ghosts are mutual). Refuted: diagonals on a line of three cells on three ranks; a rank without ghosts whose indices are ghosts elsewhere (hang); a second reinit without ghosts after one with ghosts (stale targets).
* **C60** Strang and IMEX schemes compose the explicit and implicit steps at the right times. TimeInt.v: Strang splitting and IMEX schemes as compositions of hyperbolic and parabolic substeps.
* **C61** The unlimited multi-stage update combines stage fluxes with the given weights. Scheme.v; closed form of the update; refuted for boundary rows (diagonal flux of the stages is skipped) and for sources.
* **C62** The result of a hyperbolic step does not depend on the distribution. Scheme.v, SchemeIndep.v: two meshes describing the same problem; refuted for a discontinuous ansatz (bounds are extended in place).
* **C63** Euler AEOS limiter: the returned coefficient is in range and enforces the density bounds. AeosLimiter.v, AeosLimiterProofs.v: as C25 for an arbitrary equation of state.
* **C64** Euler AEOS limiter: the surrogate entropy bound is preserved by the Newton loop. AeosLimiterEntropy.v: psi/rho is concave for every b, pinf, q; third derivative of rho^(gamma+1) (1-b rho)^(1-gamma) is positive; hence C24 applies in every iteration.
* **C65** Euler AEOS limiter: the relaxed density bound respects the maximal density. AeosLimiterBounds.v: the cap is inactive up to 1/b and above 1/b beyond it; refuted for a uniform stencil.
* **C66** Shallow water limiter: kinetic energy bound. SWLimiterProofs.v: concavity of h k_max - |q|^2/2 along a line.
* **C67** Shallow water limiter: the square velocity limiter returns the largest coefficient. SWLimiterFinal.v: refuted by a witness (wrong derivative in the code).
* **C68** Shallow water limiter: with kinetic energy and velocity limiting disabled the depth bounds alone decide. SWLimiterFinal.v: refuted by a witness (t_l is returned, which was never advanced).
* **C69** Shallow water limiter: combine_bounds keeps the kinetic energy bound of both arguments. SWLimiterFinal.v: refuted by a witness (the left value is used twice).
* **C70** Scalar limiter: the bounds hold exactly for bounds of any sign. ScalarProofs.v: refuted by a witness (eps * u_max is negative).
* **C71** Scalar Riemann solver: enforced Kruzkov entropy inequalities. ScalarProofs.v: the two quotients of enforce_entropy are exactly the two inequalities.
* **C72** Scalar Riemann solver: the maximum principle for close states and the shipped non-convex flux. ScalarProofs.v: refuted by a witness for KPP (sin a > a cos a).
* **C73** Riemann solvers: wave speeds do not depend on the direction of the edge and are never negative. SWRiemann*.v, EulerRiemann*.v, AeosRiemann*.v, Scalar*.v: symmetry and sign of the computed wave speeds by algebra. Refuted for the interpolated AEOS bounds with equal pressures and gamma > 5/3; with random Kruzkov constants the mirrored call has to draw the mirrored numbers.
* **C74** Equations of state: the temperature satisfies the thermal equation of state of the configured gas. Eos.v, EosProofs.v: construction with defaults followed by reading the parameters; refuted for every equation of state with a derived c_v, since it is not recomputed.
* **C75** Equations of state: the interpolation constants fit the gas and the admissible set is the physical one. Eos.v, EosProofs.v: algebra; refuted for van der Waals by a cold dense state.
* **C76** Equations of state: array variants agree with the scalar variants. Eos.v, EosProofs.v: induction over the arrays; the table is an arbitrary function.
* **C77** Shallow water: low-order update keeps the water depth nonnegative. SWSchemeDepth.v: every pair term of the depth update is bounded below by -9/4 d_ij h_i-type estimates; C77_depth_nonneg.
* **C78** Shallow water: depth within nonnegative local bounds after limiting. SWSchemeFinal.v: the low-order depth is a convex combination of the bar depths that enter the bounds; with C20 and C66-C68 C78_depth_bounds.
* **C79** Shallow water: conservation of volume. SWSchemeFinal.v: instance of the conservation theorem C19; C79_volume.
* **C80** Vacuum and dry state filters only remove roundoff. Three scalar filters, compared with one independent specification `roundoff_filter` (PhysSpec.v): identity outside the cut off, zero inside. Proved (PhysThms.v).
* **C81** Exact conservation for the Euler equations. EulerScheme.v instantiates the scheme of Scheme.v with the Euler functions (EulerSystem.v, EulerRiemann.v, EulerLimiter.v, Indicator.v). C81_conservation instantiates the general conservation theorem: central flux is f_i + f_j, the wave speed estimate is symmetric (C73) and nonnegative.
* **C82** Low-order step keeps density and internal energy positive. C82_positivity: the bar states are the mean of two half states U_i +- f(U_i).n/lambda; each has positive density and internal energy as lambda >= |u_i.n| + a weaker bound shown for the two-rarefaction pressure with 1 < gamma <= 5/3 (EulerSpeed.v). C82_estimate_positive: the estimate never vanishes.
* **C83** Density stays within the local bounds over the complete Euler step. C83_density: bar densities lie in the limiter bounds (C27 lemmas), relaxation keeps the lower bound positive (hypothesis moderate_relaxation), the limiter keeps the density in the bounds (C25) and convexity carries it through both passes (C20).
* **C84** Minimum entropy and positivity over the complete Euler step. C84_entropy, C84_verdict: the set {density in bounds, s_min rho^gamma <= rho e} is convex (Young inequality), C26 gives the limiter guarantee, C20 carries it through both passes.
* **C85** Accepted Euler steps are admissible. C85_accepted: with one pass the limited result is a convex combination of states U_i + l_ij P_ij; an accepted call returns states with nonnegative entropy functional at positive density.
* **C86** A random perturbation of the initial values keeps them admissible. InitialPlacement.v models the perturbation with the draws as arbitrary numbers in [-1,1); bounds, signs and later times proved; admissibility of the internal energy refuted for every p.
* **C87** The boundary map of a multigrid level lists the owned boundary degrees of freedom of that level. level_boundary_map in BoundaryMap.v: the code compares level indices with n_locally_owned_ and the row lengths of the active mesh. C87_level is what remains true; C87_complete_refuted and C87_owned_refuted are the two failures.
* **C88** The isentropic vortex initial state is an exact solution. EulerInitialStates.v transcribes compute(); BalanceSpec.v defines a solution through derivatives of the returned states. EulerInitialProofs.v: the partial derivatives of the primitive variables, then the conservative form (BalanceProofs.v euler_residual).
* **C89** The shock front initial state is a single admissible shock. shock_left / shock_front in EulerInitialStates.v; algebra for the ideal gas (C89_shock_front), refuted for the Noble-Abel gas by a witness (EulerInitialShocks.v).
* **C90** The rarefaction initial state is an exact continuous solution. EulerInitialFans.v: a self-similar state with u - c = x/t and constant Riemann invariant solves the equations; continuity at both ends.
* **C91** The LeBlanc initial state is the solution of its Riemann problem. EulerInitialMore.v: the fan of the LeBlanc tube is a self-similar solution with rational coefficients; the jump conditions of the tabulated constants by interval arithmetic (tolerance 1e-15).
* **C92** The Noh initial state is an exact solution. EulerInitialNoh.v: residual of the exterior state is computed in closed form, which gives the equivalence C92_noh_iff; jump conditions behind the shock by algebra.
* **C93** The smooth wave initial state is an exact solution. EulerInitialNoh.v: the bump is a product of cubes, differentiable at the joints; euler_primitive.
* **C94** The ramp up initial state stays admissible. EulerInitialNoh.v: convex combination with cosine weights; the admissible set is convex.
* **C95** The ICF-like initial state contains an admissible converging shock. icf in EulerInitialStates.v: member gamma_ is 1.4 for the Euler equations; jump conditions along the normal (EulerInitialShocks.v), refuted for gamma = 5/3.
* **C96** The Becker solution is an exact viscous shock profile. Becker.v: psi, the cut-off, the Newton loop and the state. BeckerProofs.v: psi is strictly monotone and onto, its inverse is differentiable; BeckerFinal.v: the viscous flux is an affine function of the state, hence the equations hold. Error of the root finder by the mean value theorem. BeckerStall.v: by the intermediate value theorem some position makes the first Newton step land 1e-20 below the left velocity, where the next step is below the stopping threshold although the root is far away.
* **C97** Ritter's dam break initial state is the solution of the dam break problem. SWInitialStates.v models compute; the spec (BalanceSpec.v) states the shallow water equations by derivatives. Proved: exact away from the two kinks, continuous, bounds, limit at the break.
* **C98** The paraboloid initial state is an exact solution with moving shore line. SWInitialStates.v. Exact in 2d and (for a friction linear in the discharge) in 1d; with Manning's law, which is the friction of the equation, only at exceptional points: C98_manning_iff, C98_manning_refuted.
* **C99** The smooth vortex initial state is an exact solution. SWInitialStates.v. Exact without bathymetry, and with bathymetry for Mach number zero; otherwise only on a curve: C99_bathymetry_iff, C99_bathymetry_refuted.
* **C100** The sloping friction initial state is a steady uniform flow. SWInitialStates.v. Steady solution with Manning's friction of SWInitialSpec.v.
* **C101** The flow over bump initial state is a steady flow. SWInitialStates.v. The root of the cubic is shown to satisfy the head equation on the right branch, its derivative follows from the cubic; refuted between the jump at 11.7 and the end of the bump at 12, where the depth is constant over falling ground, and at the jump, where the momentum fluxes of the two sides differ and a point on the jump gets the depth of the upstream branch.
* **C102** The mass matrix is the Galerkin mass matrix and lumping preserves integrals. The mass matrix is the Galerkin mass matrix. Assembly.v. The local loops, distribute_local_to_global and lumping over given finite element values, constraints and cells; basis functions and quadrature in AssemblySpec.v.
* **C103** The vectors c_ij discretize the divergence: zero row sums, skew symmetric up to the boundary. c_ij has zero row sums and is skew up to the boundary. Assembly.v. Galerkin forms of both kinds of ansatz, cell-wise integration by parts as assumption on the quadrature, interior faces cancel (proved for matching faces, assumed for hanging nodes).
* **C104** Discontinuous ansatz: block inverse and incidence matrix. Block inverse and incidence matrix. Assembly.v. FullMatrix::invert is given as inverse of the local matrices; encounters of a pair counted in AssemblySpec.v; refuted: two cells in a periodic direction meet twice.
* **C105** The assembled matrices and the measure of the domain do not depend on the number of ranks. Independence of the ranks. Assembly.v. Both build variants as sums over ranks; rows without compress() are complete at their owner; measure_of_omega() without Trilinos counts ghost cells repeatedly (refuted).
* **C106** Assembled discretizations preserve integrals and uniform states. From the assembly to the step. Assembly.v with Scheme.v: assembled_mesh meets all mesh assumptions of C17-C22 and the two consequences are drawn.
* **C107** The implicit viscous step solves the weak form of the viscous terms. The viscous step. Parabolic.v on top of Assembly.v: matrix-free operators as sums over cells and quadrature points, row replacements, right hand sides, preconditioners; the linear solvers are parameters. From the solved systems to the weak form; the multigrid hierarchy is not modelled (it only preconditions).
* **C108** The implicit viscous step imposes the boundary conditions strongly. Strong boundary conditions. Invariants of the preconditioned conjugate gradient iteration for arbitrary step lengths. Two slip walls at an oblique angle in 3D: refuted.
* **C109** The implicit viscous step conserves mass and energy and dissipates kinetic energy. Balances of the viscous step. Summation of the weak form over all basis functions, testing with the averaged velocity.
* **C110** The implicit viscous step keeps the minimum of the internal energy or asks for a restart. Minimum principle and the check. M-matrix argument at the minimum; the check takes its minima over constrained degrees of freedom as well: refuted with periodic constraints.
* **C111** Extrapolating the implicit step gives the midpoint rule over the double step. Crank-Nicolson by extrapolation. The extrapolated state in terms of the averaged one. Positivity of the internal energy: refuted.
* **C112** The result of the implicit viscous step is determined by the equations; rigid motion is preserved. Uniqueness and rigid motion. Coercivity of the operators with replaced rows (Korn-free: lumped mass), difference of two solutions.
* **C113** Limiters: success means that the returned state obeys its bounds. Soundness of the verdict. EulerLimiter.v, AeosLimiter.v, SWLimiter.v: no assumption on the low-order state; lanes whose end point is accepted are frozen, the others were tested. The shortcut t_l == t_r also fires for a window closed by the density bound: refuted.
* **C114** Scalar conservation equations: a step conserves the integral of the unknown. ScalarScheme.v (instance of Scheme.v for source/scalar_conservation), ScalarSchemeProofs.v: telescoping sums with symmetric d_ij. Proved without random entropies on any number of ranks and with random entropies on one rank; refuted for random entropies on two ranks (d_ij of a pair across ranks is drawn twice).
* **C115** Scalar conservation equations: the low-order update obeys the local maximum principle. ScalarSchemeProofs.v: Lipschitz bound of the flux by d_ij, convex combination of bar states. Refuted for KPP with close values.
* **C116** Scalar conservation equations: the result of a step is within the bounds of the limiter and no violation is reported. ScalarSchemeBounds.v: bar states of the limiter are those of the low-order update when d_ij vanishes or is above 100 num_min; C20 of the general scheme. Hypothesis: machine epsilon zero or upper bounds nonnegative (C70 refutes the exact bounds otherwise).
* **C117** Scalar conservation equations: maximum principle for steps and whole simulations. ScalarSchemeBounds.v: without relaxation the bounds are in the hull of the stencil; induction over the relation scalar_run (boundary conditions, steps with fresh random numbers).
* **C118** Schlieren and vorticity values are exact derivatives of affine fields. Postprocess.v models the loop over the stencil (schlieren_raw, vorticity_raw); PostprocessSpec.v states what an exact discrete gradient is; linearity of the sums.
* **C119** Normalized plots: range, order, ranks and history. Postprocess.v models the four steps of compute with the vectors kept between calls and the reductions over ranks; characterization of the bounds as extreme values; monotonicity of exp.  Refuted for constrained rows: they keep the normalized value of the previous output and enter the next bounds.
* **C120** Names of plot quantities. Postprocess.v: populate and the checked reads prim_j[index + d]; case analysis over the name tables of Extractor.v.  Refuted for vorticities: e.g. "E" is accepted and read beyond the end.
* **C121** The reported errors. ErrorNorms.v: quadrature over cells, reductions over ranks, constraints, normalization with checked division and the poisoned analytic solution of debug builds; sums over permutations.  Refuted for normalized errors with a vanishing analytic component (the default setting) and for debug builds with constraints.
* **C122** Equations of state: a step conserves mass, momentum and energy. AeosScheme.v (instance of Scheme.v for source/euler_aeos), AeosSchemeProofs.v, AeosSchemeFinal.v: telescoping sums with symmetric d_ij. Proved on one rank, and on several ranks if neighbours across ranks have different pressures, surrogate gammas up to 5/3, or strict bounds with pinf = 0; refuted otherwise (AeosSchemeExamples.v: equal pressures, gamma = 3).
* **C123** Equations of state: the low-order update stays admissible. AeosSchemeProofs.v (cone of admissible states; each pair contributes U + f n / lambda and U - f n / lambda), AeosSchemeCovolume.v (density bound via the exact Riemann solution of the surrogate gas), AeosSchemeFinal.v. Positive density and energy proved for all constants, density bound and invariance for pinf = 0; refuted for pinf > 0 (colliding streams of a liquid under tension).
* **C124** Equations of state: the limited update stays inside the local bounds and admissible. AeosSchemeBounds.v (bounds are convex sets, contain the old state and all bar states, extension over the stencil), AeosSchemeLimits.v; the limiter itself by C38/C65/C113 via C20. Proved for up to two limiter passes if the relaxed upper density bound stays below 1/b, which holds unconditionally without relaxation or covolume; for a discontinuous ansatz in addition for specific volumes up to 1 + b (see C125). Exact arithmetic (eps = 0), pinf = 0.
* **C125** Equations of state: bounds extended over the stencil contain the low-order update. AeosSchemeLimits.v: combined bounds contain the states of either if the gammas agree or for specific volumes up to 1 + b. AeosSchemeDiscontinuous.v refutes the full statement: four cells at rest with pressure 4 and the user expression p = 4 rho^2 e; the extended bounds measure the entropy bound with gamma = 6/5 and exclude the low-order update of the second cell, for every step size.
* **C126** Shallow water: thin films are not thinned out by the limiter. SWLimiter.v (bounds, limit) as before; SWThinSpec.v defines the film threshold in terms of the mesh size, SWThinProofs.v shows the lower bound of the depth coefficient and passes it through the later phases, which only reduce the coefficient.
* **C127** The smoothness indicator is of second order near uniform states. Indicator.v as before; IndicatorFlatSpec.v defines the stencil U + t V_j; IndicatorFlat.v shows that every summand of the entropy residual has derivative zero (entropy flux derivative = entropy derivative times flux derivative) and that the denominator is bounded below. The Kruzkov indicator of the scalar module uses |u_j - u_i| and is of first order; it is not covered.
* **C128** Scalar conservation laws: the flux gradients are derivatives of the fluxes. Scalar.v (Burgers, KPP), ScalarFlux.v (FluxLibrary::Function: arbitrary real functions for the expressions, central difference quotient; muparser not modelled); mean value theorem.
* **C129** Euler: minimum entropy principle of the low-order update. EulerMinEntropy.v (half fans: an affine minorant of the entropy constraint, shocks by Rankine-Hugoniot and log inequalities, rarefactions by monotonicity along the fan), EulerMinEntropyBar.v (bar states in any dimension), EulerLinearWaves.v, EulerContact.v and EulerMinEntropyPair.v (computed speed: the bar state is an average of the states behind two linear waves whose common momentum flux stays in the range where entropy increases, for every pair), EulerMinEntropyFinal.v (scheme on top of C82-C85).
* **C130** Shallow water: bathymetry from a GeoTIFF image. Geotiff.v: parameters and image as data, read_in_raster with orientation, origin and inverse, the casts to unsigned int (undefined outside of the range), bilinear interpolation, compute. Specification with tent functions and the documented placement in GeotiffSpec.v; proved by splitting sums of tent functions into at most two nonzero terms per direction. Raster entries are real numbers (single precision in the code); GDAL itself is not modelled.
* **C131** Euler: complete runs stay physical and conservative. EulerRun.v instantiates the integrator of TimeInt.v with preparation (boundary map, precomputation), step size proposals, limited update and sadd of the Euler equations. EulerRunSpec.v gives the substeps of each explicit scheme as a list (trace); C131_trace shows that the integrator performs exactly these. An invariant kept by preparation, suitable substeps (C129_step) and convex combinations is carried through trace, step and run. Later substeps of a Runge-Kutta scheme use the step size of the first substep, the code does not check them against the CFL condition: that they respect it is a hypothesis (cautious), discharged for forward Euler (C131_forward_euler) and for a uniform stream with every scheme up to every final time (C131_run_ex). Hypothesis as well: viscosities above hundred times the smallest positive number. Constrained rows are allowed; the statements are about the other rows. Machine epsilon zero; dynamic boundary conditions are left out.
* **C132** Shallow water: complete runs keep lakes at rest and the volume of water. SWRun.v instantiates TimeInt.v with prepare_state_vector (boundary loop and precomputation cycle), the step size proposals, the update of SWScheme.v and sadd. Lemmas for arbitrary modules (RunLib.v): a property kept by preparation, substeps and convex combinations holds after every completed step, restarted or not; a family of vectors with the same proposals on which steps of the proposed size are accepted runs to every final time without restart. Instances: lakes at rest (C44 for one update, the wave speeds of two lakes of the same level agree) and the volume (C79; rows at walls have zero normal momentum after preparation).
* **C133** Scalar conservation equations: complete runs obey the maximum principle and keep the integral. ScalarRun.v instantiates TimeInt.v with the boundary loop, the precomputation cycle, the proposals, the update of ScalarScheme.v (random numbers of the Riemann solver included in the arbitrary temporaries) and sadd. C133_transport: for an affine flux every term of the speed estimate, the Kruzkov ones included, is at most |w . n| and one equals it, so the proposals of all prepared vectors agree and RunLib.v gives runs to every final time without restart. C133_step, C133_run: other fluxes, conditional on suitable substeps (as C131). C133_total: steps_kept of RunLib.v with C114.
* **C134** VTU output: file names and cells near level sets. VtuOutput.v: the file names of schedule_output with MPI IO, which of the two outputs are written, the lambda of the cell selection with its counters and early return, and which cells the ranks write (known cells; ghost cells pass the predicate because it tests is_artificial only). Names: the decimal number is recovered from the padded string (stdlib DecimalString), the last underscore separates. Planes: extreme values of an affine function on a hull are attained at vertices; continuous functions: intermediate value theorem along a path. Refuted: curved level sets, each cell once.
* **C135** Arbitrary equations of state: complete runs keep density, excess energy and pressure positive and conserve. AeosRun.v instantiates TimeInt.v with the boundary loop, the two precomputation cycles, the proposals, the update of AeosScheme.v and sadd. The set of gases (positive density below 1/b, positive excess energy and pressure) is convex, kept by walls (compatible_eos: the pressure is positive where density and excess energy are), by the update (C123) and by the combinations of the schemes; RunLib.v carries this over runs. C135_total: steps_kept of RunLib.v with C122. C135_completes: positive proposals.
* **C136** Navier-Stokes: complete runs conserve, keep uniform flow and keep density and internal energy positive. NSRun.v: the integrator of TimeInt.v over the Euler update on assembled matrices (EulerRun.v, Assembly.v) and the parabolic step (Parabolic.v). Proved by an invariant kept by prepare, update, parabolic step and affine combination (conservation from C81 and C109, uniform flow from C106 and C112, positivity from C131 and C110).
* **C137** Rectangular domain: boundary conditions are on the configured sides. Geometry.v: the subdivided rectangle of deal.II as block of cells, the loops assigning boundary ids and collecting periodic faces; corners, subdivisions and conditions arbitrary. Proved by C137_sides and C137_periodic; C137_corners_refuted (swapped corners) and C137_film_refuted (thin domain). Not modelled: mesh grading by initial transformations.
* **C138** Wall, step, wave tank and cylinder: meshes conform and carry the documented boundary conditions. Geometry.v: blocks of cells and merging; conformity and boundary faces are defined in GeometrySpec.v on coordinates. Wall, step (with the rounded corner), wave tank (rounded cell counts as unsigned 32 bit numbers), cylinder edge by edge. Not modelled: the hyper cube with a cylindrical hole itself, three dimensional extrusion.
* **C139** Airfoil meshes: new vertices stay on the airfoil, charts are inverse to each other and continuous. Airfoil.v: the charts of AirfoilManifold, GradingManifold (per coordinate) and ExtrudedManifold; deal.II's polar coordinates and weighted chart means spelled out; the parametrizations arbitrary functions. C139_center_refuted: the center is not recovered. Not modelled: the coarse mesh, transfinite interpolation, and extrapolating weights other than the shortcut in the grading manifold.
* **C140** Airfoil profiles: NACA sample points and their parametrization. Airfoil.v: sample points of the series, the two back splines and the combined front spline in polar coordinates; the spline itself is any interpolating function, GSL errors are a distinct outcome. C140_cambered_refuted and C140_debug_refuted. Not modelled: the tables of the other airfoils.
* **C141** Transfinite interpolation reproduces the curves and faces around a coarse cell. Transfinite.v: the flag of flat cells and the two and three dimensional versions of compute_transfinite_interpolation with their accumulated weights; manifolds are arbitrary functions of points and weights. TransfiniteSpec.v states the blends. Proved by an invariant of the loops over faces and lines.
* **C142** Transfinite interpolation: the search for chart coordinates is safe, and new points of parallelograms are weighted means. Transfinite.v: finite difference gradient, line searches, Broyden update and iteration of pull_back, the three attempts of compute_chart_point and the loop over candidate cells, in two dimensions. Not modelled: how get_possible_cells_around_points finds and orders the candidates, and the formulas for the cheap guesses (both arbitrary).
* **C143** Piecewise constant initial states of gases: the right state in the right region. InitialRegions.v: compute of the six initial states and from_initial_state of both gas views (uninitialised coordinates and exceptions are None); the equation of state is an arbitrary pair of functions. InitialRegionsSpec.v says what density, velocity and pressure of a conserved state are. Proved by case distinction on the regions; placement by the theorems of C54.
* **C144** The initial state given by expressions has the density, velocity and pressure of the expressions. InitialRegions.v: compute of the initial state function with from_primitive_state of both views. Proved for the ideal gas; for arbitrary equations of state the actual pressure is determined and the claim refuted.
* **C145** Shallow water initial states: depths, levels and bottoms as documented, and a dam break of equal depths never moves. InitialRegions.v: compute and initial_precomputations of the shallow water states. Regions, levels, discs, rectangles and ellipses are stated in InitialRegionsSpec.v. The dam break of equal depths is shown to be a lake at rest and composed with the run of C132.
* **C146** The soliton is a travelling wave that solves the shallow water equations. InitialRegions.v: compute of the soliton. Derivatives of cosh; mass equation in the sense of BalanceSpec.v. The momentum equation is refuted: the wave is one of the dispersive Serre equations.
* **C147** Every initial state has a value in every dimension it is offered for. InitialRegions.v: reading a coordinate beyond the dimension is None. Proved from two dimensions on; refuted in one dimension for four initial states.
* **C148** The annulus geometry removes the wall and nothing else. `Annulus.v` models the selection of the cells to be removed (midpoints of the four faces, tolerances, angle), the cells of the ring as deal.II generates them, and the vertices of the outer square. C148_wall, C148_reflect, C148_inside, C148_outside, C148_square and C148_hole are proved for all radii, angles and cells; C148_large_refuted and C148_coverage_refuted show that cells outside of the annulus are removed when the outer radius is 4 or more and that a cell beyond the coverage angle is removed with the default parameters. Merging and transfinite initialisation are left to deal.II.
* **C149** The selected finite elements and quadratures have the properties that the scheme relies on. `Discretization.v` models the table of elements and quadratures of Discretization::prepare with the deal.II classes as documented: Lagrange polynomials in Gauss-Lobatto points, Gauss rules with their points and weights as expressions with square roots, tensor products, and values, gradients, weights and normals on boxes. Proved by exactness of the Gauss rules for all monomials, the product rule on coefficient lists, and induction over the dimension; C149_ansatz, C149_lumped and C149_complete connect this with C102, C103 and C106. Rows of boxes are the concrete case. Mapped (non-affine) cells and hanging nodes are not covered.
* **C150** Mesh adaptation keeps the solution. `MeshTransfer.v` models adapt_mesh_and_transfer_state_vector on a forest of boxes: flags, sons, the interpolation of dealii::SolutionTransfer as documented, nodal evaluation on coarsening for continuous elements and an arbitrary restriction for discontinuous ones. `MeshTransferSpec.v` says what the function, the totals and the nodal states on a forest are. Proved by exactness of interpolation in the nodes of each element, telescoping antiderivatives for the integrals over the two halves, tensor products and induction over trees and sequences of adaptations (C150_same, C150_total, C150_global, C150_nodes, C150_states, C150_gas). C150_coarse_refuted: coarsening with linear continuous elements turns a positive mass into zero. C150_quadratic_refuted: one global refinement with quadratic elements makes a positive density negative.
* **C151** A resumed run continues on the mesh of the interrupted run. `MeshResume.v` models Discretization::prepare (search for the geometry, refinement, distortion) and the saving and loading of the forest: cells by their vertices, sons placed by the multilinear map, displacements an arbitrary function. C151_resume is proved by an invariant (sons are where the map of the parent puts them) that refinement and adaptation keep and distortion breaks; C151_distorted_refuted: the checkpoint stores no positions, and the resumed run distorts the coarse mesh before the forest is loaded.
* **C152** Multigrid: the smoother of every level is given the diagonal of the operator of that level. `Multigrid.v` models level masses, both level operators and both versions of compute_diagonal cell by cell; `C152_energy` and `C152_velocity` compare with the entry of the operator applied to a unit vector, for boundary maps whose slip normals are coordinate directions. For other normals the code adds the normal times the sum of its components: `C152_skew_refuted` gives, for all meshes, a negative number where the operator has a positive diagonal entry.
* **C153** Multigrid changes the preconditioner only, and its data belong to the mesh and the state. `Multigrid.v` models the counter of ParabolicModule, what prepare() resets and what each step sets up, as a state machine; `C153_setup` is by induction over the steps. `with_multigrid` models try and catch around the solvers; `C153_same` reduces to the uniqueness C112. V-cycle, smoother and transfer are parameters.
* **C154** fast_pow() approximates pow(), respects the bias and is monotone. FastPow.v models fast_pow_impl() in exact arithmetic with the coefficients and the three roundings of the code. The errors of both polynomials are bounded by their derivatives, which gives the relative error exp(2e-4 (|y|+1)). Concrete points refute the bias, monotonicity and the sign; the gap is about 1e-4, far above single precision. The rounding errors of single precision are not modelled.
* **C155** Reports on the progress of a run are correct and never block the ranks. Report.v models the end of a step of the main loop on all ranks with the broadcast of rank 0, print_throughput() with its static memory, the split of the remaining time and the layout of header and table; ReportPartition.v the report on the partition, the skews and the shares of the timers; ReportTimers.v scopes and timers for arbitrary nested code with exceptions. Averages are compared with sums of step sizes, the estimate is bounded by induction over the reports, extremes and their ranks by induction over the ranks, timers by induction over the code. Refuted by concrete runs: the first report is five times too long (the moving average starts at zero), a resumed run counts the time before it, the conversion of a large estimate is undefined, and with an empty rank the percentages of the partition are not a number. Not modelled: rounding of printed numbers, memory statistics.
* **C156** The program ends with the same, truthful status on all ranks and touches no file but its own templates. StartUp.v: main() as a small-step system in which the ranks interleave their accesses to the file system and meet at collective operations; file names and contents of the templates. StartUpProofs.v: an invariant for each of the three ways through main(), a decreasing measure; StartUpFinal.v: status, files, progress, templates, two counterexamples.
* **C157** Files with point quantities contain exactly the points of their manifold, and values and points belong together. QuantitiesMesh.v models the selection of points in prepare() on every rank, the maps by name, and the files written by write_mesh_files() and write_out(). Proved by characterising the ordered map after the loop over the cells, a partition of the degrees of freedom by their owner, and an invariant over all sequences of prepare() and write_out(). Three parts fail: undefined formulas, equal names of interior and boundary manifolds, repeated names.
* **C158** Vectorized loops compute what serial loops compute. SimdLoop.v models the accessors of simd.h on lists of lanes (out of range = undefined behaviour), tensors of any rank, the iterations of the two loops with their strides, and threads that read and write in any interleaving. Proved by an invariant over all interleavings; every iteration owns its rows.
* **C159** All ranks start with the configuration of the parameter file, and the copy of the parameters reproduces the run. RunParams.v: the two times a rank reads the parameter file, and the copy written by rank 0, as interleaved accesses to the file system. Invariant over all interleavings; reading the copy again is the identity on configurations. Refuted for several ranks started with the copy itself: opening it for writing empties it while other ranks read.
* **C160** The flux, equation of state, initial state and geometry named in the parameter file are the ones used. Selection.v: the std::set of pointers as a list ordered by arbitrary addresses, the loops that look for a name, populate_functions and the order of the callbacks of the scalar conservation equations. Induction over the objects added and over the files read; the shipped tables by computation. Refuted in part: the circular dam break is documented but in no list; the Sesame equation of state changes its name with the configuration.
* **C161** A user-given initial state is evaluated at the time asked for. FunctionTime.v models parser objects that keep the time as a member changed by set_time and read by value, the compute functions of the four initial states given by expressions as sequences of such calls, and threads interleaved at these calls. Proved: any sequence of calls returns the values at its own points and times; each compute equals the time-explicit state used in the other files (gas_function, water_function, gt_compute) for every stored time; threads asking for one common time get the right values under every interleaving. Refuted: two threads asking for different times can get a value at the time of the other one.
