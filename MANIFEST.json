{
 "claims": [
  {
   "property": "C01",
   "status": "proved",
   "theorems": [
    "C01_writes_refine",
    "C01_reads_defined",
    "C01_write_read",
    "C01_read_in"
   ],
   "note": ""
  },
  {
   "property": "C02",
   "status": "proved",
   "theorems": [
    "C02_vector_read",
    "C02_vector_write"
   ],
   "note": ""
  },
  {
   "property": "C03",
   "status": "proved",
   "theorems": [
    "C03_reinit_pattern",
    "C03_transposed",
    "C03_transposed_exists",
    "C03_transposed_vectorized"
   ],
   "note": ""
  },
  {
   "property": "C04",
   "status": "proved",
   "theorems": [
    "C04_write_read",
    "C04_insert_extract",
    "C04_extract_is_tensor_component",
    "C04_vector_read",
    "C04_vector_gather",
    "C04_vector_write",
    "C04_vector_add",
    "C04_add_tensor"
   ],
   "note": ""
  },
  {
   "property": "C05",
   "status": "proved",
   "theorems": [
    "C05_membership",
    "C05_local_numbering"
   ],
   "note": ""
  },
  {
   "property": "C06",
   "status": "proved",
   "theorems": [
    "C06_internal_range_groups"
   ],
   "note": ""
  },
  {
   "property": "C07",
   "status": "proved",
   "theorems": [
    "C07_export_indices_first",
    "C07_exported_below_bound",
    "C07_keeps_uniform_strides"
   ],
   "note": ""
  },
  {
   "property": "C08",
   "status": "proved",
   "theorems": [
    "C08_inconsistent_strides_last",
    "C08_consistent_stride_range"
   ],
   "note": ""
  },
  {
   "property": "C09",
   "status": "partial",
   "theorems": [
    "C09_exchange_may_start_early_refuted",
    "C09_export_count_covers_refuted",
    "C09_export_count_covers_partial"
   ],
   "note": "False as stated: an exported range that straddles the end of the vectorized range is ignored, and the exchange may then start before an exported row is written (both refuted). Proved when no range straddles the end."
  },
  {
   "property": "C10",
   "status": "proved",
   "theorems": [
    "C10_payload_sees_exported_rows",
    "C10_payload_sees_all_rows",
    "C10_payload_exactly_once",
    "C10_region_completes",
    "C10_unordered_schedule_unsafe"
   ],
   "note": ""
  },
  {
   "property": "C11",
   "status": "proved",
   "theorems": [
    "C11_created_once_before_use",
    "C11_value_is_stable",
    "C11_creator_is_exclusive",
    "C11_all_calls_complete"
   ],
   "note": ""
  },
  {
   "property": "C12",
   "status": "proved",
   "theorems": [
    "C12_tau_max_is_minimum",
    "C12_intermediate_values",
    "C12_independent_of_row_assignment",
    "C12_terminates"
   ],
   "note": ""
  },
  {
   "property": "C13",
   "status": "proved",
   "theorems": [
    "C13_no_overshoot",
    "C13_step_size",
    "C13_progress",
    "C13_imex_22_33_never_complete"
   ],
   "note": ""
  },
  {
   "property": "C14",
   "status": "proved",
   "theorems": [
    "C14_erk_11",
    "C14_erk_22",
    "C14_erk_33",
    "C14_erk_43",
    "C14_erk_54",
    "C14_erk_11_order",
    "C14_erk_22_order",
    "C14_erk_33_order",
    "C14_erk_43_order"
   ],
   "note": ""
  },
  {
   "property": "C15",
   "status": "proved",
   "theorems": [
    "C15_ssprk_33",
    "C15_ssprk_22",
    "C15_ssprk_33_order",
    "C15_ssprk_22_order",
    "C15_ssprk_22_documented_tableau_refuted",
    "C15_convex_invariance",
    "C15_convex_invariance_unflagged",
    "C15_erk_invariance_unflagged"
   ],
   "note": "C15_ssprk_22_documented_tableau_refuted records that the tableau printed in time_integrator.h differs from the implemented (and cited) method."
  },
  {
   "property": "C16",
   "status": "proved",
   "theorems": [
    "C16_prepare",
    "C16_restart_never_escapes",
    "C16_bang_bang",
    "C16_retry_from_old_state",
    "C16_no_recovery",
    "C16_no_silent_violation"
   ],
   "note": ""
  },
  {
   "property": "C17",
   "status": "proved",
   "theorems": [
    "C17_viscosity",
    "C17_diagonal",
    "C17_step_size"
   ],
   "note": ""
  },
  {
   "property": "C18",
   "status": "proved",
   "theorems": [
    "C18_convex_combination",
    "C18_invariant_domain"
   ],
   "note": ""
  },
  {
   "property": "C19",
   "status": "proved",
   "theorems": [
    "C19_conservation",
    "C19_exact"
   ],
   "note": ""
  },
  {
   "property": "C20",
   "status": "proved",
   "theorems": [
    "C20_inside_bounds",
    "C20_extended_bounds"
   ],
   "note": ""
  },
  {
   "property": "C21",
   "status": "proved",
   "theorems": [
    "C21_uniform"
   ],
   "note": ""
  },
  {
   "property": "C22",
   "status": "proved",
   "theorems": [
    "C22_verdict",
    "C22_unflagged"
   ],
   "note": ""
  },
  {
   "property": "C23",
   "status": "proved",
   "theorems": [
    "C23_bracket_shrinks"
   ],
   "note": ""
  },
  {
   "property": "C24",
   "status": "partial",
   "theorems": [
    "C24_left_end_admissible",
    "C24_iterable",
    "C24_left_end_admissible_plus",
    "C24_left_end_admissible_up_to_eps",
    "C24_zero_at_right_end_refuted",
    "C24_exact_sign_with_eps_refuted"
   ],
   "note": "proved in exact arithmetic (machine epsilon 0) when a zero at the right end is not approached from below, and up to a multiple of eps for the code's epsilon; the unconditional statement is refuted (zero with positive slope at the right end; eps > 0)."
  },
  {
   "property": "C25",
   "status": "proved",
   "theorems": [
    "C25_range",
    "C25_density_bounds",
    "C25_full_update_accepted"
   ],
   "note": ""
  },
  {
   "property": "C26",
   "status": "proved",
   "theorems": [
    "C26_entropy_bound",
    "C26_success_reported"
   ],
   "note": "exact arithmetic (machine epsilon 0), all lanes, budgets and tolerances."
  },
  {
   "property": "C27",
   "status": "proved",
   "theorems": [
    "C27_aeos_order",
    "C27_aeos_relaxed_contains",
    "C27_aeos_relaxed_positive",
    "C27_aeos_combine",
    "C27_euler_order",
    "C27_euler_relaxed_contains",
    "C27_euler_relaxed_positive",
    "C27_euler_combine",
    "C27_sw_order",
    "C27_sw_relaxed_contains",
    "C27_sw_combine",
    "C27_scalar_order",
    "C27_scalar_relaxed_contains",
    "C27_scalar_combine"
   ],
   "note": "Order independence and containment for the four equations (for shallow water without the kinetic energy entry of the right argument, see C69)."
  },
  {
   "property": "C28",
   "status": "proved",
   "theorems": [
    "C28_range",
    "C28_depth_bounds",
    "C28_full_update_accepted",
    "C28_success_reported",
    "C28_failure_reported"
   ],
   "note": ""
  },
  {
   "property": "C29",
   "status": "proved",
   "theorems": [
    "C29_velocity_bound"
   ],
   "note": ""
  },
  {
   "property": "C30",
   "status": "proved",
   "theorems": [
    "C30_range",
    "C30_bounds",
    "C30_full_update_accepted",
    "C30_largest",
    "C30_success_reported",
    "C30_failure_reported"
   ],
   "note": ""
  },
  {
   "property": "C31",
   "status": "proved",
   "theorems": [
    "C31_euler_bijection",
    "C31_euler_expand",
    "C31_euler_initial",
    "C31_aeos_bijection",
    "C31_aeos_expand",
    "C31_aeos_initial",
    "C31_sw_bijection",
    "C31_sw_expand",
    "C31_sw_initial"
   ],
   "note": ""
  },
  {
   "property": "C32",
   "status": "proved",
   "theorems": [
    "C32_euler_kinds",
    "C32_aeos_kinds",
    "C32_sw_kinds",
    "C32_scalar_kinds",
    "C32_euler_slip",
    "C32_euler_no_slip",
    "C32_euler_admissible",
    "C32_aeos_slip",
    "C32_aeos_no_slip",
    "C32_aeos_admissible",
    "C32_sw_slip",
    "C32_sw_no_slip"
   ],
   "note": ""
  },
  {
   "property": "C33",
   "status": "proved",
   "theorems": [
    "C33_euler_consistent",
    "C33_euler_regimes",
    "C33_sw_consistent",
    "C33_sw_regimes"
   ],
   "note": ""
  },
  {
   "property": "C34",
   "status": "proved",
   "theorems": [
    "C34_euler_flux",
    "C34_euler_covariant",
    "C34_euler_conservative",
    "C34_aeos_flux",
    "C34_aeos_covariant",
    "C34_aeos_conservative",
    "C34_sw_flux",
    "C34_sw_covariant",
    "C34_sw_flat",
    "C34_sw_flat_high_order",
    "C34_sw_mass"
   ],
   "note": ""
  },
  {
   "property": "C35",
   "status": "proved",
   "theorems": [
    "C35_euler_harten",
    "C35_euler_internal_energy",
    "C35_euler_mathematical",
    "C35_euler_limiter",
    "C35_aeos_internal_energy",
    "C35_aeos_harten",
    "C35_aeos_limiter",
    "C35_sw_entropy"
   ],
   "note": ""
  },
  {
   "property": "C36",
   "status": "proved",
   "theorems": [
    "C36_euler_range",
    "C36_euler_defined",
    "C36_euler_uniform",
    "C36_euler_order",
    "C36_aeos_range",
    "C36_aeos_defined",
    "C36_aeos_uniform",
    "C36_aeos_order",
    "C36_sw_range",
    "C36_sw_uniform",
    "C36_sw_order",
    "C36_scalar_range",
    "C36_scalar_uniform",
    "C36_scalar_order"
   ],
   "note": ""
  },
  {
   "property": "C37",
   "status": "partial",
   "theorems": [
    "C37_exact_exists",
    "C37_wave_speed_partial",
    "C37_vacuum",
    "C37_characteristics",
    "C37_mixed_refuted"
   ],
   "note": "proved for two rarefactions, two shocks and vacuum (all gamma in (1,5/3], any tolerance, any number of Newton iterations in exact arithmetic), with existence of the exact solution, and for the acoustic characteristics of all pairs. Refuted for the shock-rarefaction regime: the failsafe pressure is not an upper bound there and the computed speed is about 1% too small."
  },
  {
   "property": "C38",
   "status": "partial",
   "theorems": [
    "C38_exact_exists",
    "C38_wave_speed_partial",
    "C38_vacuum",
    "C38_characteristics",
    "C38_pinf_refuted"
   ],
   "note": "proved for pinf = 0 (every gamma > 1, covolume, both modes), for the vacuum case and for all configurations with pinf > 0 except two shocks, where it is refuted."
  },
  {
   "property": "C39",
   "status": "proved",
   "theorems": [
    "C39_wave_speed",
    "C39_regularised_depth",
    "C39_dry_front_refuted"
   ],
   "note": "proved for all pairs of wet states (existence of the exact solution and the bound for all its signals) and for all states with the depth raised to the cutoff. The unregularised claim for a dry neighbour is refuted: the computed speed is smaller than the exact speed of the dry front."
  },
  {
   "property": "C40",
   "status": "proved",
   "theorems": [
    "C40_convex",
    "C40_bar_state",
    "C40_separated"
   ],
   "note": ""
  },
  {
   "property": "C41",
   "status": "partial",
   "theorems": [
    "C41_function",
    "C41_function_parse",
    "C41_function_polytropic",
    "C41_polytropic",
    "C41_noble_abel",
    "C41_van_der_waals",
    "C41_jwl_partial",
    "C41_jwl_refuted"
   ],
   "note": "proved for polytropic, Noble-Abel stiffened gas, van der Waals and the default expressions of the equation of state given by expressions; Jones-Wilkins-Lee proved for q_0 = 0, refuted otherwise (specific_internal_energy omits q_0)."
  },
  {
   "property": "C42",
   "status": "partial",
   "theorems": [
    "C42_function",
    "C42_polytropic",
    "C42_noble_abel",
    "C42_van_der_waals",
    "C42_jwl_partial",
    "C42_jwl_refuted"
   ],
   "note": "proved for polytropic, Noble-Abel stiffened gas, van der Waals and the default expressions of the equation of state given by expressions; Jones-Wilkins-Lee proved for omega = 1 and q_0 = 0, refuted for omega = 1/2 (the exponent of the exponentials is -1/(t omega) instead of -omega/t)."
  },
  {
   "property": "C43",
   "status": "partial",
   "theorems": [
    "C43_surrogate",
    "C43_cycle0",
    "C43_exchange",
    "C43_two_cycles",
    "C43_vector_values_partial",
    "C43_vector_exchange_partial",
    "C43_vector_rows_refuted",
    "C43_vector_exchange_refuted"
   ],
   "note": "proved for the scalar interface (values, halo exchange, minimum over the stencil, any order); the interface with arrays uses the row length and the export test of row i instead of offset + i and is refuted, with partial theorems where this does no harm."
  },
  {
   "property": "C44",
   "status": "partial",
   "theorems": [
    "C44_star_states",
    "C44_step",
    "C44_wet_step",
    "C44_verdict",
    "C44_thin_layer_refuted"
   ],
   "note": "Depths are zero or at least the cut off depths (C44_thin_layer_refuted shows that this is needed). C44_step excludes a discontinuous ansatz with only the kinetic energy limiter option at a shoreline, where combine_bounds is wrong (C69)."
  },
  {
   "property": "C45",
   "status": "proved",
   "theorems": [
    "C45_damps",
    "C45_h_star",
    "C45_manning"
   ],
   "note": ""
  },
  {
   "property": "C46",
   "status": "proved",
   "theorems": [
    "C46_inverse_depth",
    "C46_velocity"
   ],
   "note": ""
  },
  {
   "property": "C47",
   "status": "partial",
   "theorems": [
    "C47_once",
    "C47_first_level",
    "C47_terminates",
    "C47_late_refuted",
    "C47_zero_multiplier_refuted"
   ],
   "note": "C47_once, C47_first_level, C47_terminates hold for all runs; the full statement fails for steps larger than the granularity (C47_late_refuted) and a zero multiplier is undefined behaviour even when the output is disabled (C47_zero_multiplier_refuted)."
  },
  {
   "property": "C48",
   "status": "partial",
   "theorems": [
    "C48_resume",
    "C48_time_zero",
    "C48_analytic_refuted",
    "C48_adaptation_refuted",
    "C48_bounds_refuted",
    "C48_statistics_refuted"
   ],
   "note": "C48_resume covers runs without error computation and statistics, with bounds recomputed, and with no adaptation point before the checkpoint; each excluded case is refuted by a concrete run."
  },
  {
   "property": "C49",
   "status": "partial",
   "theorems": [
    "C49_never_mixed",
    "C49_completed",
    "C49_latest",
    "C49_old_survives",
    "C49_crash_refuted",
    "C49_two_crashes_refuted"
   ],
   "note": "consistency is proved for all crash histories; that one of the two checkpoints is found by resume is false (two refutations)."
  },
  {
   "property": "C50",
   "status": "partial",
   "theorems": [
    "C50_exactly_once",
    "C50_adapted",
    "C50_last_interval_refuted"
   ],
   "note": "C50_exactly_once characterises the adaptations of every finished run; C50_last_interval_refuted: points first reached at the last level are skipped."
  },
  {
   "property": "C51",
   "status": "partial",
   "theorems": [
    "C51_average",
    "C51_series",
    "C51_one_file",
    "C51_mean_bounds",
    "C51_tiling_refuted",
    "C51_header_refuted",
    "C51_adaptation_refuted"
   ],
   "note": "C51_average, C51_series, C51_mean_bounds hold for every sequence of calls; refuted: no gap with clearing (C51_tiling_refuted), header for every series (C51_header_refuted), no loss on mesh adaptation (C51_adaptation_refuted)."
  },
  {
   "property": "C52",
   "status": "proved",
   "theorems": [
    "C52_tables",
    "C52_names",
    "C52_round_trip",
    "C52_missing"
   ],
   "note": "All seven tables of the code; a generic theorem for every complete table with distinct names."
  },
  {
   "property": "C53",
   "status": "proved",
   "theorems": [
    "C53_shipped",
    "C53_success",
    "C53_only_selected",
    "C53_order",
    "C53_twice",
    "C53_second_call"
   ],
   "note": "Two equal registrations are reported only after the first time loop has been run (C53_twice); a second call on the same object with an unknown name is not reported (C53_second_call)."
  },
  {
   "property": "C54",
   "status": "partial",
   "theorems": [
    "C54_inverse",
    "C54_isometry",
    "C54_distances",
    "C54_aligned_2d",
    "C54_aligned_3d",
    "C54_opposite_refuted",
    "C54_diagonal_refuted",
    "C54_1d_refuted",
    "C54_normalize",
    "C54_state",
    "C54_unknown"
   ],
   "note": "the alignment with the prescribed direction is false in 1d for direction -1 and in 3d unless the second or third component vanishes and the first is nonnegative (three refutations)."
  },
  {
   "property": "C55",
   "status": "partial",
   "theorems": [
    "C55_groups",
    "C55_total",
    "C55_indices",
    "C55_sorted",
    "C55_unit",
    "C55_rays",
    "C55_slip_once",
    "C55_corner",
    "C55_once_refuted"
   ],
   "note": "the exact accounting holds for at most two contributions per degree of freedom or flat sides 60 degrees apart; refuted for a bevelled 3d vertex (C55_once_refuted)"
  },
  {
   "property": "C56",
   "status": "proved",
   "theorems": [
    "C56_exact",
    "C56_once",
    "C56_symmetric"
   ],
   "note": ""
  },
  {
   "property": "C57",
   "status": "proved",
   "theorems": [
    "C57_accepts",
    "C57_extract",
    "C57_shipped"
   ],
   "note": "Locally owned entries; ghost values are updated by the callers."
  },
  {
   "property": "C58",
   "status": "proved",
   "theorems": [
    "C58_max_min",
    "C58_decomposition"
   ],
   "note": ""
  },
  {
   "property": "C59",
   "status": "partial",
   "theorems": [
    "C59_exchange_partial",
    "C59_mutual",
    "C59_columns",
    "C59_diagonal_refuted",
    "C59_isolated_refuted",
    "C59_stale_refuted"
   ],
   "note": "the full statement is false: ghost diagonals stay stale when the owner has no ghost of the receiver (C59_diagonal_refuted), the exchange hangs when a rank without ghosts has indices that are ghosts elsewhere (C59_isolated_refuted), and a reinit without ghosts keeps old targets (C59_stale_refuted). Proved for all other entries and partitions (C59_exchange_partial), and for all entries when ghosts are mutual (C59_mutual)."
  },
  {
   "property": "C60",
   "status": "proved",
   "theorems": [
    "C60_strang_ssprk_33_cn",
    "C60_strang_erk_33_cn",
    "C60_strang_erk_43_cn",
    "C60_imex_11",
    "C60_midpoint"
   ],
   "note": ""
  },
  {
   "property": "C61",
   "status": "partial",
   "theorems": [
    "C61_unlimited_update",
    "C61_boundary_rows_refuted",
    "C61_sources_refuted"
   ],
   "note": "proved where diagonal fluxes vanish and without sources; refuted at boundary rows and for source terms."
  },
  {
   "property": "C62",
   "status": "partial",
   "theorems": [
    "C62_independence",
    "C62_step_size",
    "C62_discontinuous_refuted"
   ],
   "note": "proved for a continuous ansatz; refuted for a discontinuous one."
  },
  {
   "property": "C63",
   "status": "proved",
   "theorems": [
    "C63_range",
    "C63_density_bounds",
    "C63_full_update_accepted"
   ],
   "note": ""
  },
  {
   "property": "C64",
   "status": "proved",
   "theorems": [
    "C64_entropy_bound",
    "C64_success_reported"
   ],
   "note": "exact arithmetic (machine epsilon 0), all lanes, budgets and tolerances."
  },
  {
   "property": "C65",
   "status": "partial",
   "theorems": [
    "C65_cap_partial",
    "C65_cap_refuted"
   ],
   "note": "the relaxed bound is untouched while it is at most 1/b; the statement is refuted (a uniform stencil with b rho = 0.95 gets an upper bound beyond 1/b)."
  },
  {
   "property": "C66",
   "status": "proved",
   "theorems": [
    "C66_kinetic_bound",
    "C66_kinetic_largest"
   ],
   "note": ""
  },
  {
   "property": "C67",
   "status": "partial",
   "theorems": [
    "C67_square_velocity_largest_refuted"
   ],
   "note": "Refuted: the derivative used by the square velocity line search misses a factor; the returned coefficient can be far smaller than the largest one."
  },
  {
   "property": "C68",
   "status": "partial",
   "theorems": [
    "C68_depth_only_refuted"
   ],
   "note": "Refuted: with both options off the lower end of the bracket is returned."
  },
  {
   "property": "C69",
   "status": "partial",
   "theorems": [
    "C69_combine_kinetic_refuted"
   ],
   "note": "Refuted: the left kinetic energy is used twice."
  },
  {
   "property": "C70",
   "status": "partial",
   "theorems": [
    "C70_exact_bounds_refuted"
   ],
   "note": "Refuted for negative upper bounds; C30 gives the sharp slack."
  },
  {
   "property": "C71",
   "status": "proved",
   "theorems": [
    "C71_kruzkov"
   ],
   "note": ""
  },
  {
   "property": "C72",
   "status": "partial",
   "theorems": [
    "C72_kpp_refuted"
   ],
   "note": "Refuted: KPP with states closer than twice delta."
  },
  {
   "property": "C73",
   "status": "partial",
   "theorems": [
    "C73_aeos_nonneg",
    "C73_aeos_symmetric",
    "C73_aeos_tie_refuted",
    "C73_euler_symmetric",
    "C73_euler_nonneg",
    "C73_shallow_symmetric",
    "C73_shallow_nonneg",
    "C73_scalar_symmetric",
    "C73_scalar_nonneg"
   ],
   "note": "proved for shallow water, Euler and scalar equations and for the arbitrary equation of state except equal pressures with gamma > 5/3 (interpolated bounds) or pinf > 0; refuted there."
  },
  {
   "property": "C74",
   "status": "partial",
   "theorems": [
    "C74_function",
    "C74_jwl",
    "C74_polytropic_partial",
    "C74_noble_abel_partial",
    "C74_van_der_waals_partial",
    "C74_polytropic_refuted",
    "C74_noble_abel_refuted",
    "C74_van_der_waals_refuted"
   ],
   "note": "proved for Jones-Wilkins-Lee, for the default expressions of the equation of state given by expressions, and for the default gamma and R of the three other gases; refuted for other gamma, as cv_ is computed from the defaults in the constructor and never updated."
  },
  {
   "property": "C75",
   "status": "partial",
   "theorems": [
    "C75_polytropic",
    "C75_noble_abel",
    "C75_polytropic_sound",
    "C75_noble_abel_sound",
    "C75_van_der_waals",
    "C75_van_der_waals_refuted"
   ],
   "note": "proved for polytropic and Noble-Abel stiffened gas; for van der Waals the range of gamma is proved for admissible states, and the equivalence of admissible and physical is refuted."
  },
  {
   "property": "C76",
   "status": "proved",
   "theorems": [
    "C76_base",
    "C76_sesame_pressure",
    "C76_sesame_sie"
   ],
   "note": ""
  },
  {
   "property": "C77",
   "status": "proved",
   "theorems": [
    "C77_depth_nonneg"
   ],
   "note": "for all states with nonnegative depth."
  },
  {
   "property": "C78",
   "status": "proved",
   "theorems": [
    "C78_depth_bounds"
   ],
   "note": ""
  },
  {
   "property": "C79",
   "status": "proved",
   "theorems": [
    "C79_volume"
   ],
   "note": ""
  },
  {
   "property": "C80",
   "status": "proved",
   "theorems": [
    "C80_filters"
   ],
   "note": "The filters are compared with a specification that knows only the cut off."
  },
  {
   "property": "C81",
   "status": "proved",
   "theorems": [
    "C81_conservation"
   ],
   "note": "Boundary conditions are applied outside this update; hypothesis: c_ij skew symmetric on all pairs."
  },
  {
   "property": "C82",
   "status": "proved",
   "theorems": [
    "C82_positivity",
    "C82_estimate_positive"
   ],
   "note": "For the default of zero Newton iterations and gamma <= 5/3; exact arithmetic."
  },
  {
   "property": "C83",
   "status": "proved",
   "theorems": [
    "C83_density"
   ],
   "note": "Exact arithmetic. Hypotheses: pairwise viscosities above 100 times the smallest positive number, relaxation window not reaching zero."
  },
  {
   "property": "C84",
   "status": "proved",
   "theorems": [
    "C84_entropy",
    "C84_verdict"
   ],
   "note": "Machine epsilon relaxation set to zero; conditional on the low-order entropy bound."
  },
  {
   "property": "C85",
   "status": "proved",
   "theorems": [
    "C85_accepted"
   ],
   "note": "Machine epsilon relaxation set to zero."
  },
  {
   "property": "C86",
   "status": "partial",
   "theorems": [
    "C86_bounded",
    "C86_sign",
    "C86_later",
    "C86_admissible_refuted"
   ],
   "note": "the bound and the positivity of density and depth are proved; the positivity of the internal energy is refuted."
  },
  {
   "property": "C87",
   "status": "partial",
   "theorems": [
    "C87_level",
    "C87_complete_refuted",
    "C87_owned_refuted"
   ],
   "note": "refuted both ways: entries of the level can be missing, and entries of other ranks can be present"
  },
  {
   "property": "C88",
   "status": "proved",
   "theorems": [
    "C88_vortex"
   ],
   "note": ""
  },
  {
   "property": "C89",
   "status": "partial",
   "theorems": [
    "C89_shock_front",
    "C89_covolume_refuted"
   ],
   "note": "Proved for the ideal gas. Refuted for a covolume: the density and pressure behind the shock are computed with the formulas of an ideal gas."
  },
  {
   "property": "C90",
   "status": "proved",
   "theorems": [
    "C90_rarefaction"
   ],
   "note": ""
  },
  {
   "property": "C91",
   "status": "proved",
   "theorems": [
    "C91_leblanc"
   ],
   "note": ""
  },
  {
   "property": "C92",
   "status": "partial",
   "theorems": [
    "C92_noh",
    "C92_noh_iff",
    "C92_noh_refuted"
   ],
   "note": "Proved in one dimension without pressure and in every dimension for unit velocity and vanishing pressure; equivalence for the exterior state; refuted for other parameters in two dimensions."
  },
  {
   "property": "C93",
   "status": "proved",
   "theorems": [
    "C93_smooth_wave"
   ],
   "note": ""
  },
  {
   "property": "C94",
   "status": "proved",
   "theorems": [
    "C94_ramp_up"
   ],
   "note": ""
  },
  {
   "property": "C95",
   "status": "partial",
   "theorems": [
    "C95_icf",
    "C95_gamma_refuted"
   ],
   "note": "Proved for gamma = 1.4, refuted for other ratios: the member gamma_ of the initial state is never set to the gamma of the equation."
  },
  {
   "property": "C96",
   "status": "partial",
   "theorems": [
    "C96_becker",
    "C96_velocity_partial",
    "C96_velocity_refuted"
   ],
   "note": "Existence, uniqueness and the Navier-Stokes equations are proved. The error bound of the root finder holds where it stops with a small residual; C96_velocity_refuted shows that there is none where it stops because of a small Newton step."
  },
  {
   "property": "C97",
   "status": "proved",
   "theorems": [
    "C97_ritter"
   ],
   "note": "No classical solution is claimed at the two kinks of the fan, where the state is continuous but not differentiable."
  },
  {
   "property": "C98",
   "status": "partial",
   "theorems": [
    "C98_paraboloid_2d",
    "C98_paraboloid_1d",
    "C98_manning_iff",
    "C98_manning_refuted"
   ],
   "note": "The friction clause is false: the closed formula belongs to a linear friction, the equation uses Manning's law with the same coefficient."
  },
  {
   "property": "C99",
   "status": "partial",
   "theorems": [
    "C99_vortex",
    "C99_bathymetry_iff",
    "C99_bathymetry_refuted"
   ],
   "note": "False with bathymetry and nonzero Mach number (the default is 2): the ground does not move with the vortex."
  },
  {
   "property": "C100",
   "status": "proved",
   "theorems": [
    "C100_slope"
   ],
   "note": ""
  },
  {
   "property": "C101",
   "status": "partial",
   "theorems": [
    "C101_crest",
    "C101_jump_refuted",
    "C101_seam_refuted",
    "C101_subsonic",
    "C101_transcritical_partial",
    "C101_downstream_refuted"
   ],
   "note": "Upstream of the jump (with the crest) the flow is a steady solution. False for 11.7 < x < 12 (C101_downstream_refuted), at the jump (C101_jump_refuted: the momentum fluxes differ by more than 1/200 of about 1/2) and for points exactly on it (C101_seam_refuted)."
  },
  {
   "property": "C102",
   "status": "proved",
   "theorems": [
    "C102_galerkin",
    "C102_symmetric",
    "C102_definite",
    "C102_lumped",
    "C102_constrained",
    "C102_expansion",
    "C102_integral",
    "C102_measure",
    "C102_positive"
   ],
   "note": ""
  },
  {
   "property": "C103",
   "status": "proved",
   "theorems": [
    "C103_continuous",
    "C103_discontinuous",
    "C103_row_sum",
    "C103_boundary",
    "C103_skew",
    "C103_column_sum",
    "C103_faces_cancel"
   ],
   "note": ""
  },
  {
   "property": "C104",
   "status": "partial",
   "theorems": [
    "C104_inverse",
    "C104_inverse_symmetric",
    "C104_incidence_symmetric",
    "C104_encounters",
    "C104_once_refuted"
   ],
   "note": "Inverse and symmetry are proved; 'precisely once' (comment in the code) fails when two cells share two faces: C104_once_refuted. C104_encounters gives the value in all cases."
  },
  {
   "property": "C105",
   "status": "partial",
   "theorems": [
    "C105_with_trilinos",
    "C105_without_trilinos",
    "C105_uncompressed",
    "C105_measure",
    "C105_measure_without",
    "C105_measure_refuted"
   ],
   "note": "All matrices are independent of the ranks; measure_of_omega() is not without Trilinos, where the loop runs over ghost cells too: C105_measure_refuted, exact value in C105_measure_without."
  },
  {
   "property": "C106",
   "status": "proved",
   "theorems": [
    "C106_outside",
    "C106_mesh",
    "C106_conservation",
    "C106_uniform"
   ],
   "note": ""
  },
  {
   "property": "C107",
   "status": "proved",
   "theorems": [
    "C107_density",
    "C107_momentum",
    "C107_energy"
   ],
   "note": "Only a nonzero density is assumed."
  },
  {
   "property": "C108",
   "status": "partial",
   "theorems": [
    "C108_no_slip",
    "C108_slip",
    "C108_slip_length",
    "C108_dirichlet_velocity",
    "C108_dirichlet_energy",
    "C108_slip_refuted"
   ],
   "note": "Proved for no slip, Dirichlet and orthonormal slip normals; false where two slip walls meet at an angle other than a right one: C108_slip_refuted. C108_slip_length gives the normal velocity for a normal whose length is not exactly one."
  },
  {
   "property": "C109",
   "status": "proved",
   "theorems": [
    "C109_mass",
    "C109_energy",
    "C109_tolerance",
    "C109_momentum",
    "C109_rigid",
    "C109_kinetic"
   ],
   "note": ""
  },
  {
   "property": "C110",
   "status": "partial",
   "theorems": [
    "C110_minimum",
    "C110_flag",
    "C110_nonnegative",
    "C110_flag_refuted"
   ],
   "note": "The minimum principle and the check without constraints are proved; with constrained degrees of freedom the check compares with zero entries: C110_flag_refuted; C110_nonnegative is what remains."
  },
  {
   "property": "C111",
   "status": "partial",
   "theorems": [
    "C111_density",
    "C111_total",
    "C111_momentum",
    "C111_energy",
    "C111_kinetic",
    "C111_positive_refuted"
   ],
   "note": "Midpoint equations and balances are proved; positivity is not checked after the extrapolation: C111_positive_refuted."
  },
  {
   "property": "C112",
   "status": "proved",
   "theorems": [
    "C112_unique",
    "C112_rigid",
    "C112_guess",
    "C112_inviscid"
   ],
   "note": ""
  },
  {
   "property": "C113",
   "status": "partial",
   "theorems": [
    "C113_euler_verdict",
    "C113_euler_density",
    "C113_euler_closed_refuted",
    "C113_aeos_verdict",
    "C113_aeos_density",
    "C113_aeos_closed_refuted",
    "C113_sw_verdict",
    "C113_sw_closed_refuted"
   ],
   "note": "Proved unless the density bound leaves no positive coefficient; then a violation of the entropy (velocity) bound is returned with success: C113_euler_closed_refuted, C113_aeos_closed_refuted, C113_sw_closed_refuted."
  },
  {
   "property": "C114",
   "status": "partial",
   "theorems": [
    "C114_conservation",
    "C114_one_rank",
    "C114_ranks_refuted"
   ],
   "note": "C114_conservation: any number of ranks without random entropies; C114_one_rank: with random entropies on one rank; C114_ranks_refuted: with random entropies and two ranks the integral changes, because each rank draws its own numbers for the pairs across the interface. (The generator is moreover a static of the lambda shared by all threads; the data race is not modelled.)"
  },
  {
   "property": "C115",
   "status": "partial",
   "theorems": [
    "C115_low_order",
    "C115_kpp_refuted"
   ],
   "note": "Proved for convex or concave fluxes with the default estimate, and for every flux when neighbouring values are equal or at least two delta apart; refuted for KPP with close values (C115_kpp_refuted), with and without the greedy estimate."
  },
  {
   "property": "C116",
   "status": "proved",
   "theorems": [
    "C116_inside",
    "C116_verdict"
   ],
   "note": "At most two limiter passes as in C20; for negative upper bounds the limiter itself leaves its bounds by eps |u_max| (C70)."
  },
  {
   "property": "C117",
   "status": "proved",
   "theorems": [
    "C117_local",
    "C117_relaxed",
    "C117_run"
   ],
   "note": "C117_local, C117_run: relaxation factor 0; C117_relaxed: window r_i |u| with relaxation. Data of both signs: only with machine epsilon 0 (see C70)."
  },
  {
   "property": "C118",
   "status": "proved",
   "theorems": [
    "C118_schlieren",
    "C118_vorticity_2d",
    "C118_vorticity_3d"
   ],
   "note": "Hypothesis: on the stencil the discrete gradient is exact for affine functions (a property of the finite element and the mesh, shown for two stencils)."
  },
  {
   "property": "C119",
   "status": "partial",
   "theorems": [
    "C119_range",
    "C119_order",
    "C119_strict",
    "C119_extremes",
    "C119_ranks",
    "C119_history",
    "C119_history_refuted",
    "C119_kept",
    "C119_first"
   ],
   "note": "History independence is refuted with constrained (e.g. periodic) rows, proved without; with kept bounds values are comparable from the second cycle on. Values of ghost rows are taken to be those of their owners."
  },
  {
   "property": "C120",
   "status": "partial",
   "theorems": [
    "C120_accepted",
    "C120_schlieren",
    "C120_vorticity",
    "C120_range_refuted",
    "C120_distinct"
   ],
   "note": "Range of vorticity reads refuted for accepted names that are not the first component of a vector; proved for momentum and velocity and for all schlieren names."
  },
  {
   "property": "C121",
   "status": "partial",
   "theorems": [
    "C121_exact",
    "C121_only_exact",
    "C121_sum",
    "C121_units",
    "C121_ranks",
    "C121_vanishing",
    "C121_normalized_refuted",
    "C121_debug_none",
    "C121_debug_refuted"
   ],
   "note": "A number is not reported (NaN) with normalization if a selected component of the analytic solution vanishes, and in debug builds with constrained degrees of freedom. integrate_difference of deal.II is modelled as quadrature."
  },
  {
   "property": "C122",
   "status": "partial",
   "theorems": [
    "C122_one_rank",
    "C122_ranks",
    "C122_ranks_refuted"
   ],
   "note": "Proved on one rank, and on several ranks if neighbours on different ranks have different pressures, or surrogate gammas of at most 5/3, or strict bounds are used with pinf = 0; refuted otherwise, the total density may grow."
  },
  {
   "property": "C123",
   "status": "partial",
   "theorems": [
    "C123_admissible",
    "C123_covolume",
    "C123_invariant",
    "C123_compatible",
    "C123_covolume_refuted"
   ],
   "note": "Positivity of density, of the internal energy above the cold energy and of the pressure is proved; the bound 1/b on the density is proved for pinf = 0 and refuted for pinf > 0."
  },
  {
   "property": "C124",
   "status": "partial",
   "theorems": [
    "C124_bounds_partial",
    "C124_unrelaxed"
   ],
   "note": "Proved without further conditions for a continuous ansatz without relaxation of the bounds or with b = 0 (C124_unrelaxed). C124_bounds_partial covers the remaining cases under two conditions on the bounds: below 1/b (the code caps the relaxed bound with (gamma+1) rho/(gamma-1+2 b rho), which does not keep it below 1/b, see C65_cap_refuted) and, for a discontinuous ansatz, above 1/(1+b) (see C125_extended_refuted)."
  },
  {
   "property": "C125",
   "status": "partial",
   "theorems": [
    "C125_combine",
    "C125_extended_refuted"
   ],
   "note": "Refuted in general (C125_extended_refuted); proved for equal gammas or specific volume at most 1 + b."
  },
  {
   "property": "C126",
   "status": "proved",
   "theorems": [
    "C126_thin"
   ],
   "note": ""
  },
  {
   "property": "C127",
   "status": "proved",
   "theorems": [
    "C127_euler",
    "C127_aeos",
    "C127_sw"
   ],
   "note": ""
  },
  {
   "property": "C128",
   "status": "proved",
   "theorems": [
    "C128_burgers",
    "C128_kpp",
    "C128_formulas",
    "C128_between",
    "C128_quadratic",
    "C128_default"
   ],
   "note": ""
  },
  {
   "property": "C129",
   "status": "proved",
   "theorems": [
    "C129_bar",
    "C129_pair",
    "C129_minimum",
    "C129_computed",
    "C129_step"
   ],
   "note": "C129_bar and C129_minimum for viscosities that resolve the exact waves, C129_pair, C129_computed and C129_step with the computed viscosity for all pairs of states. Newton iterations and the limited step with machine epsilon zero."
  },
  {
   "property": "C130",
   "status": "partial",
   "theorems": [
    "C130_value",
    "C130_pixel",
    "C130_range",
    "C130_affine",
    "C130_continuous",
    "C130_outside_partial",
    "C130_undefined",
    "C130_outside_refuted",
    "C130_file",
    "C130_size_refuted",
    "C130_centre_refuted",
    "C130_water"
   ],
   "note": "C130_outside_refuted: left of or above the image a negative number is converted to unsigned int, which is undefined instead of the announced exception. C130_size_refuted: the product of the image sizes overflows for large images. C130_centre_refuted: with the origin of the file, GDAL's transformation refers to corners of pixels, the code uses it for their values (half a pixel off)."
  },
  {
   "property": "C131",
   "status": "proved",
   "theorems": [
    "C131_trace",
    "C131_step",
    "C131_run",
    "C131_forward_euler",
    "C131_conservation",
    "C131_completes"
   ],
   "note": "Substeps after the first are assumed to respect the CFL condition (the code does not check it); machine epsilon zero; no dynamic boundary conditions."
  },
  {
   "property": "C132",
   "status": "proved",
   "theorems": [
    "C132_step",
    "C132_run",
    "C132_volume",
    "C132_completes"
   ],
   "note": "Rows whose c_ij, i not j, are not skew (several neighbouring degrees of freedom on a wall in 2D/3D) are outside C132_volume; C79 says what changes there."
  },
  {
   "property": "C133",
   "status": "proved",
   "theorems": [
    "C133_step",
    "C133_run",
    "C133_speed",
    "C133_transport",
    "C133_total",
    "C133_completes"
   ],
   "note": "For nonlinear fluxes the interval is shown for steps whose substeps respect the proposals of their own vectors (automatic for forward Euler); the later Runge-Kutta stages of the code do not check this. Positive relaxation factors and the greedy option are outside."
  },
  {
   "property": "C134",
   "status": "partial",
   "theorems": [
    "C134_files",
    "C134_names",
    "C134_width",
    "C134_selected",
    "C134_plane",
    "C134_level",
    "C134_curved_refuted",
    "C134_owner",
    "C134_twice_refuted"
   ],
   "note": "C134_curved_refuted: a circle inside of a square cell is not found. C134_twice_refuted: ghost cells are written by every rank that has them. The pieces written without MPI IO and the patches (deal.II) are not modelled."
  },
  {
   "property": "C135",
   "status": "proved",
   "theorems": [
    "C135_step",
    "C135_run",
    "C135_forward_euler",
    "C135_total",
    "C135_completes"
   ],
   "note": "Positivity is shown for steps whose substeps respect the proposals of their own vectors (automatic for forward Euler when the viscosities are above the cut off); the later Runge-Kutta stages of the code do not check this. pinf > 0, and relaxation together with a covolume, are outside."
  },
  {
   "property": "C136",
   "status": "proved",
   "theorems": [
    "C136_conservation",
    "C136_uniform",
    "C136_positivity",
    "C136_ranks",
    "C136_checked",
    "C136_walls",
    "C136_untouched"
   ],
   "note": "The Strang schemes extrapolate and may lose positive internal energy (C111_positive_refuted), so positivity is proved for the first order scheme only. imex_22 and imex_33 throw in the parabolic module (stages not implemented)."
  },
  {
   "property": "C137",
   "status": "partial",
   "theorems": [
    "C137_sides",
    "C137_periodic",
    "C137_corners_refuted",
    "C137_film_refuted"
   ],
   "note": "refuted for swapped corners and for domains with cells thinner than 2e-8; proved otherwise"
  },
  {
   "property": "C138",
   "status": "partial",
   "theorems": [
    "C138_wall",
    "C138_wall_front_refuted",
    "C138_step_conforming",
    "C138_step",
    "C138_step_position_refuted",
    "C138_corner",
    "C138_arc",
    "C138_tank",
    "C138_tank_default_refuted",
    "C138_cylinder"
   ],
   "note": "refuted for steps elsewhere than at a fifth of the length, for other lengths or step heights (circle), for the bottom in front of the wall and for the default wave tank; proved otherwise"
  },
  {
   "property": "C139",
   "status": "partial",
   "theorems": [
    "C139_round_trip",
    "C139_chart",
    "C139_center_refuted",
    "C139_curve",
    "C139_abscissa",
    "C139_seam",
    "C139_seam_lower",
    "C139_clone",
    "C139_grading",
    "C139_between",
    "C139_flat",
    "C139_cut",
    "C139_extruded"
   ],
   "note": "refuted at the center of the airfoil; round trips of the grading are only approximate (C139_grading); otherwise proved"
  },
  {
   "property": "C140",
   "status": "partial",
   "theorems": [
    "C140_ends",
    "C140_shape",
    "C140_symmetric",
    "C140_cambered_refuted",
    "C140_debug_refuted",
    "C140_seam",
    "C140_front",
    "C140_angles",
    "C140_trailing"
   ],
   "note": "refuted for cambered airfoils with many samples and for debug builds; otherwise proved"
  },
  {
   "property": "C141",
   "status": "proved",
   "theorems": [
    "C141_blend",
    "C141_edges",
    "C141_joins",
    "C141_blend_3",
    "C141_faces"
   ],
   "note": "proved; in three dimensions up to the stated error of the cutoff 1e-13"
  },
  {
   "property": "C142",
   "status": "proved",
   "theorems": [
    "C142_safe",
    "C142_start",
    "C142_solved",
    "C142_found",
    "C142_flat",
    "C142_mean",
    "C142_exists",
    "C142_guesses",
    "C142_secant"
   ],
   "note": "proved in two dimensions"
  },
  {
   "property": "C143",
   "status": "proved",
   "theorems": [
    "C143_uniform",
    "C143_contrast",
    "C143_three",
    "C143_radial",
    "C143_four",
    "C143_jet",
    "C143_placed"
   ],
   "note": "proved"
  },
  {
   "property": "C144",
   "status": "partial",
   "theorems": [
    "C144_euler",
    "C144_aeos",
    "C144_aeos_refuted"
   ],
   "note": "proved for the ideal gas; with arbitrary equations of state the pressure expression is used as specific internal energy (C144_aeos, C144_aeos_refuted)"
  },
  {
   "property": "C145",
   "status": "proved",
   "theorems": [
    "C145_regions",
    "C145_function",
    "C145_rest",
    "C145_inflow",
    "C145_islands",
    "C145_ridge",
    "C145_lake",
    "C145_run",
    "C145_hou",
    "C145_hou_ground",
    "C145_tank_state",
    "C145_tank"
   ],
   "note": "proved"
  },
  {
   "property": "C146",
   "status": "partial",
   "theorems": [
    "C146_wave",
    "C146_solution_refuted"
   ],
   "note": "wave, speed and mass equation proved; it does not solve the shallow water equations (C146_solution_refuted)"
  },
  {
   "property": "C147",
   "status": "partial",
   "theorems": [
    "C147_plane",
    "C147_gas_refuted",
    "C147_water_refuted"
   ],
   "note": "holds in two and three dimensions; in one dimension the jet, Hou's test and the tank experiments read the second coordinate, and the four states throw (C147_gas_refuted, C147_water_refuted)"
  },
  {
   "property": "C148",
   "status": "partial",
   "theorems": [
    "C148_remaining",
    "C148_reflect",
    "C148_wall",
    "C148_inside",
    "C148_outside",
    "C148_large_refuted",
    "C148_coverage_refuted",
    "C148_square",
    "C148_hole"
   ],
   "note": "Refuted in two ways: for outer radii of 4 or more cells outside of the annulus go too, and with the defaults a cell beyond the coverage angle goes. What holds is proved: cells of the ring up to a tolerance, none inside, none outside if the mesh is fine enough, the outer boundary is the square."
  },
  {
   "property": "C149",
   "status": "proved",
   "theorems": [
    "C149_gauss",
    "C149_lagrange",
    "C149_lobatto",
    "C149_partition",
    "C149_parts",
    "C149_positive",
    "C149_support",
    "C149_nodes",
    "C149_matching",
    "C149_continuous",
    "C149_ansatz",
    "C149_lumped",
    "C149_complete"
   ],
   "note": "For affine (box) cells; deal.II's classes are modelled by their definition."
  },
  {
   "property": "C150",
   "status": "partial",
   "theorems": [
    "C150_same",
    "C150_total",
    "C150_coarse_refuted",
    "C150_global",
    "C150_nodes",
    "C150_marks",
    "C150_merge",
    "C150_states",
    "C150_gas",
    "C150_quadratic_refuted"
   ],
   "note": "Refinement keeps function and totals for every ansatz and, with linear elements, every convex set of states. Coarsening with continuous elements loses mass and refinement with quadratic elements loses positivity (refuted). deal.II is modelled as documented; cells are boxes."
  },
  {
   "property": "C151",
   "status": "partial",
   "theorems": [
    "C151_resume",
    "C151_distorted_refuted",
    "C151_unknown",
    "C151_refined",
    "C151_marks",
    "C151_merge",
    "C151_mismatch"
   ],
   "note": "Proved without mesh distortion; refuted with it: the resumed run has other vertices. Flat manifolds only."
  },
  {
   "property": "C152",
   "status": "partial",
   "theorems": [
    "C152_mass",
    "C152_operators",
    "C152_energy",
    "C152_velocity",
    "C152_skew_refuted"
   ],
   "note": "Proved for the internal energy and for slip normals along the axes; refuted for skew slip normals (negative entries in the smoother's diagonal). Single precision of the levels is not modelled."
  },
  {
   "property": "C153",
   "status": "partial",
   "theorems": [
    "C153_setup",
    "C153_both",
    "C153_density_refuted",
    "C153_singular_refuted",
    "C153_tolerance",
    "C153_same",
    "C153_fallback"
   ],
   "note": "Proved: mesh and age of the level data, tolerance, same result. Refuted: with multigrid for the internal energy alone the level density stays zero and the level operators are singular."
  },
  {
   "property": "C154",
   "status": "partial",
   "theorems": [
    "C154_accuracy",
    "C154_range",
    "C154_overflow",
    "C154_exact",
    "C154_trivial",
    "C154_max_refuted",
    "C154_min_refuted",
    "C154_monotone_refuted",
    "C154_sign_refuted"
   ],
   "note": "Proved in exact arithmetic: relative error, exact powers of two, saturation, zero base and exponent. Refuted: the bias is ignored, the result is not monotone in the base, and the sign of the base is dropped."
  },
  {
   "property": "C155",
   "status": "partial",
   "theorems": [
    "C155_partition",
    "C155_shares",
    "C155_shares_refuted",
    "C155_skew",
    "C155_cpu_share",
    "C155_averages",
    "C155_cpu",
    "C155_final",
    "C155_eta",
    "C155_eta_refuted",
    "C155_resume_refuted",
    "C155_cast_refuted",
    "C155_eta_text",
    "C155_head",
    "C155_table",
    "C155_columns",
    "C155_collectives",
    "C155_interval",
    "C155_timers",
    "C155_running",
    "C155_timers_sum"
   ],
   "note": "Proved: averages, bounds of the estimate, text, layout, agreement of the ranks, interval, partition, skew and shares of the timers, timers of sections. Refuted: first estimate (factor five), estimate and step size after a resume, conversion of large estimates, percentages with an empty rank."
  },
  {
   "property": "C156",
   "status": "partial",
   "theorems": [
    "C156_status",
    "C156_files",
    "C156_progress",
    "C156_terminates",
    "C156_templates",
    "C156_names",
    "C156_overwrite_refuted",
    "C156_name_refuted"
   ],
   "note": "Refuted parts: a template that was edited but not renamed is overwritten; an executable whose name begins with default_parameters- may let the ranks wait for each other for ever. The rest is proved."
  },
  {
   "property": "C157",
   "status": "partial",
   "theorems": [
    "C157_interior",
    "C157_boundary",
    "C157_prepare",
    "C157_first",
    "C157_prepare_boundary",
    "C157_lines",
    "C157_nan_refuted",
    "C157_clash_refuted",
    "C157_ignored_refuted"
   ],
   "note": "Selection, masses, completeness for every distribution, and the pairing of value files with point files are proved. Refuted without side conditions: a point at which the formula is NaN is selected for interior manifolds; equal names of an interior and a boundary manifold overwrite files; a repeated name is ignored."
  },
  {
   "property": "C158",
   "status": "proved",
   "theorems": [
    "C158_read",
    "C158_gather",
    "C158_write",
    "C158_converted",
    "C158_write_converted",
    "C158_tensor",
    "C158_loop",
    "C158_completes",
    "C158_width",
    "C158_regular"
   ],
   "note": ""
  },
  {
   "property": "C159",
   "status": "partial",
   "theorems": [
    "C159_agree",
    "C159_copy",
    "C159_failure",
    "C159_terminates",
    "C159_race_refuted"
   ],
   "note": "proved for one rank and for all runs not started with the very file they write; refuted for several ranks started with the copy of an earlier run (rank 0 truncates <basename>-parameters.prm without waiting for the other ranks to have read it; these then start with default parameters)."
  },
  {
   "property": "C160",
   "status": "partial",
   "theorems": [
    "C160_selects",
    "C160_unknown",
    "C160_libraries",
    "C160_parse",
    "C160_parse_unknown",
    "C160_unlisted_refuted",
    "C160_eospac_refuted"
   ],
   "note": "Proved for all layouts, names and sequences of files. Refuted: every documented initial state can be chosen (circular dam break is in no list), and a parameter file means the same for every configuration (sesame / Sesame)."
  },
  {
   "property": "C161",
   "status": "partial",
   "theorems": [
    "C161_calls",
    "C161_scalar",
    "C161_gas",
    "C161_water",
    "C161_geotiff",
    "C161_threads",
    "C161_threads_refuted"
   ],
   "note": "Partial: holds for one thread and for threads asking for the same time, which is how the callers in the repository use it (the loops over threads evaluate at one fixed time); for threads asking for different times the claim is false (C161_threads_refuted). That deal.II's parser evaluates the expression correctly, per thread, is assumed."
  }
 ]
}