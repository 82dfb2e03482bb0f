{
 "claims": [
  {
   "property": "C01",
   "status": "proved",
   "theorems": [
    "C01_kepler_from_frequency",
    "C01_kepler_from_separation"
   ],
   "note": ""
  },
  {
   "property": "C02",
   "status": "proved",
   "theorems": [
    "C02_chirp_mass_equation",
    "C02_chirp_mass_scaling",
    "C02_chirp_mass_increasing"
   ],
   "note": ""
  },
  {
   "property": "C03",
   "status": "proved",
   "theorems": [
    "C03_separation_roundtrip",
    "C03_c0_roundtrip",
    "C03_separation_increasing"
   ],
   "note": ""
  },
  {
   "property": "C04",
   "status": "proved",
   "theorems": [
    "C04_peters_f_value",
    "C04_peters_f_circular_and_limit",
    "C04_peters_f_increasing"
   ],
   "note": ""
  },
  {
   "property": "C05",
   "status": "proved",
   "theorems": [
    "C05_published_formula",
    "C05_bessel_at_0",
    "C05_every_harmonic",
    "C05_peters_g_never_negative",
    "C05_peters_g_finite",
    "C05_peters_g_circular"
   ],
   "note": "Bessel routine is a parameter; the circular case assumes its values at 0 only."
  },
  {
   "property": "C06",
   "status": "proved",
   "theorems": [
    "C06_fn_dot_is_frequency_drift",
    "C06_fn_dot_linear_in_n",
    "C06_fn_dot_rejects"
   ],
   "note": ""
  },
  {
   "property": "C07",
   "status": "proved",
   "theorems": [
    "C07_trajectory_rates",
    "C07_trajectories_exist"
   ],
   "note": ""
  },
  {
   "property": "C08",
   "status": "proved",
   "theorems": [
    "C08_ensure_array_results",
    "C08_ensure_array_flag",
    "C08_ensure_array_idempotent"
   ],
   "note": ""
  },
  {
   "property": "C09",
   "status": "partial",
   "theorems": [
    "C09_value",
    "C09_strain",
    "C09_unit_independent",
    "C09_wrong_dimension",
    "C09_wrong_angle",
    "C09_strain_refuted",
    "C09_forgotten_distance_refuted",
    "C09_plain_zero"
   ],
   "note": "Refuted as stated for the strain amplitudes: h_0_n and h_c_n end with decompose().value and return numbers for masses, frequencies and distances of any dimension (C09_strain_refuted; a distance without a unit is read in metres, C09_forgotten_distance_refuted), and a plain 0, inf or nan passes as a mass in the Kepler conversions (C09_plain_zero). Proved: unit independence and documented units for every function, and unit errors for every other input of the wrong dimension."
  },
  {
   "property": "C10",
   "status": "proved",
   "theorems": [
    "C10_responses_nonnegative",
    "C10_total_independent_of_polarisation",
    "C10_rotation_by_45_degrees_swaps",
    "C10_cauchy_schwarz"
   ],
   "note": ""
  },
  {
   "property": "C11",
   "status": "proved",
   "theorems": [
    "C11_average_responses",
    "C11_average_modulation"
   ],
   "note": "Iterated Riemann integrals (Coquelicot RInt)."
  },
  {
   "property": "C12",
   "status": "proved",
   "theorems": [
    "C12_modulated_strain",
    "C12_located_snr_is_smaller",
    "C12_located_strain_is_smaller",
    "C12_modulation_between_0_and_1"
   ],
   "note": ""
  },
  {
   "property": "C13",
   "status": "proved",
   "theorems": [
    "C13_separation",
    "C13_frequency"
   ],
   "note": ""
  },
  {
   "property": "C14",
   "status": "proved",
   "theorems": [
    "C14_two_steps",
    "C14_history"
   ],
   "note": ""
  },
  {
   "property": "C15",
   "status": "proved",
   "theorems": [
    "C15_merged_iff",
    "C15_countdown"
   ],
   "note": ""
  },
  {
   "property": "C16",
   "status": "proved",
   "theorems": [
    "C16_same_frequency"
   ],
   "note": ""
  },
  {
   "property": "C17",
   "status": "proved",
   "theorems": [
    "C17_estimate_is_upper_bound",
    "C17_stationary_sources_barely_change"
   ],
   "note": ""
  },
  {
   "property": "C18",
   "status": "proved",
   "theorems": [
    "C18_monotone",
    "C18_merged_not_stationary",
    "C18_component_masses",
    "C18_missing_masses"
   ],
   "note": ""
  },
  {
   "property": "C19",
   "status": "proved",
   "theorems": [
    "C19_merger_time_bounds"
   ],
   "note": "quad is assumed exact on continuous integrands (quad_exact, inhabited by quad_model)."
  },
  {
   "property": "C20",
   "status": "proved",
   "theorems": [
    "C20_countdown"
   ],
   "note": "quad assumed exact (quad_exact)."
  },
  {
   "property": "C21",
   "status": "proved",
   "theorems": [
    "C21_array_is_scalar",
    "C21_crossed_tolerances_refuted"
   ],
   "note": "C21_crossed_tolerances_refuted shows the hypothesis small_e_tol <= large_e_tol is needed."
  },
  {
   "property": "C22",
   "status": "proved",
   "theorems": [
    "C22_accepts_iff",
    "C22_rejects_with_ValueError",
    "C22_values",
    "C22_population"
   ],
   "note": ""
  },
  {
   "property": "C23",
   "status": "proved",
   "theorems": [
    "C23_rows",
    "C23_row_shape",
    "C23_scalar_t_evol",
    "C23_default_is_merger_time",
    "C23_given_steps"
   ],
   "note": ""
  },
  {
   "property": "C24",
   "status": "proved",
   "theorems": [
    "C24_avoid_merger"
   ],
   "note": ""
  },
  {
   "property": "C25",
   "status": "partial",
   "theorems": [
    "C25_pool",
    "C25_broadcast_refuted"
   ],
   "note": "Refuted as stated for broadcast inputs (C25_broadcast_refuted: one process raises IndexError, two silently drop a source); proved: whenever the single-process call succeeds, every n_proc and every schedule gives the same result."
  },
  {
   "property": "C26",
   "status": "partial",
   "theorems": [
    "C26_caller_arrays_refuted",
    "C26_shared_steps_kept_partial",
    "C26_no_avoid_merger_kept_partial"
   ],
   "note": "Refuted as stated: evol_ecc with avoid_merger overwrites a caller's two-dimensional timesteps (C26_caller_arrays_refuted); proved: one-dimensional timesteps and calls without avoid_merger leave it unchanged."
  },
  {
   "property": "C27",
   "status": "proved",
   "theorems": [
    "C27_circ_arrays",
    "C27_circ_scalars",
    "C27_ecc_arrays",
    "C27_circ_needs_masses",
    "C27_ecc_needs_masses"
   ],
   "note": ""
  },
  {
   "property": "C28",
   "status": "proved",
   "theorems": [
    "C28_strain_relation"
   ],
   "note": ""
  },
  {
   "property": "C29",
   "status": "proved",
   "theorems": [
    "C29_carries_the_luminosity",
    "C29_scaling",
    "C29_circular_amplitude"
   ],
   "note": ""
  },
  {
   "property": "C30",
   "status": "proved",
   "theorems": [
    "C30_circular_sources"
   ],
   "note": ""
  },
  {
   "property": "C31",
   "status": "proved",
   "theorems": [
    "C31_negative_power_is_zero_strain",
    "C31_same_as_clipped"
   ],
   "note": ""
  },
  {
   "property": "C32",
   "status": "proved",
   "theorems": [
    "C32_rejected",
    "C32_accepted",
    "C32_fn_dot"
   ],
   "note": ""
  },
  {
   "property": "C33",
   "status": "proved",
   "theorems": [
    "C33_strain_is_local"
   ],
   "note": ""
  },
  {
   "property": "C34",
   "status": "proved",
   "theorems": [
    "C34_lisa",
    "C34_decigo",
    "C34_tianqin",
    "C34_decigo_tiny_f_low_refuted"
   ],
   "note": "C34_decigo_tiny_f_low_refuted shows that the hypothesis f_low > 1e-8 Hz is needed. The packaged response table is a parameter, assumed positive in band (response_ok)."
  },
  {
   "property": "C35",
   "status": "proved",
   "theorems": [
    "C35_nonnegative",
    "C35_none_is_zero",
    "C35_huang20_outside",
    "C35_lisa_total",
    "C35_tianqin_total",
    "C35_decigo_total"
   ],
   "note": ""
  },
  {
   "property": "C36",
   "status": "proved",
   "theorems": [
    "C36_lisa",
    "C36_tianqin",
    "C36_decigo",
    "C36_custom",
    "C36_unknown_instrument",
    "C36_unknown_model"
   ],
   "note": ""
  },
  {
   "property": "C37",
   "status": "proved",
   "theorems": [
    "C37_robson19",
    "C37_huang20",
    "C37_thiele21_only_4yr",
    "C37_thiele21_value",
    "C37_auto"
   ],
   "note": ""
  },
  {
   "property": "C38",
   "status": "partial",
   "theorems": [
    "C38_missing_file_refuted",
    "C38_missing_file_breaks_lisa_psd_refuted",
    "C38_present_file_partial"
   ],
   "note": "Refuted as stated: a missing R.npy raises FileNotFoundError because the handler catches FileExistsError (C38_missing_file_refuted); proved: with the file present the interpolated table is used."
  },
  {
   "property": "C39",
   "status": "proved",
   "theorems": [
    "C39_bounded_and_decreasing"
   ],
   "note": ""
  },
  {
   "property": "C40",
   "status": "proved",
   "theorems": [
    "C40_stationary_flags",
    "C40_evolving_flags",
    "C40_stationary_value"
   ],
   "note": ""
  },
  {
   "property": "C41",
   "status": "proved",
   "theorems": [
    "C41_loudest_stationary",
    "C41_loudest_evolving"
   ],
   "note": ""
  },
  {
   "property": "C42",
   "status": "proved",
   "theorems": [
    "C42_agree_at_zero_eccentricity"
   ],
   "note": ""
  },
  {
   "property": "C43",
   "status": "proved",
   "theorems": [
    "C43_distance",
    "C43_observing_time",
    "C43_mass_eccentric",
    "C43_mass_circular"
   ],
   "note": ""
  },
  {
   "property": "C44",
   "status": "proved",
   "theorems": [
    "C44_out_of_band",
    "C44_more_harmonics"
   ],
   "note": ""
  },
  {
   "property": "C45",
   "status": "partial",
   "theorems": [
    "C45_circular",
    "C45_eccentric",
    "C45_last_second_refuted"
   ],
   "note": "Refuted as stated: a circular binary less than 1 s from merger gets SNR nan (C45_last_second_refuted); proved: a real non-negative SNR for every circular binary at least 1 s from merger and every eccentric one at least 0.1 yr from merger whose track stays above the merged placeholder values. odeint assumed exact (odeint_exact)."
  },
  {
   "property": "C46",
   "status": "proved",
   "theorems": [
    "C46_source",
    "C46_unique",
    "C46_all_classes"
   ],
   "note": ""
  },
  {
   "property": "C47",
   "status": "proved",
   "theorems": [
    "C47_subset"
   ],
   "note": ""
  },
  {
   "property": "C48",
   "status": "partial",
   "theorems": [
    "C48_snr_stationary",
    "C48_snr_evolving",
    "C48_h_0_n",
    "C48_h_c_n",
    "C48_np_integer_refuted"
   ],
   "note": "Refuted as stated: harmonics given as a numpy integer raise TypeError (C48_np_integer_refuted); proved: one row per selected source, in order, equal to the direct computation, 0 for merged sources, for Python integers and arrays of harmonics."
  },
  {
   "property": "C49",
   "status": "partial",
   "theorems": [
    "C49_get_snr_refuted",
    "C49_history_refuted",
    "C49_others_partial"
   ],
   "note": "Refuted as stated: get_snr(which_sources) stores 0 for every source that is not selected (C49_get_snr_refuted, C49_history_refuted); proved: get_snr_stationary and get_snr_evolving keep the stored SNR and loudest harmonic of the other sources (C49_others_partial)."
  },
  {
   "property": "C50",
   "status": "partial",
   "theorems": [
    "C50_any_history",
    "C50_successful_history",
    "C50_indexing",
    "C50_toggle_refuted",
    "C50_ior_refuted",
    "C50_repeated_failure_refuted",
    "C50_new_class_refuted"
   ],
   "note": "Refuted as stated: writing interpolate_sc (C50_toggle_refuted), |= (C50_ior_refuted), repeating a failing assignment (C50_repeated_failure_refuted) and evolve_sources(create_new_class=True) without interpolation (C50_new_class_refuted) leave a curve that does not match; proved: every history of all other operations keeps curve and parameters in step (C50_any_history, C50_successful_history, C50_indexing)."
  },
  {
   "property": "C51",
   "status": "partial",
   "theorems": [
    "C51_any_history",
    "C51_unknown_keys",
    "C51_unknown_keys_at_construction",
    "C51_item_assignment",
    "C51_update",
    "C51_assignment",
    "C51_construction",
    "C51_ior_refuted",
    "C51_setdefault_refuted",
    "C51_setdefault_of_known_keys",
    "C51_ior_of_known_keys"
   ],
   "note": "Refuted as stated: |= and setdefault bypass the key check (C51_ior_refuted, C51_setdefault_refuted); proved: every history of the other operations keeps exactly the six keys, unknown keys raise KeyError and change nothing, keys cannot be removed, and writes store what was given."
  },
  {
   "property": "C52",
   "status": "partial",
   "theorems": [
    "C52_first_call_stationary",
    "C52_first_call_evolving",
    "C52_first_call",
    "C52_same_as_psd",
    "C52_decigo_refuted",
    "C52_second_call_refuted"
   ],
   "note": "Refuted as stated: the first call stores the resolved time, so a later call for another instrument reuses it (C52_second_call_refuted), and DECIGO uses 5 yr in Source but 4 yr in power_spectral_density (C52_decigo_refuted); proved: while t_obs is still auto, calls use the instrument's documented mission length, the one power_spectral_density uses for LISA and TianQin."
  },
  {
   "property": "C53",
   "status": "partial",
   "theorems": [
    "C53_tables_match",
    "C53_failed_assignment_refuted"
   ],
   "note": "Refuted as stated: an assignment that fails leaves ecc_tol of the old tolerance, and repeating it succeeds silently (C53_failed_assignment_refuted); proved: every history of successful assignments leaves the tables of the last one."
  },
  {
   "property": "C54",
   "status": "proved",
   "theorems": [
    "C54_harmonics_required",
    "C54_monotone",
    "C54_tabulated_eccentricities"
   ],
   "note": ""
  },
  {
   "property": "C55",
   "status": "partial",
   "theorems": [
    "C55_maximal_power",
    "C55_beyond_the_table",
    "C55_beyond_the_table_refuted"
   ],
   "note": "Refuted as stated: beyond the table the fill value is the largest harmonics_required, which may carry no power; proved: maximal power at every tabulated eccentricity, and the exact value beyond the table."
  },
  {
   "property": "C56",
   "status": "partial",
   "theorems": [
    "C56_transition_refuted",
    "C56_share_falls",
    "C56_exact_transition_partial",
    "C56_monotone",
    "C56_edge_refuted"
   ],
   "note": "Refuted as stated: ecc_tol is the first grid eccentricity that fails the tolerance, and it is treated as circular; proved: every smaller grid eccentricity is within tolerance; for the Bessel functions themselves the n = 2 share falls strictly with eccentricity, so that every eccentricity more than a grid step below ecc_tol is within tolerance and none from ecc_tol on is; ecc_tol does not fall with the tolerance."
  },
  {
   "property": "C57",
   "status": "partial",
   "theorems": [
    "C57_rows",
    "C57_unique",
    "C57_accepts",
    "C57_twice",
    "C57_copy",
    "C57_errors",
    "C57_empty_list_refuted",
    "C57_bool_refuted",
    "C57_verification_copy_refuted"
   ],
   "note": "Refuted as stated: an empty Python list is rejected, a bool is used as a mask of length one, and VerificationBinaries cannot be indexed or copied; proved: for every accepted index all attributes are picked at the positions numpy selects, acceptance is exactly the documented one, repeated indexing composes, a copy equals the original."
  },
  {
   "property": "C58",
   "status": "partial",
   "theorems": [
    "C58_isolated",
    "C58_as_if_alone",
    "C58_refines",
    "C58_subsets",
    "C58_apart",
    "C58_in_place",
    "C58_copied_parameters",
    "C58_snr_as_weights_refuted"
   ],
   "note": "Refuted as stated in a corner case: a collection made with the SNR array of another collection as its weights changes with the next SNR calculation on that one; proved: isolation for all programs that do not hand over such an array, over any interleaving, and that copies and subsets share no arrays."
  },
  {
   "property": "C59",
   "status": "partial",
   "theorems": [
    "C59_round_trip",
    "C59_exact",
    "C59_overrides",
    "C59_warnings",
    "C59_verification_binaries_refuted"
   ],
   "note": "Refuted as stated: verification binaries do not come back as such (C59_verification_binaries_refuted), and a custom instrument with an interpolated curve does not load at all (C61_custom_instrument_refuted); proved: identical object for every reachable collection without custom functions whose curve is in step, and identical contents with functions replaced by defaults otherwise, plus exactly the announced warnings."
  },
  {
   "property": "C60",
   "status": "partial",
   "theorems": [
    "C60_no_overwrite",
    "C60_other_files",
    "C60_file_name",
    "C60_outcomes",
    "C60_completed_partial",
    "C60_overwrite_error_refuted",
    "C60_overwrite_crash_refuted",
    "C60_partial_file_refuted"
   ],
   "note": "Refuted as stated: an error or crash during an overwriting save loses the old collection (C60_overwrite_error_refuted, C60_overwrite_crash_refuted), or leaves a partial file that loads silently with default parameters (C60_partial_file_refuted); proved: without overwrite an existing file is never touched, no other path is ever touched, a save that returns leaves a complete file, and missing files, folders and damaged files are reported by the documented errors."
  },
  {
   "property": "C61",
   "status": "partial",
   "theorems": [
    "C61_without_interpolation_partial",
    "C61_custom_instrument_refuted",
    "C61_refused_tolerance_refuted"
   ],
   "note": "Refuted as stated: a custom instrument with an interpolated curve raises TypeError on loading (C61_custom_instrument_refuted), so does a collection given a refused tolerance (C61_refused_tolerance_refuted) and VerificationBinaries.from_file (C59_verification_binaries_refuted); proved: with interpolate_sc=False given to from_file every saved reachable collection loads, and without it whenever the curve of the remaining parameters exists (C59_round_trip)."
  },
  {
   "property": "C62",
   "status": "proved",
   "theorems": [
    "C62_history",
    "C62_permanent"
   ],
   "note": ""
  },
  {
   "property": "C63",
   "status": "proved",
   "theorems": [
    "C63_steps"
   ],
   "note": ""
  },
  {
   "property": "C64",
   "status": "partial",
   "theorems": [
    "C64_twin_partial",
    "C64_lost_refuted"
   ],
   "note": "Refuted as stated: weights, the class and the interpolate_sc setting are lost (C64_lost_refuted); proved: everything else agrees, the evolved orbit is the one an in-place evolution gives, and the original only gains stored merger times (C64_twin_partial)."
  },
  {
   "property": "C65",
   "status": "partial",
   "theorems": [
    "C65_accepts",
    "C65_only",
    "C65_lengths",
    "C65_no_frequency",
    "C65_sky_without_position",
    "C65_eccentric_position",
    "C65_missing_units",
    "C65_different_lengths",
    "C65_collection",
    "C65_weights_refuted"
   ],
   "note": "Refuted as stated: weights of any length are accepted (C65_weights_refuted), and a collection with a sky position needs more than documented (positions broadcasting with distances, masses in arrays when angles are drawn: usable_input); proved: exactly what is accepted, every documented error, equal lengths of the arrays the constructor checks."
  },
  {
   "property": "C66",
   "status": "partial",
   "theorems": [
    "C66_set_get",
    "C66_no_unit",
    "C66_construct",
    "C66_length_refuted"
   ],
   "note": "Refuted as stated: a different number of separations than sources is accepted by the setter (C66_length_refuted); proved: round trip, consistency with Kepler's third law and construction from a for one separation per source."
  },
  {
   "property": "C67",
   "status": "proved",
   "theorems": [
    "C67_selected",
    "C67_saved"
   ],
   "note": ""
  },
  {
   "property": "C68",
   "status": "proved",
   "theorems": [
    "C68_mask",
    "C68_partition",
    "C68_errors"
   ],
   "note": ""
  },
  {
   "property": "C69",
   "status": "partial",
   "theorems": [
    "C69_fresh_partial",
    "C69_stale_refuted"
   ],
   "note": "Refuted as stated: evolve_sources keeps the SNRs of the sources as they were, and get_snr_stationary/get_snr_evolving keep them for merged sources (C69_stale_refuted); proved: right after get_snr the stored SNRs are those of the current sources (C69_fresh_partial)."
  },
  {
   "property": "C70",
   "status": "proved",
   "theorems": [
    "C70_points_on_curve",
    "C70_nothing_detectable",
    "C70_curve",
    "C70_collection",
    "C70_no_snr"
   ],
   "note": ""
  },
  {
   "property": "C71",
   "status": "partial",
   "theorems": [
    "C71_circular_partial",
    "C71_eccentric_never_reported_refuted",
    "C71_circular_counted_twice_refuted"
   ],
   "note": "Refuted as stated: the mask for eccentric evolving sources selects circular ones, so eccentric ones are never reported and circular ones are reported twice; proved: the number of circular sources reported is right."
  },
  {
   "property": "C72",
   "status": "proved",
   "theorems": [
    "C72_call_trees",
    "C72_functions",
    "C72_methods",
    "C72_after_call",
    "C72_style_in_force",
    "C72_style",
    "C72_style_refused",
    "C72_outcome",
    "C72_method_outcome"
   ],
   "note": ""
  },
  {
   "property": "C73",
   "status": "partial",
   "theorems": [
    "C73_one_handler",
    "C73_delivered_once",
    "C73_not_passed_to_root",
    "C73_handlers_respected",
    "C73_handlers_kept",
    "C73_root_kept",
    "C73_messages_shown",
    "C73_level_before_import_refuted",
    "C73_level_before_reload_refuted",
    "C73_passed_to_root_refuted",
    "C73_prefix",
    "C73_level_in_small_letters",
    "C73_no_colour",
    "C73_colour"
   ],
   "note": "Refuted as stated: a level set by the user before the first import, or before a reload without handlers, is overwritten by INFO (C73_level_before_import_refuted, C73_level_before_reload_refuted), and with a user's handler attached before the import messages also go to the root logger (C73_passed_to_root_refuted); proved: at most one handler of the package, no message delivered twice to a handler, nothing passed to the root once the package attached its handler, user's handlers and the root logger never changed, prefix and colours."
  },
  {
   "property": "C74",
   "status": "proved",
   "theorems": [
    "C74_circ_rows_are_scalar_calls",
    "C74_ecc_rows_are_scalar_calls"
   ],
   "note": ""
  },
  {
   "property": "C75",
   "status": "proved",
   "theorems": [
    "C75_eccentricity_always_finite",
    "C75_failed_steps_are_zero",
    "C75_samples_peters_inspiral"
   ],
   "note": "Integrator assumed exact on the eccentricity equation (odeint_exact, inhabited by odeint_model)."
  },
  {
   "property": "C76",
   "status": "proved",
   "theorems": [
    "C76_lisa",
    "C76_tianqin",
    "C76_decigo",
    "C76_confusion_well_defined"
   ],
   "note": "The response table is a parameter (response_ok)."
  },
  {
   "property": "C77",
   "status": "partial",
   "theorems": [
    "C77_custom_confusion_units_refuted",
    "C77_custom_confusion_added_partial"
   ],
   "note": "Refuted as stated: LISA and DECIGO pass a bare array, TianQin a Quantity, so a function written with units fails for the first two (C77_custom_confusion_units_refuted); proved: a function accepting both is added in band by all three."
  },
  {
   "property": "C78",
   "status": "proved",
   "theorems": [
    "C78_stationary_is_local",
    "C78_evolving_is_local"
   ],
   "note": ""
  },
  {
   "property": "C79",
   "status": "proved",
   "theorems": [
    "C79_circular",
    "C79_eccentric"
   ],
   "note": ""
  },
  {
   "property": "C80",
   "status": "partial",
   "theorems": [
    "C80_circular_partial",
    "C80_eccentric_partial",
    "C80_two_steps_refuted",
    "C80_last_month_refuted",
    "C80_bessel_partial"
   ],
   "note": "Refuted as stated: an eccentric source less than 0.1 yr from merger gets SNR exactly 0 (C80_last_month_refuted), so does one followed with two steps into the last 0.1 yr (C80_two_steps_refuted), and a circular one less than 1 s away gets nan (C45_last_second_refuted); proved: a positive SNR for circular binaries more than 1 s and eccentric ones more than 0.1 yr from merger (three steps or more, odeint assumed exact)."
  },
  {
   "property": "C81",
   "status": "partial",
   "theorems": [
    "C81_returned_partial",
    "C81_overwritten_refuted",
    "C81_refuted"
   ],
   "note": "Refuted as stated: get_snr returns the array it stores, and the next get_snr_stationary or get_snr_evolving writes into it; proved: arrays returned by get_snr_stationary, get_snr_evolving and get_merger_time never change."
  },
  {
   "property": "C82",
   "status": "proved",
   "theorems": [
    "C82_tabulated",
    "C82_of_power_spectral_density",
    "C82_refused",
    "C82_meaningless_time",
    "C82_between_exact_values"
   ],
   "note": ""
  },
  {
   "property": "C83",
   "status": "proved",
   "theorems": [
    "C83_evolve"
   ],
   "note": ""
  },
  {
   "property": "C84",
   "status": "proved",
   "theorems": [
    "C84_within_2_3_percent",
    "C84_small_eccentricity",
    "C84_large_eccentricity"
   ],
   "note": ""
  },
  {
   "property": "C85",
   "status": "partial",
   "theorems": [
    "C85_fit_value",
    "C85_within_3_3_percent",
    "C85_documented_accuracy_refuted"
   ],
   "note": "Refuted as stated: near e = 0.9976 the fitted merger time is at least 2.8% too short (C85_documented_accuracy_refuted). Proved: the value returned, and that it is within 3.3% of Peters' integral for every 0 <= e < 1."
  },
  {
   "property": "C86",
   "status": "proved",
   "theorems": [
    "C86_responses_are_orbit_averages",
    "C86_modulation_is_orbit_average"
   ],
   "note": ""
  },
  {
   "property": "C87",
   "status": "proved",
   "theorems": [
    "C87_incomplete_sky_arguments_raise"
   ],
   "note": ""
  },
  {
   "property": "C88",
   "status": "proved",
   "theorems": [
    "C88_one_entry_per_source"
   ],
   "note": ""
  },
  {
   "property": "C89",
   "status": "proved",
   "theorems": [
    "C89_two_variables",
    "C89_one_variable",
    "C89_unknown_variable",
    "C89_snr_not_computed"
   ],
   "note": ""
  },
  {
   "property": "C90",
   "status": "proved",
   "theorems": [
    "C90_converters_and_filters"
   ],
   "note": ""
  },
  {
   "property": "C91",
   "status": "partial",
   "theorems": [
    "C91_logged_partial",
    "C91_silenced_partial",
    "C91_shown_partial",
    "C91_printed_refuted"
   ],
   "note": "Refuted as stated: warnings of save, from_file and SNR computations are printed (C91_printed_refuted); proved: messages of plots are logged and silenced by their level."
  },
  {
   "property": "C92",
   "status": "partial",
   "theorems": [
    "C92_users_arrays",
    "C92_constructor_refuted",
    "C92_evolved_refuted"
   ],
   "note": "Refuted as stated: the constructor keeps the arrays passed to it, and evolve_sources(create_new_class=True) shares masses, distances and angles with the original; proved: no method writes into an array of the user's, copies and subsets share nothing (C58_subsets, C58_in_place)."
  },
  {
   "property": "C93",
   "status": "partial",
   "theorems": [
    "C93_stationary_circular",
    "C93_evolving_refuted",
    "C93_h_0_n",
    "C93_h_c_n"
   ],
   "note": "Refuted as stated: positions do not change the SNR of sources treated as evolving, circular or not (C93_evolving_refuted); proved: the exact factor for circular sources treated as stationary, no change for all others, and the factor for the strains of every source."
  },
  {
   "property": "C94",
   "status": "partial",
   "theorems": [
    "C94_merger_times",
    "C94_circular_evolution",
    "C94_marker_refuted",
    "C94_eccentric_evolution",
    "C94_frequency_and_stationarity",
    "C94_same_outcome",
    "C94_time_without_unit",
    "C94_time_of_wrong_dimension",
    "C94_wrong_time_of_frequency"
   ],
   "note": "Refuted as stated: evol_circ marks merged binaries by a separation of 1e-30 in the unit of a_i, so frequencies of a separation of exactly 1e-30 of some unit depend on that unit (C94_marker_refuted). Proved: everything else, the frequencies whenever a_i is absent or in AU or the separations never equal the marker, and that every call with sources rejects evolution times and time steps that are no times."
  },
  {
   "property": "C95",
   "status": "partial",
   "theorems": [
    "C95_sensitivity",
    "C95_confusion_noise",
    "C95_frequency_wrong",
    "C95_arm_length_wrong",
    "C95_mission_length_wrong",
    "C95_custom_noise_refuted",
    "C95_custom_noise_without_unit",
    "C95_custom_noise_tianqin"
   ],
   "note": "Refuted as stated: the unit of a custom confusion noise is ignored by LISA and DECIGO (C95_custom_noise_refuted). Proved: unit independence for every built-in instrument and confusion noise, the custom noise of TianQin, and the errors for wrong dimensions."
  },
  {
   "property": "C96",
   "status": "partial",
   "theorems": [
    "C96_stationary_circular",
    "C96_stationary_eccentric",
    "C96_evolving_circular",
    "C96_evolving_eccentric",
    "C96_source_curve",
    "C96_settings",
    "C96_time_dimension_refuted",
    "C96_evolving_wrong_time",
    "C96_stationary_wrong_time",
    "C96_time_without_confusion_refuted"
   ],
   "note": "Refuted as stated: stationary SNRs with an interpolated curve, or with computed noise without confusion noise, accept an observation time of any dimension and read it in SI (C96_time_dimension_refuted, C96_time_without_confusion_refuted). Proved: unit independence of all four functions, that evolving SNRs reject wrong observation times, with given or computed merger times, and that stationary SNRs reject them where the noise is computed with a confusion noise model."
  },
  {
   "property": "C97",
   "status": "proved",
   "theorems": [
    "C97_construction",
    "C97_histories",
    "C97_two_users",
    "C97_readings",
    "C97_methods",
    "C97_units_kept"
   ],
   "note": ""
  },
  {
   "property": "C98",
   "status": "partial",
   "theorems": [
    "C98_evolution_time",
    "C98_evolution_time_without_unit",
    "C98_separations",
    "C98_separations_given",
    "C98_observation_time_mask",
    "C98_observation_time",
    "C98_construction_refuted",
    "C98_masses_later",
    "C98_distances_refuted",
    "C98_custom_curve_refuted"
   ],
   "note": "Refuted as stated: the constructor checks only that masses, distances and frequencies have some unit (C98_construction_refuted), distances in seconds give the strains of as many metres (C98_distances_refuted), and the interpolated curve drops the unit of a custom sensitivity curve (C98_custom_curve_refuted); proved: evolution times that are no times or have no unit, separations that are no lengths and observation times that are no times give an error and leave orbits and stored SNRs unchanged, and masses that are no masses are noticed when the chirp mass is needed."
  },
  {
   "property": "C99",
   "status": "proved",
   "theorems": [
    "C99_built",
    "C99_histories",
    "C99_no_subset",
    "C99_published"
   ],
   "note": ""
  },
  {
   "property": "C100",
   "status": "proved",
   "theorems": [
    "C100_given",
    "C100_histories",
    "C100_evolved_copy",
    "C100_only_angles",
    "C100_verification",
    "C100_draws_matter",
    "C100_irreproducible"
   ],
   "note": ""
  },
  {
   "property": "C101",
   "status": "partial",
   "theorems": [
    "C101_one_variable",
    "C101_two_variables",
    "C101_sensitivity_curve",
    "C101_frequency_unit_refuted",
    "C101_second_plot_refuted",
    "C101_ecdf_refuted"
   ],
   "note": "Refuted as stated: a sensitivity curve over a range in mHz is drawn in mHz and labelled Hz; a second variable plotted on the same axes in another unit relabels them; a cumulative proportion is labelled as a density. Proved: the labels of one and two variables on new axes, for all variables, units, options; those of a sensitivity curve in Hz."
  },
  {
   "property": "C102",
   "status": "partial",
   "theorems": [
    "C102_distribution",
    "C102_two_dimensions",
    "C102_one_variable",
    "C102_two_variables",
    "C102_sources",
    "C102_ylim_refuted"
   ],
   "note": "Refuted as stated: y limits given to plot_sources_on_sc are ignored. Proved: everything else, for all plotting functions."
  },
  {
   "property": "C103",
   "status": "partial",
   "theorems": [
    "C103_distribution",
    "C103_two_dimensions",
    "C103_one_variable",
    "C103_two_variables",
    "C103_sources",
    "C103_accepted",
    "C103_scatter_s_refuted"
   ],
   "note": "Refuted as stated: the documented keyword s of scatter plots is always a TypeError. Proved: everything else, for all keywords."
  },
  {
   "property": "C104",
   "status": "partial",
   "theorems": [
    "C104_shown",
    "C104_sources",
    "C104_nothing_detectable",
    "C104_nothing_detectable_refuted",
    "C104_errors"
   ],
   "note": "Refuted as stated: plot_sources_on_sc does not show the sensitivity curve if no source is above the cutoff. Proved: everything else, for all plotting functions."
  },
  {
   "property": "C105",
   "status": "proved",
   "theorems": [
    "C105_chirp_mass",
    "C105_chirp_mass_symmetric",
    "C105_separation",
    "C105_frequency",
    "C105_there_and_back",
    "C105_beta",
    "C105_enhancement",
    "C105_enhancement_circular",
    "C105_peters_constant",
    "C105_peters_separation",
    "C105_merger_small",
    "C105_merger_large",
    "C105_chirp",
    "C105_strain",
    "C105_characteristic_strain",
    "C105_lisa_noise",
    "C105_lisa_instrument_noise",
    "C105_tianqin_noise",
    "C105_decigo_noise",
    "C105_circular_power",
    "C105_circular_snr"
   ],
   "note": ""
  },
  {
   "property": "C106",
   "status": "proved",
   "theorems": [
    "C106_sum",
    "C106_snr",
    "C106_orders"
   ],
   "note": ""
  },
  {
   "property": "C107",
   "status": "partial",
   "theorems": [
    "C107_merger_time",
    "C107_start",
    "C107_separation",
    "C107_ends_close",
    "C107_ends_merged_refuted"
   ],
   "note": "Refuted as stated: with rounding to nearest even, beta = 2.3e19 m^4/s and a = 1e9 m end the default evolution more than 100 km apart instead of merged (C107_ends_merged_refuted); proved: merger times are accurate to 1e-14, separations to 1e-13 over the fraction of the merger time left, and the last separation is at most a thousandth of the first."
  },
  {
   "property": "C108",
   "status": "partial",
   "theorems": [
    "C108_strains",
    "C108_snr_stationary",
    "C108_snr_evolving",
    "C108_limits",
    "C108_strain_refuted",
    "C108_snr_refuted"
   ],
   "note": "Refuted as stated: from harmonic 55109 on in 64 bits (216 in 32 bits) n**4 wraps to a negative number, so that strain and SNR are nan (C108_strain_refuted, C108_snr_refuted); proved: strains and stationary and evolving SNRs are exact as long as n**4 fits into the words, that is up to harmonic 55108 in 64 bits and 215 in 32 bits (C108_limits)."
  },
  {
   "property": "C109",
   "status": "partial",
   "theorems": [
    "C109_response",
    "C109_short_arms",
    "C109_default_noise",
    "C109_long_arms_refuted",
    "C109_snr_refuted"
   ],
   "note": "Refuted as stated: for arms of 2.625e9 m and more 2 Hz lies beyond the table, where the last cubic is continued and negative: the noise is negative (C109_long_arms_refuted) and the SNR nan (C109_snr_refuted); proved: for arms of up to 2.588e9 m (default 2.5e9 m) the interpolated response lies between 3.24e-5 and 0.3007 throughout the band and the noise is positive there, so that the default settings of the SNR functions meet the hypotheses of C34, C35 and C40 to C45 (C109_default_noise)."
  },
  {
   "property": "C110",
   "status": "proved",
   "theorems": [
    "C110_agreement",
    "C110_labelled_stationary"
   ],
   "note": ""
  },
  {
   "property": "C111",
   "status": "proved",
   "theorems": [
    "C111_circular",
    "C111_eccentric"
   ],
   "note": ""
  },
  {
   "property": "C112",
   "status": "partial",
   "theorems": [
    "C112_lisa_partial",
    "C112_approximate_response",
    "C112_tianqin_partial",
    "C112_decigo_partial",
    "C112_tianqin_refuted",
    "C112_one_year_refuted",
    "C112_jumps_small_partial",
    "C112_reciprocal"
   ],
   "note": "Refuted as stated: huang20 (the default of TianQin) is cut off abruptly at 1e-4 Hz and 1 Hz, so the curve jumps there, by a factor above 1e12 at 1e-4 Hz for missions between 9 and 18 months; proved: continuity for all other models and away from the cuts, and that the remaining jumps of the default TianQin curve are below 1e-5 of its instrumental noise."
  },
  {
   "property": "C113",
   "status": "proved",
   "theorems": [
    "C113_sum",
    "C113_enough_harmonics",
    "C113_strain",
    "C113_characteristic",
    "C113_never_all"
   ],
   "note": ""
  },
  {
   "property": "C114",
   "status": "partial",
   "theorems": [
    "C114_rising_noise_partial",
    "C114_truncation",
    "C114_below_band_refuted"
   ],
   "note": "Refuted as stated: whatever the tolerance, there is a frequency at which all harmonics holding that share of the luminosity lie below the band of LISA or DECIGO, so that the SNR is 0 while one more harmonic makes it positive (C114_below_band_refuted); proved: the bound whenever the squared frequency times the noise does not fall with frequency along the harmonics (C114_rising_noise_partial), and for every noise bounded below convergence and a bound on what is missed (C114_truncation)."
  },
  {
   "property": "C115",
   "status": "partial",
   "theorems": [
    "C115_large_tolerance_refuted",
    "C115_small_tolerance_partial",
    "C115_accepted_iff"
   ],
   "note": "Refuted as stated: from 0.39 up to 1 the assignment raises IndexError, because no eccentricity up to 0.2 fails the tolerance (C115_large_tolerance_refuted); proved: every tolerance up to 0.36 is accepted, and in between a tolerance is accepted exactly if the n = 2 harmonic fails it at e = 0.2."
  },
  {
   "property": "C116",
   "status": "proved",
   "theorems": [
    "C116_eccentric",
    "C116_circular",
    "C116_any_curve"
   ],
   "note": ""
  },
  {
   "property": "C117",
   "status": "partial",
   "theorems": [
    "C117_peters",
    "C117_same_regime_partial",
    "C117_jump_refuted",
    "C117_jump_large_refuted",
    "C117_within_5_percent_partial",
    "C117_same_ratio",
    "C117_wider_lighter"
   ],
   "note": "Refuted as stated: with the default tolerances every binary with 0.14 <= e < 0.15 is said to merge earlier than the same binary with e = 0.15 (the approximation for small eccentricities is too short), and binaries just above the default large tolerance are said to merge later than the binary at it; proved: separation and masses for all tolerances and methods, eccentricity for Peters' integral and between eccentricities treated alike, and inversions of at most 5%."
  },
  {
   "property": "C118",
   "status": "proved",
   "theorems": [
    "C118_stationary",
    "C118_evolving",
    "C118_stationary_masses",
    "C118_evolving_masses",
    "C118_frequency"
   ],
   "note": ""
  },
  {
   "property": "C119",
   "status": "proved",
   "theorems": [
    "C119_conversions",
    "C119_de_dt",
    "C119_merger_circular",
    "C119_merger",
    "C119_evolution",
    "C119_frequencies",
    "C119_eccentric",
    "C119_evolve_f_orb",
    "C119_stationarity",
    "C119_strain",
    "C119_snr_circular",
    "C119_snr_eccentric"
   ],
   "note": ""
  },
  {
   "property": "C120",
   "status": "proved",
   "theorems": [
    "C120_masses",
    "C120_merger_times",
    "C120_merger_times_of_one",
    "C120_stationarity",
    "C120_evol_circ",
    "C120_evol_ecc",
    "C120_snr_circ",
    "C120_snr_ecc",
    "C120_construction",
    "C120_results",
    "C120_history",
    "C120_evolve_new",
    "C120_indexing",
    "C120_copy",
    "C120_every_collection"
   ],
   "note": "In exact arithmetic; in double precision the order of the factors of beta can change its last bits (within the bound of C105)."
  },
  {
   "property": "C121",
   "status": "partial",
   "theorems": [
    "C121_circular_partial",
    "C121_eccentric_partial",
    "C121_noise_falls",
    "C121_robson_noise_refuted",
    "C121_robson_snr_refuted",
    "C121_huang_noise_refuted",
    "C121_huang_snr_refuted"
   ],
   "note": "Refuted as stated: with robson19 the noise up to 1.4 mHz rises when the observing time passes nine months, where the coefficients for one year replace those for half a year, and with huang20, TianQin's default, the noise from 0.7 to 1 mHz rises when it passes four and a half years, so that every circular source in these ranges has a lower SNR a little after than at these times; proved: SNRs do not fall without confusion noise, with karnesis21, with interpolated curves, and while robson19 or huang20 use the same mission length."
  }
 ]
}