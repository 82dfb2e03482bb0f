{
"C01": ["proved", ""],
"C02": ["proved", ""],
"C03": ["proved", ""],
"C04": ["proved", ""],
"C05": ["proved", "Bessel routine is a parameter; the circular case assumes its values at 0 only."],
"C06": ["proved", ""],
"C07": ["proved", ""],
"C08": ["proved", ""],
"C09": ["partial", "Refuted as stated for the strain amplitudes: h_0_n and h_c_n end with decompose().value and return numbers for masses, frequencies and distances of any dimension (C09_strain_refuted; a distance without a unit is read in metres, C09_forgotten_distance_refuted), and a plain 0, inf or nan passes as a mass in the Kepler conversions (C09_plain_zero). Proved: unit independence and documented units for every function, and unit errors for every other input of the wrong dimension."],
"C10": ["proved", ""],
"C100": ["proved", ""],
"C101": ["partial", "Refuted as stated: a sensitivity curve over a range in mHz is drawn in mHz and labelled Hz; a second variable plotted on the same axes in another unit relabels them; a cumulative proportion is labelled as a density. Proved: the labels of one and two variables on new axes, for all variables, units, options; those of a sensitivity curve in Hz."],
"C102": ["partial", "Refuted as stated: y limits given to plot_sources_on_sc are ignored. Proved: everything else, for all plotting functions."],
"C103": ["partial", "Refuted as stated: the documented keyword s of scatter plots is always a TypeError. Proved: everything else, for all keywords."],
"C104": ["partial", "Refuted as stated: plot_sources_on_sc does not show the sensitivity curve if no source is above the cutoff. Proved: everything else, for all plotting functions."],
"C105": ["proved", ""],
"C106": ["proved", ""],
"C107": ["partial", "Refuted as stated: with rounding to nearest even, beta = 2.3e19 m^4/s and a = 1e9 m end the default evolution more than 100 km apart instead of merged (C107_ends_merged_refuted); proved: merger times are accurate to 1e-14, separations to 1e-13 over the fraction of the merger time left, and the last separation is at most a thousandth of the first."],
"C108": ["partial", "Refuted as stated: from harmonic 55109 on in 64 bits (216 in 32 bits) n**4 wraps to a negative number, so that strain and SNR are nan (C108_strain_refuted, C108_snr_refuted); proved: strains and stationary and evolving SNRs are exact as long as n**4 fits into the words, that is up to harmonic 55108 in 64 bits and 215 in 32 bits (C108_limits)."],
"C109": ["partial", "Refuted as stated: for arms of 2.625e9 m and more 2 Hz lies beyond the table, where the last cubic is continued and negative: the noise is negative (C109_long_arms_refuted) and the SNR nan (C109_snr_refuted); proved: for arms of up to 2.588e9 m (default 2.5e9 m) the interpolated response lies between 3.24e-5 and 0.3007 throughout the band and the noise is positive there, so that the default settings of the SNR functions meet the hypotheses of C34, C35 and C40 to C45 (C109_default_noise)."],
"C11": ["proved", "Iterated Riemann integrals (Coquelicot RInt)."],
"C110": ["proved", ""],
"C111": ["proved", ""],
"C112": ["partial", "Refuted as stated: huang20 (the default of TianQin) is cut off abruptly at 1e-4 Hz and 1 Hz, so the curve jumps there, by a factor above 1e12 at 1e-4 Hz for missions between 9 and 18 months; proved: continuity for all other models and away from the cuts, and that the remaining jumps of the default TianQin curve are below 1e-5 of its instrumental noise."],
"C113": ["proved", ""],
"C114": ["partial", "Refuted as stated: whatever the tolerance, there is a frequency at which all harmonics holding that share of the luminosity lie below the band of LISA or DECIGO, so that the SNR is 0 while one more harmonic makes it positive (C114_below_band_refuted); proved: the bound whenever the squared frequency times the noise does not fall with frequency along the harmonics (C114_rising_noise_partial), and for every noise bounded below convergence and a bound on what is missed (C114_truncation)."],
"C115": ["partial", "Refuted as stated: from 0.39 up to 1 the assignment raises IndexError, because no eccentricity up to 0.2 fails the tolerance (C115_large_tolerance_refuted); proved: every tolerance up to 0.36 is accepted, and in between a tolerance is accepted exactly if the n = 2 harmonic fails it at e = 0.2."],
"C116": ["proved", ""],
"C117": ["partial", "Refuted as stated: with the default tolerances every binary with 0.14 <= e < 0.15 is said to merge earlier than the same binary with e = 0.15 (the approximation for small eccentricities is too short), and binaries just above the default large tolerance are said to merge later than the binary at it; proved: separation and masses for all tolerances and methods, eccentricity for Peters' integral and between eccentricities treated alike, and inversions of at most 5%."],
"C118": ["proved", ""],
"C119": ["proved", ""],
"C12": ["proved", ""],
"C120": ["proved", "In exact arithmetic; in double precision the order of the factors of beta can change its last bits (within the bound of C105)."],
"C121": ["partial", "Refuted as stated: with robson19 the noise up to 1.4 mHz rises when the observing time passes nine months, where the coefficients for one year replace those for half a year, and with huang20, TianQin's default, the noise from 0.7 to 1 mHz rises when it passes four and a half years, so that every circular source in these ranges has a lower SNR a little after than at these times; proved: SNRs do not fall without confusion noise, with karnesis21, with interpolated curves, and while robson19 or huang20 use the same mission length."],
"C13": ["proved", ""],
"C14": ["proved", ""],
"C15": ["proved", ""],
"C16": ["proved", ""],
"C17": ["proved", ""],
"C18": ["proved", ""],
"C19": ["proved", "quad is assumed exact on continuous integrands (quad_exact, inhabited by quad_model)."],
"C20": ["proved", "quad assumed exact (quad_exact)."],
"C21": ["proved", "C21_crossed_tolerances_refuted shows the hypothesis small_e_tol <= large_e_tol is needed."],
"C22": ["proved", ""],
"C23": ["proved", ""],
"C24": ["proved", ""],
"C25": ["partial", "Refuted as stated for broadcast inputs (C25_broadcast_refuted: one process raises IndexError, two silently drop a source); proved: whenever the single-process call succeeds, every n_proc and every schedule gives the same result."],
"C26": ["partial", "Refuted as stated: evol_ecc with avoid_merger overwrites a caller's two-dimensional timesteps (C26_caller_arrays_refuted); proved: one-dimensional timesteps and calls without avoid_merger leave it unchanged."],
"C27": ["proved", ""],
"C28": ["proved", ""],
"C29": ["proved", ""],
"C30": ["proved", ""],
"C31": ["proved", ""],
"C32": ["proved", ""],
"C33": ["proved", ""],
"C34": ["proved", "C34_decigo_tiny_f_low_refuted shows that the hypothesis f_low > 1e-8 Hz is needed. The packaged response table is a parameter, assumed positive in band (response_ok)."],
"C35": ["proved", ""],
"C36": ["proved", ""],
"C37": ["proved", ""],
"C38": ["partial", "Refuted as stated: a missing R.npy raises FileNotFoundError because the handler catches FileExistsError (C38_missing_file_refuted); proved: with the file present the interpolated table is used."],
"C39": ["proved", ""],
"C40": ["proved", ""],
"C41": ["proved", ""],
"C42": ["proved", ""],
"C43": ["proved", ""],
"C44": ["proved", ""],
"C45": ["partial", "Refuted as stated: a circular binary less than 1 s from merger gets SNR nan (C45_last_second_refuted); proved: a real non-negative SNR for every circular binary at least 1 s from merger and every eccentric one at least 0.1 yr from merger whose track stays above the merged placeholder values. odeint assumed exact (odeint_exact)."],
"C46": ["proved", ""],
"C47": ["proved", ""],
"C48": ["partial", "Refuted as stated: harmonics given as a numpy integer raise TypeError (C48_np_integer_refuted); proved: one row per selected source, in order, equal to the direct computation, 0 for merged sources, for Python integers and arrays of harmonics."],
"C49": ["partial", "Refuted as stated: get_snr(which_sources) stores 0 for every source that is not selected (C49_get_snr_refuted, C49_history_refuted); proved: get_snr_stationary and get_snr_evolving keep the stored SNR and loudest harmonic of the other sources (C49_others_partial)."],
"C50": ["partial", "Refuted as stated: writing interpolate_sc (C50_toggle_refuted), |= (C50_ior_refuted), repeating a failing assignment (C50_repeated_failure_refuted) and evolve_sources(create_new_class=True) without interpolation (C50_new_class_refuted) leave a curve that does not match; proved: every history of all other operations keeps curve and parameters in step (C50_any_history, C50_successful_history, C50_indexing)."],
"C51": ["partial", "Refuted as stated: |= and setdefault bypass the key check (C51_ior_refuted, C51_setdefault_refuted); proved: every history of the other operations keeps exactly the six keys, unknown keys raise KeyError and change nothing, keys cannot be removed, and writes store what was given."],
"C52": ["partial", "Refuted as stated: the first call stores the resolved time, so a later call for another instrument reuses it (C52_second_call_refuted), and DECIGO uses 5 yr in Source but 4 yr in power_spectral_density (C52_decigo_refuted); proved: while t_obs is still auto, calls use the instrument's documented mission length, the one power_spectral_density uses for LISA and TianQin."],
"C53": ["partial", "Refuted as stated: an assignment that fails leaves ecc_tol of the old tolerance, and repeating it succeeds silently (C53_failed_assignment_refuted); proved: every history of successful assignments leaves the tables of the last one."],
"C54": ["proved", ""],
"C55": ["partial", "Refuted as stated: beyond the table the fill value is the largest harmonics_required, which may carry no power; proved: maximal power at every tabulated eccentricity, and the exact value beyond the table."],
"C56": ["partial", "Refuted as stated: ecc_tol is the first grid eccentricity that fails the tolerance, and it is treated as circular; proved: every smaller grid eccentricity is within tolerance; for the Bessel functions themselves the n = 2 share falls strictly with eccentricity, so that every eccentricity more than a grid step below ecc_tol is within tolerance and none from ecc_tol on is; ecc_tol does not fall with the tolerance."],
"C57": ["partial", "Refuted as stated: an empty Python list is rejected, a bool is used as a mask of length one, and VerificationBinaries cannot be indexed or copied; proved: for every accepted index all attributes are picked at the positions numpy selects, acceptance is exactly the documented one, repeated indexing composes, a copy equals the original."],
"C58": ["partial", "Refuted as stated in a corner case: a collection made with the SNR array of another collection as its weights changes with the next SNR calculation on that one; proved: isolation for all programs that do not hand over such an array, over any interleaving, and that copies and subsets share no arrays."],
"C59": ["partial", "Refuted as stated: verification binaries do not come back as such (C59_verification_binaries_refuted), and a custom instrument with an interpolated curve does not load at all (C61_custom_instrument_refuted); proved: identical object for every reachable collection without custom functions whose curve is in step, and identical contents with functions replaced by defaults otherwise, plus exactly the announced warnings."],
"C60": ["partial", "Refuted as stated: an error or crash during an overwriting save loses the old collection (C60_overwrite_error_refuted, C60_overwrite_crash_refuted), or leaves a partial file that loads silently with default parameters (C60_partial_file_refuted); proved: without overwrite an existing file is never touched, no other path is ever touched, a save that returns leaves a complete file, and missing files, folders and damaged files are reported by the documented errors."],
"C61": ["partial", "Refuted as stated: a custom instrument with an interpolated curve raises TypeError on loading (C61_custom_instrument_refuted), so does a collection given a refused tolerance (C61_refused_tolerance_refuted) and VerificationBinaries.from_file (C59_verification_binaries_refuted); proved: with interpolate_sc=False given to from_file every saved reachable collection loads, and without it whenever the curve of the remaining parameters exists (C59_round_trip)."],
"C62": ["proved", ""],
"C63": ["proved", ""],
"C64": ["partial", "Refuted as stated: weights, the class and the interpolate_sc setting are lost (C64_lost_refuted); proved: everything else agrees, the evolved orbit is the one an in-place evolution gives, and the original only gains stored merger times (C64_twin_partial)."],
"C65": ["partial", "Refuted as stated: weights of any length are accepted (C65_weights_refuted), and a collection with a sky position needs more than documented (positions broadcasting with distances, masses in arrays when angles are drawn: usable_input); proved: exactly what is accepted, every documented error, equal lengths of the arrays the constructor checks."],
"C66": ["partial", "Refuted as stated: a different number of separations than sources is accepted by the setter (C66_length_refuted); proved: round trip, consistency with Kepler's third law and construction from a for one separation per source."],
"C67": ["proved", ""],
"C68": ["proved", ""],
"C69": ["partial", "Refuted as stated: evolve_sources keeps the SNRs of the sources as they were, and get_snr_stationary/get_snr_evolving keep them for merged sources (C69_stale_refuted); proved: right after get_snr the stored SNRs are those of the current sources (C69_fresh_partial)."],
"C70": ["proved", ""],
"C71": ["partial", "Refuted as stated: the mask for eccentric evolving sources selects circular ones, so eccentric ones are never reported and circular ones are reported twice; proved: the number of circular sources reported is right."],
"C72": ["proved", ""],
"C73": ["partial", "Refuted as stated: a level set by the user before the first import, or before a reload without handlers, is overwritten by INFO (C73_level_before_import_refuted, C73_level_before_reload_refuted), and with a user's handler attached before the import messages also go to the root logger (C73_passed_to_root_refuted); proved: at most one handler of the package, no message delivered twice to a handler, nothing passed to the root once the package attached its handler, user's handlers and the root logger never changed, prefix and colours."],
"C74": ["proved", ""],
"C75": ["proved", "Integrator assumed exact on the eccentricity equation (odeint_exact, inhabited by odeint_model)."],
"C76": ["proved", "The response table is a parameter (response_ok)."],
"C77": ["partial", "Refuted as stated: LISA and DECIGO pass a bare array, TianQin a Quantity, so a function written with units fails for the first two (C77_custom_confusion_units_refuted); proved: a function accepting both is added in band by all three."],
"C78": ["proved", ""],
"C79": ["proved", ""],
"C80": ["partial", "Refuted as stated: an eccentric source less than 0.1 yr from merger gets SNR exactly 0 (C80_last_month_refuted), so does one followed with two steps into the last 0.1 yr (C80_two_steps_refuted), and a circular one less than 1 s away gets nan (C45_last_second_refuted); proved: a positive SNR for circular binaries more than 1 s and eccentric ones more than 0.1 yr from merger (three steps or more, odeint assumed exact)."],
"C81": ["partial", "Refuted as stated: get_snr returns the array it stores, and the next get_snr_stationary or get_snr_evolving writes into it; proved: arrays returned by get_snr_stationary, get_snr_evolving and get_merger_time never change."],
"C82": ["proved", ""],
"C83": ["proved", ""],
"C84": ["proved", ""],
"C85": ["partial", "Refuted as stated: near e = 0.9976 the fitted merger time is at least 2.8% too short (C85_documented_accuracy_refuted). Proved: the value returned, and that it is within 3.3% of Peters' integral for every 0 <= e < 1."],
"C86": ["proved", ""],
"C87": ["proved", ""],
"C88": ["proved", ""],
"C89": ["proved", ""],
"C90": ["proved", ""],
"C91": ["partial", "Refuted as stated: warnings of save, from_file and SNR computations are printed (C91_printed_refuted); proved: messages of plots are logged and silenced by their level."],
"C92": ["partial", "Refuted as stated: the constructor keeps the arrays passed to it, and evolve_sources(create_new_class=True) shares masses, distances and angles with the original; proved: no method writes into an array of the user's, copies and subsets share nothing (C58_subsets, C58_in_place)."],
"C93": ["partial", "Refuted as stated: positions do not change the SNR of sources treated as evolving, circular or not (C93_evolving_refuted); proved: the exact factor for circular sources treated as stationary, no change for all others, and the factor for the strains of every source."],
"C94": ["partial", "Refuted as stated: evol_circ marks merged binaries by a separation of 1e-30 in the unit of a_i, so frequencies of a separation of exactly 1e-30 of some unit depend on that unit (C94_marker_refuted). Proved: everything else, the frequencies whenever a_i is absent or in AU or the separations never equal the marker, and that every call with sources rejects evolution times and time steps that are no times."],
"C95": ["partial", "Refuted as stated: the unit of a custom confusion noise is ignored by LISA and DECIGO (C95_custom_noise_refuted). Proved: unit independence for every built-in instrument and confusion noise, the custom noise of TianQin, and the errors for wrong dimensions."],
"C96": ["partial", "Refuted as stated: stationary SNRs with an interpolated curve, or with computed noise without confusion noise, accept an observation time of any dimension and read it in SI (C96_time_dimension_refuted, C96_time_without_confusion_refuted). Proved: unit independence of all four functions, that evolving SNRs reject wrong observation times, with given or computed merger times, and that stationary SNRs reject them where the noise is computed with a confusion noise model."],
"C97": ["proved", ""],
"C98": ["partial", "Refuted as stated: the constructor checks only that masses, distances and frequencies have some unit (C98_construction_refuted), distances in seconds give the strains of as many metres (C98_distances_refuted), and the interpolated curve drops the unit of a custom sensitivity curve (C98_custom_curve_refuted); proved: evolution times that are no times or have no unit, separations that are no lengths and observation times that are no times give an error and leave orbits and stored SNRs unchanged, and masses that are no masses are noticed when the chirp mass is needed."],
"C99": ["proved", ""]
}
