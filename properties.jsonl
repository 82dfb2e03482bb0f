{"id": "C01", "title": "Kepler conversions are mutual inverses and obey Kepler's third law", "statement": "For positive masses, get_a_from_f_orb and get_f_orb_from_a undo each other exactly in both directions, and the pair they relate always satisfies a^3 (2 pi f)^2 = G (m_1 + m_2).", "quantifier": "all positive m_1, m_2, a, f_orb", "why_tests_cant": "a round trip on sampled values cannot exclude a wrong power or prefactor that cancels between the two functions for the sampled units; the law must hold on the whole positive orthant", "anchors": ["src/legwork/utils.py:get_a_from_f_orb", "src/legwork/utils.py:get_f_orb_from_a"]}
{"id": "C02", "title": "Chirp mass laws", "statement": "chirp_mass is symmetric in its arguments, scales linearly when both masses are scaled, satisfies m_c^5 (m_1+m_2) = (m_1 m_2)^3, is strictly increasing in each mass and never exceeds the larger component mass.", "quantifier": "all positive m_1, m_2 and all positive scale factors", "why_tests_cant": "symmetry, homogeneity and monotonicity quantify over a continuum of pairs of inputs", "anchors": ["src/legwork/utils.py:chirp_mass"]}
{"id": "C03", "title": "Eccentricity-separation relation is invertible and monotone", "statement": "get_a_from_ecc(e, c_0(a, e)) = a, and for a fixed c_0 the returned separation strictly increases with eccentricity, so an inspiral that circularises always shrinks.", "quantifier": "all a > 0, all 0 < e < 1, all pairs e1 < e2", "why_tests_cant": "two fractional exponents with seven-digit rational values must cancel identically; samples only see this to rounding error", "anchors": ["src/legwork/utils.py:c_0", "src/legwork/utils.py:get_a_from_ecc"]}
{"id": "C04", "title": "Peters enhancement factor is at least one and strictly increasing", "statement": "peters_f(0) = 1 and peters_f is strictly increasing on [0, 1), hence an eccentric binary always radiates at least as much as the circular one with the same separation; at e = 1 the result is +inf.", "quantifier": "all pairs 0 <= e1 < e2 < 1", "why_tests_cant": "monotonicity quantifies over all pairs of reals", "anchors": ["src/legwork/utils.py:peters_f"]}
{"id": "C05", "title": "Relative harmonic power is never negative and circular binaries radiate only at n = 2", "statement": "peters_g(n, e) >= 0 for every harmonic n >= 1 and 0 <= e <= 1, whatever values the Bessel routine returns; at e = 0 it is 1 for n = 2 and 0 for every other n, given only the values of integer-order Bessel functions at 0. When the Bessel routine returns J_n (Bessel's integral) it is the published g(n, e) of Peters & Mathews for every n >= 1 and 0 < e <= 1, and for 0 < e < 1 it is positive at every harmonic.", "quantifier": "all n >= 1, all 0 <= e <= 1, every Bessel implementation", "why_tests_cant": "infinitely many harmonics; tests sample a few n and compare with tables", "anchors": ["src/legwork/utils.py:peters_g"]}
{"id": "C06", "title": "fn_dot is n times the orbital frequency drift implied by Peters' orbital decay", "statement": "Along any orbit whose separation shrinks at Peters' rate da/dt = -beta peters_f(e)/a^3, the time derivative of n * f_orb equals fn_dot(m_c, f_orb, e, n); fn_dot is linear in n, positive, and any harmonic below 1 raises ValueError.", "quantifier": "all positive masses, separations, all 0 <= e < 1, all n, all differentiable orbits a(t)", "why_tests_cant": "ties four independently coded formulas together (beta, Kepler, chirp mass, fn_dot) for every input; derivatives cannot be tested pointwise", "anchors": ["src/legwork/utils.py:fn_dot", "src/legwork/utils.py:beta", "src/legwork/utils.py:chirp_mass"]}
{"id": "C07", "title": "Eccentricity derivative and separation relation are mutually consistent", "statement": "For every differentiable eccentricity trajectory e(t) that follows de_dt, the separation obtained from get_a_from_ecc follows Peters' da/dt = -beta peters_f(e)/a^3, and both e and a strictly decrease.", "quantifier": "all trajectories e(t) with 0 < e(t) < 1 solving the ODE, all beta, c_0 > 0", "why_tests_cant": "quantifies over all solutions of a differential equation; a wrong rational exponent would still pass coarse numerical tests", "anchors": ["src/legwork/evol.py:de_dt", "src/legwork/utils.py:get_a_from_ecc", "src/legwork/utils.py:peters_f"]}
{"id": "C08", "title": "ensure_array contract", "statement": "ensure_array leaves None and arrays untouched, turns lists into arrays with the same contents, wraps any scalar (with or without units) into a one-element array keeping value and unit, preserves argument order and count, reports any_not_arrays exactly when some argument was a scalar, and is idempotent.", "quantifier": "every number and every combination of arguments", "why_tests_cant": "unbounded argument lists mixing all kinds", "anchors": ["src/legwork/utils.py:ensure_array"]}
{"id": "C09", "title": "Results do not depend on the units inputs are expressed in", "statement": "For each unit-carrying utility (chirp_mass, beta, Kepler conversions, c_0, get_a_from_ecc, fn_dot) and for the circular merger time and the strain amplitudes, re-expressing any input in another unit of the same dimension leaves the physical result unchanged; the result carries the documented unit; and an input of the wrong dimension raises a unit error instead of returning a number.", "quantifier": "all quantities and all units (positive scale, rational dimension exponents)", "why_tests_cant": "unit combinations are unbounded; tests use one unit system", "anchors": ["src/legwork/utils.py:chirp_mass", "src/legwork/utils.py:beta", "src/legwork/utils.py:get_a_from_f_orb", "src/legwork/utils.py:get_f_orb_from_a", "src/legwork/utils.py:c_0", "src/legwork/utils.py:get_a_from_ecc", "src/legwork/utils.py:fn_dot", "src/legwork/evol.py:get_t_merge_circ", "src/legwork/strain.py:h_0_n", "src/legwork/strain.py:h_c_n"]}
{"id": "C10", "title": "Detector responses are physical", "statement": "F_plus_squared and F_cross_squared are never negative, their sum does not depend on the polarisation angle, rotating the polarisation by 45 degrees swaps them, and D_plus_D_cross^2 <= D_plus_squared * D_cross_squared.", "quantifier": "all angles theta, phi, psi", "why_tests_cant": "a polynomial inequality over a three-dimensional continuum", "anchors": ["src/legwork/utils.py:D_plus_squared", "src/legwork/utils.py:D_cross_squared", "src/legwork/utils.py:D_plus_D_cross", "src/legwork/utils.py:F_plus_squared", "src/legwork/utils.py:F_cross_squared"]}
{"id": "C11", "title": "Averaged detector response equals the documented value", "statement": "The average over the sky and polarisation angle of F_plus_squared and of F_cross_squared is exactly 3/20 each (3/10 together), and additionally averaging amplitude_modulation over inclination gives 3/20.", "quantifier": "exact integrals over the whole sphere of directions, polarisations and inclinations", "why_tests_cant": "Monte-Carlo tests only approximate an integral", "anchors": ["src/legwork/utils.py:F_plus_squared", "src/legwork/utils.py:F_cross_squared", "src/legwork/strain.py:amplitude_modulation"]}
{"id": "C12", "title": "Position-aware strain and SNR never exceed the averaged ones", "statement": "amplitude_modulation is between 0 and 1 (strictly below 1) for every sky position, polarisation and inclination, so a strain or SNR computed with a position is defined (never the root of a negative number) and is smaller than the averaged one, as docs/limitations.rst claims; the strain is exactly the averaged one times the square root of the modulation.", "quantifier": "all positions, polarisations, inclinations and all sources", "why_tests_cant": "continuum of angles; extreme values sit on a measure-zero set that sampling misses", "anchors": ["src/legwork/strain.py:amplitude_modulation", "src/legwork/strain.py:h_0_n", "src/legwork/snr.py:snr_circ_stationary", "docs/limitations.rst"]}
{"id": "C13", "title": "Circular evolution solves Peters' equation", "statement": "For t before the merger, the separation returned by evol_circ starts at a_i, is differentiable and satisfies da/dt = -beta/a^3; it strictly decreases and the frequency strictly increases with time; from the merger on the separation is 0 and the frequency 100 Hz.", "quantifier": "all masses, initial separations and times t >= 0", "why_tests_cant": "differential equation over a continuum of times", "anchors": ["src/legwork/evol.py:evol_circ"]}
{"id": "C14", "title": "Circular evolution composes", "statement": "Evolving a circular binary by t1 and then by t2 gives the same separation and frequency as evolving it by t1 + t2 in one go (before the merger), so results do not depend on how a history is split.", "quantifier": "all t1, t2 >= 0, all binaries, and any finite list of steps", "why_tests_cant": "unboundedly many ways of splitting a history", "anchors": ["src/legwork/evol.py:evol_circ", "src/legwork/utils.py:get_a_from_f_orb", "src/legwork/utils.py:get_f_orb_from_a"]}
{"id": "C15", "title": "Circular merger time is exactly when evol_circ merges and counts down linearly", "statement": "evol_circ reports a merged binary at time t if and only if t >= get_t_merge_circ, and the merger time recomputed from the evolved separation is the original merger time minus t.", "quantifier": "all binaries, all t >= 0", "why_tests_cant": "boundary equality on a measure-zero set of times", "anchors": ["src/legwork/evol.py:get_t_merge_circ", "src/legwork/evol.py:evol_circ"]}
{"id": "C16", "title": "The two circular frequency evolutions agree", "statement": "evolve_f_orb_circ (with e = 0 and the chirp mass) returns exactly the frequency evol_circ returns (from the component masses) as long as the binary has not merged; after the merger time the first returns merge_f and the second a merged binary; at the very instant of the merger the first returns infinity.", "quantifier": "all masses, initial frequencies and evolution times", "why_tests_cant": "two independently coded closed forms with different prefactors", "anchors": ["src/legwork/evol.py:evolve_f_orb_circ", "src/legwork/evol.py:evol_circ"]}
{"id": "C17", "title": "The stationarity estimate is conservative", "statement": "For every true Peters inspiral (f(t), e(t)) starting at (f_orb_i, ecc_i) and not merged by t_evol, the final frequency never exceeds the value of evolve_f_orb_circ; so any binary determine_stationarity labels stationary really changes its frequency by at most stat_tol, as long as f_orb_i (1 + stat_tol) is below the 1e9 Hz the code uses for merged binaries.", "quantifier": "all solutions of the coupled Peters equations, all initial conditions and durations", "why_tests_cant": "quantifies over ODE solutions; a comparison theorem, not a sample", "anchors": ["src/legwork/evol.py:evolve_f_orb_circ", "src/legwork/evol.py:determine_stationarity"]}
{"id": "C18", "title": "Stationarity is monotone and merged binaries are never stationary", "statement": "If a binary is stationary for a duration it is stationary for every shorter duration, lower chirp mass, lower eccentricity and looser tolerance; a binary that merges within t_evol is not stationary (both for f_orb_i (1 + stat_tol) < 1e9 Hz); component masses and their chirp mass give the same labels; missing masses raise ValueError.", "quantifier": "all pairs of durations, masses, eccentricities and tolerances", "why_tests_cant": "relational property over pairs of inputs", "anchors": ["src/legwork/evol.py:determine_stationarity", "src/legwork/evol.py:evolve_f_orb_circ"]}
{"id": "C19", "title": "Eccentric merger times are bounded by the circular one", "statement": "For 0 <= e < 1, get_t_merge_ecc (exact) is positive, at most get_t_merge_circ and, on the exact-integral branch, at least get_t_merge_circ / peters_f(e); at e = 0 it equals it.", "quantifier": "all masses, separations and eccentricities in [0,1), all three approximation regimes with default tolerances", "why_tests_cant": "integral inequality over a continuum; the repo's test samples 10000 points", "anchors": ["src/legwork/evol.py:get_t_merge_ecc", "src/legwork/evol.py:get_t_merge_circ"]}
{"id": "C20", "title": "The exact eccentric merger time counts down at unit rate along the inspiral", "statement": "Along every trajectory following de_dt, the exact-branch merger time evaluated at the current eccentricity and separation decreases at exactly one second per second, and after evolving for t it is the original one minus t.", "quantifier": "all solutions e(t) of the ODE, all t", "why_tests_cant": "ties the merger-time integral to the ODE solver's right-hand side for every trajectory", "anchors": ["src/legwork/evol.py:get_t_merge_ecc", "src/legwork/evol.py:de_dt", "src/legwork/utils.py:c_0"]}
{"id": "C21", "title": "Merger times are computed per source and do not depend on calling convention", "statement": "In an array call every eccentricity in [0,1] is handled by exactly one of the circular/low/general/high branches, each source's result depends only on that source, and equals the result of the scalar call for that source.", "quantifier": "all array lengths, all sources, all tolerances with 0 < small_e_tol <= large_e_tol", "why_tests_cant": "arbitrary array length and mixtures of branches", "anchors": ["src/legwork/evol.py:get_t_merge_ecc"]}
{"id": "C22", "title": "Input checking accepts exactly the sufficient argument combinations", "statement": "check_mass_freq_input succeeds exactly when (beta or both masses) and (a_i or (f_orb_i and both masses)) are supplied; explicit beta and a_i are returned unchanged even if masses or frequencies are also given; otherwise ValueError.", "quantifier": "all 32 combinations of supplied arguments and all values", "why_tests_cant": "tests cover four combinations", "anchors": ["src/legwork/evol.py:check_mass_freq_input"]}
{"id": "C23", "title": "Timestep arrays", "statement": "Unless the caller supplies timesteps, every row starts at 0, ends at the evolution time of that source, has n_step entries, is equally spaced and non-decreasing; a one-dimensional timesteps argument is repeated for every source; a two-dimensional one is used as is; without t_evol the merger time is used.", "quantifier": "all numbers of sources, step counts and evolution times", "why_tests_cant": "unbounded sizes", "anchors": ["src/legwork/evol.py:create_timesteps_array"]}
{"id": "C24", "title": "avoid_merger keeps timesteps ordered and away from the merger", "statement": "With avoid_merger, non-decreasing timesteps starting at 0 stay non-decreasing and start at 0, no timestep increases, every timestep that was more than t_before ahead of the merger is unchanged and all later ones are replaced by the last admissible one.", "quantifier": "all timestep rows of any length, all merger times, all t_before", "why_tests_cant": "arbitrary lengths and positions of the merger", "anchors": ["src/legwork/evol.py:evol_ecc"]}
{"id": "C25", "title": "Eccentric evolution does not depend on the number of processes", "statement": "evol_ecc returns the same eccentricities whatever n_proc is, for every order in which the worker processes pick up and finish the sources.", "quantifier": "all n_proc, all numbers of sources, all schedules of the pool", "why_tests_cant": "schedules cannot be enumerated by tests", "anchors": ["src/legwork/evol.py:evol_ecc", "src/legwork/evol.py:integrate_de_dt"]}
{"id": "C26", "title": "Evolution functions do not modify the caller's arrays", "statement": "After evol_ecc returns, every array the caller passed in still has its original contents.", "quantifier": "all inputs", "why_tests_cant": "aliasing only shows for particular shapes and flags", "anchors": ["src/legwork/evol.py:evol_ecc", "src/legwork/evol.py:create_timesteps_array"]}
{"id": "C27", "title": "output_vars are returned in the requested order and shape", "statement": "evol_circ and evol_ecc return one entry per recognised requested variable, in the requested order, f_GW is exactly twice f_orb, a single requested variable is returned bare, scalars inputs give one-dimensional results, frequencies without component masses raise ValueError.", "quantifier": "all lists of output variables, with repetitions", "why_tests_cant": "unbounded lists", "anchors": ["src/legwork/evol.py:evol_circ", "src/legwork/evol.py:evol_ecc"]}
{"id": "C28", "title": "Characteristic strain and strain amplitude satisfy h_c^2 = f_n^2 / fdot_n * h_0^2", "statement": "For every harmonic n >= 1, h_c_n and h_0_n computed from the same inputs satisfy h_c^2 * fn_dot = (n f_orb)^2 * h_0^2, with or without interpolated g and with or without a sky position.", "quantifier": "all masses, frequencies, distances, eccentricities, harmonics, Bessel/interpolation routines", "why_tests_cant": "ties two independently coded prefactors for every input", "anchors": ["src/legwork/strain.py:h_0_n", "src/legwork/strain.py:h_c_n", "src/legwork/utils.py:fn_dot"]}
{"id": "C29", "title": "Strain scaling laws and agreement with the quadrupole formula", "statement": "h_0_n is inversely proportional to distance, scales as m_c^(5/3) and f_orb^(2/3), is never negative, and a wave of amplitude h_0_n at frequency n f_orb carries exactly the power that Peters & Mathews assign to harmonic n; for a circular binary h_0_2 = (2^(28/3)/5)^(1/2)/2 (G m_c)^(5/3) (pi f)^(2/3)/(c^4 D).", "quantifier": "all inputs and scale factors", "why_tests_cant": "scaling relations quantify over pairs of inputs", "anchors": ["src/legwork/strain.py:h_0_n"]}
{"id": "C30", "title": "Circular sources emit at n = 2 only", "statement": "For ecc = 0, h_0_n and h_c_n vanish for every harmonic other than 2 and not at 2.", "quantifier": "all masses, frequencies, distances, n >= 1", "why_tests_cant": "infinitely many harmonics", "anchors": ["src/legwork/strain.py:h_0_n", "src/legwork/strain.py:h_c_n", "src/legwork/utils.py:peters_g"]}
{"id": "C31", "title": "Negative interpolated powers are treated as zero", "statement": "If the cubic interpolation of g(n,e) undershoots below zero, the strain of that harmonic is exactly 0 and never NaN, and the other harmonics are unaffected.", "quantifier": "every interpolation routine", "why_tests_cant": "the undershoot depends on the spline table", "anchors": ["src/legwork/strain.py:h_0_n", "src/legwork/strain.py:h_c_n"]}
{"id": "C32", "title": "Invalid harmonics are rejected", "statement": "h_0_n, h_c_n and fn_dot raise ValueError if and only if at least one requested harmonic is below 1, wherever it is in the list.", "quantifier": "all lists of harmonics", "why_tests_cant": "unbounded lists", "anchors": ["src/legwork/strain.py:h_0_n", "src/legwork/strain.py:h_c_n", "src/legwork/utils.py:fn_dot"]}
{"id": "C33", "title": "Strain entries depend only on their own source, timestep and harmonic", "statement": "The (i,j,k) entry of h_0_n / h_c_n equals the single-source single-timestep single-harmonic computation, and the shape is (sources, timesteps, harmonics).", "quantifier": "all array shapes", "why_tests_cant": "broadcasting mistakes depend on coincidences of shapes", "anchors": ["src/legwork/strain.py:h_0_n", "src/legwork/strain.py:h_c_n"]}
{"id": "C34", "title": "Sensitivity curves are infinite out of band and finite positive in band", "statement": "lisa_psd is +inf exactly outside the closed interval [1e-7, 2] Hz and decigo_psd exactly outside [f_low, f_high] (for any f_low above 1e-8 Hz, as the default is); inside, LISA, TianQin and DECIGO noise is finite and strictly positive for every built-in confusion model.", "quantifier": "all frequencies, mission lengths, arm lengths, confusion models", "why_tests_cant": "boundary inclusion is a measure-zero event; positivity over a continuum", "anchors": ["src/legwork/psd.py:lisa_psd", "src/legwork/psd.py:tianqin_psd", "src/legwork/psd.py:decigo_psd"]}
{"id": "C35", "title": "Confusion noise only ever adds noise", "statement": "Every built-in confusion model is non-negative, so the total noise is at least the noise with confusion_noise=None, which adds exactly 0; huang20 is exactly zero outside [1e-4, 1] Hz.", "quantifier": "all frequencies, mission lengths, models", "why_tests_cant": "continuum of frequencies", "anchors": ["src/legwork/psd.py:get_confusion_noise", "src/legwork/psd.py:get_confusion_noise_robson19", "src/legwork/psd.py:get_confusion_noise_huang20", "src/legwork/psd.py:get_confusion_noise_thiele21", "src/legwork/psd.py:get_confusion_noise_karnesis21"]}
{"id": "C36", "title": "power_spectral_density resolves defaults per instrument", "statement": "power_spectral_density equals the chosen instrument's own function with each 'auto' replaced by that instrument's documented default and every explicit value passed through; an unknown instrument or confusion model raises ValueError.", "quantifier": "all instruments, all parameter combinations, all strings", "why_tests_cant": "finite tests cannot cover arbitrary strings and combinations", "anchors": ["src/legwork/psd.py:power_spectral_density", "src/legwork/psd.py:get_confusion_noise"]}
{"id": "C37", "title": "Confusion models pick the nearest fitted mission length", "statement": "robson19 and huang20 use the coefficients published for the tabulated mission length closest to t_obs (the shorter on ties); thiele21 raises ValueError for any mission length other than 4 yr; t_obs='auto' means 4 yr (5 yr for huang20).", "quantifier": "all mission lengths", "why_tests_cant": "ties and regions between tabulated values", "anchors": ["src/legwork/psd.py:get_confusion_noise_robson19", "src/legwork/psd.py:get_confusion_noise_huang20", "src/legwork/psd.py:get_confusion_noise"]}
{"id": "C38", "title": "Missing response file falls back to the approximation", "statement": "If R.npy cannot be found, load_response_function warns and returns the approximate response function.", "quantifier": "all frequencies and file-system states", "why_tests_cant": "the branch is excluded from coverage and needs a broken install", "anchors": ["src/legwork/psd.py:load_response_function"]}
{"id": "C39", "title": "Approximate response function is bounded and decreasing", "statement": "approximate_response_function lies in (0, 3/10], tends down strictly with |f| and equals 3/10 only at f = 0.", "quantifier": "all f, fstar > 0", "why_tests_cant": "continuum", "anchors": ["src/legwork/psd.py:approximate_response_function"]}
{"id": "C40", "title": "SNR is the quadrature sum over harmonics", "statement": "snr_ecc_stationary and snr_ecc_evolving return the square root of the sum of the values returned with ret_snr2_by_harmonic, the flags do not change the SNR itself, and there is exactly one value per harmonic 1..harmonics_required.", "quantifier": "all sources, harmonics_required, noise curves", "why_tests_cant": "unbounded numbers of harmonics and sources", "anchors": ["src/legwork/snr.py:snr_ecc_stationary", "src/legwork/snr.py:snr_ecc_evolving"]}
{"id": "C41", "title": "max_snr_harmonic is the loudest harmonic", "statement": "The reported harmonic lies in 1..harmonics_required, its SNR^2 is the largest and it is the lowest such harmonic.", "quantifier": "all sources and noise curves", "why_tests_cant": "ties and unbounded lists", "anchors": ["src/legwork/snr.py:snr_ecc_stationary", "src/legwork/snr.py:snr_ecc_evolving"]}
{"id": "C42", "title": "Circular and eccentric SNR agree at zero eccentricity", "statement": "snr_ecc_stationary with ecc = 0 and harmonics_required >= 2 equals snr_circ_stationary, with every noise curve and with its n=2 harmonic reported as loudest whenever the SNR is positive.", "quantifier": "all sources, noise curves, harmonics_required >= 2", "why_tests_cant": "tests compare to a tolerance on samples", "anchors": ["src/legwork/snr.py:snr_circ_stationary", "src/legwork/snr.py:snr_ecc_stationary"]}
{"id": "C43", "title": "SNR scaling with distance and observing time", "statement": "Multiplying the distance by k divides every SNR (stationary or evolving) by k, and for an interpolated (fixed) noise curve multiplying t_obs by k multiplies the stationary SNR by sqrt(k). Stationary SNRs are proportional to the chirp mass to the power 5/3.", "quantifier": "all sources, k > 0, noise curves", "why_tests_cant": "relational property over pairs of runs", "anchors": ["src/legwork/snr.py:snr_circ_stationary", "src/legwork/snr.py:snr_ecc_stationary", "src/legwork/snr.py:snr_circ_evolving", "src/legwork/snr.py:snr_ecc_evolving"]}
{"id": "C44", "title": "Out-of-band harmonics contribute nothing and more harmonics never hurt", "statement": "A harmonic whose frequency lies outside the instrument band contributes exactly 0 to SNR^2; increasing harmonics_required never lowers the stationary SNR.", "quantifier": "all sources, all harmonics_required", "why_tests_cant": "unbounded harmonics", "anchors": ["src/legwork/snr.py:snr_ecc_stationary", "src/legwork/psd.py:lisa_psd"]}
{"id": "C45", "title": "Evolving SNR is well defined", "statement": "The SNR of an evolving inspiral is a real non-negative number for every binary that has not merged.", "quantifier": "all binaries, observing times and step counts", "why_tests_cant": "fails only in a narrow window before merger", "anchors": ["src/legwork/snr.py:snr_circ_evolving", "src/legwork/snr.py:snr_ecc_evolving", "src/legwork/evol.py:evol_circ"]}
{"id": "C46", "title": "get_snr treats every selected inspiralling source exactly once", "statement": "In Source.get_snr every non-merged selected source is handled by exactly one of the circular/eccentric x stationary/evolving computations (and one harmonic group), and its SNR is what the corresponding snr function returns for it; merged or unselected sources get 0.", "quantifier": "all collections, all masks, harmonics tables with at most 10000 harmonics", "why_tests_cant": "all mixtures of four kinds and four groups in arrays of any length", "anchors": ["src/legwork/source.py:Source.get_snr", "src/legwork/source.py:Source.get_snr_stationary", "src/legwork/source.py:Source.get_snr_evolving", "src/legwork/source.py:Source.get_source_mask"]}
{"id": "C47", "title": "Each source's SNR is independent of the other sources in the collection", "statement": "Computing SNRs of a subset (sources[mask].get_snr()) gives the same values as computing all and then taking the subset.", "quantifier": "all collections, all index arrays", "why_tests_cant": "all subsets of all collections", "anchors": ["src/legwork/source.py:Source.get_snr", "src/legwork/source.py:Source.__getitem__"]}
{"id": "C48", "title": "Merged sources have zero strain and SNR and unselected ones are not returned", "statement": "get_h_0_n, get_h_c_n, get_snr_stationary and get_snr_evolving return one row per selected source, in order, equal to the direct computation for inspiralling ones and 0 for merged ones.", "quantifier": "all collections and masks", "why_tests_cant": "arbitrary masks", "anchors": ["src/legwork/source.py:Source.get_h_0_n", "src/legwork/source.py:Source.get_h_c_n"]}
{"id": "C49", "title": "Computing SNR for a subset leaves the other sources' stored SNR alone", "statement": "Calling an SNR method with which_sources changes Source.snr and max_snr_harmonic only for the selected inspiralling sources.", "quantifier": "all previous states, all masks", "why_tests_cant": "depends on call history", "anchors": ["src/legwork/source.py:Source.get_snr", "src/legwork/source.py:Source.get_snr_stationary", "src/legwork/source.py:Source.get_snr_evolving"]}
{"id": "C50", "title": "The interpolated sensitivity curve always matches sc_params", "statement": "After any history of operations on a Source (item assignment, update, whole assignment, |=, setdefault, SNR calls, toggling interpolate_sc, indexing, copying, evolving), whenever the last operation returned normally, the interpolated curve is the one for the current sc_params (or absent if interpolation is off).", "quantifier": "all finite histories of operations", "why_tests_cant": "histories are unbounded", "anchors": ["src/legwork/source.py:SensitivityCurveParams", "src/legwork/source.py:Source.sc_params", "src/legwork/source.py:Source.set_sc", "src/legwork/source.py:Source.get_snr"]}
{"id": "C51", "title": "sc_params always holds exactly the documented keys", "statement": "After any history of dictionary operations sc_params has exactly the six documented keys; unknown keys raise KeyError and leave everything unchanged; keys cannot be removed. A key that is written gets the value written and the others keep theirs; construction and assignment give the keys that are not supplied their documented defaults (LISA, no custom PSD, exact response, and \"auto\" for observing time, arm length and confusion noise).", "quantifier": "all finite histories of dictionary operations", "why_tests_cant": "dict has many mutators and histories are unbounded", "anchors": ["src/legwork/source.py:SensitivityCurveParams"]}
{"id": "C52", "title": "The default observing time follows the instrument", "statement": "If the user never sets t_obs, SNR calculations for an instrument use that instrument's default mission length, the same one power_spectral_density uses, whatever was computed before.", "quantifier": "all histories of SNR calls", "why_tests_cant": "history dependent", "anchors": ["src/legwork/source.py:Source.get_snr", "src/legwork/source.py:Source.get_snr_stationary", "src/legwork/source.py:Source.get_snr_evolving", "src/legwork/source.py:Source.get_source_mask", "src/legwork/psd.py:power_spectral_density"]}
{"id": "C53", "title": "Harmonic tables always match gw_lum_tol", "statement": "After any sequence of assignments to gw_lum_tol, harmonics_required, max_strain_harmonic and ecc_tol are those of the current tolerance.", "quantifier": "all sequences of assignments, including failing ones", "why_tests_cant": "history dependent", "anchors": ["src/legwork/source.py:Source.gw_lum_tol", "src/legwork/source.py:Source.create_harmonics_functions", "src/legwork/source.py:Source.find_eccentric_transition"]}
{"id": "C54", "title": "harmonics_required delivers the requested luminosity", "statement": "On the tabulated eccentricities, harmonics_required is at least 2, at most n_max, non-decreasing in eccentricity, captures at least a fraction 1 - gw_lum_tol of the luminosity unless it is n_max, and between grid points it is the ceiling of the linear interpolation, hence between the neighbouring tabulated values; eccentricities beyond the table get the maximum.", "quantifier": "all tolerances, all tables of g(n,e), all eccentricities", "why_tests_cant": "while-loop over arbitrary tables", "anchors": ["src/legwork/source.py:Source.create_harmonics_functions"]}
{"id": "C55", "title": "max_strain_harmonic returns the harmonic with the largest tabulated power", "statement": "At tabulated eccentricities max_strain_harmonic returns a harmonic of maximal g(n,e); beyond the table it returns the largest such harmonic.", "quantifier": "all tables, all eccentricities", "why_tests_cant": "the out-of-table value is only reached for extreme eccentricities", "anchors": ["src/legwork/source.py:Source.create_harmonics_functions"]}
{"id": "C56", "title": "Sources treated as circular meet the luminosity tolerance", "statement": "ecc_tol is the largest grid eccentricity at which the n=2 harmonic carries at least a fraction 1 - gw_lum_tol of the luminosity, so every grid eccentricity treated as circular is within tolerance.", "quantifier": "all tolerances", "why_tests_cant": "off-by-one on a grid of 10000 points", "anchors": ["src/legwork/source.py:Source.find_eccentric_transition", "src/legwork/source.py:Source.get_source_mask"]}
{"id": "C57", "title": "Indexing keeps all per-source attributes aligned", "statement": "sources[ind] selects the same original rows, in the same order, from every per-source attribute; integers, slices, integer and boolean arrays agree with Python/numpy indexing; indexing twice equals indexing by the composition; copy() preserves every attribute; masks of wrong length and non-integer indices raise ValueError.", "quantifier": "all collections, all index expressions", "why_tests_cant": "unbounded index expressions", "anchors": ["src/legwork/source.py:Source.__getitem__", "src/legwork/source.py:Source.copy"]}
{"id": "C58", "title": "Copies and subsets are isolated from the original", "statement": "Changing sensitivity curve parameters or computing SNRs on a copy or subset never changes the original (nor any other collection), and vice versa. A copy or subset shares no array with any collection, so in-place changes of one do not show in the other either.", "quantifier": "all worlds of collections and all interleavings of operations on them", "why_tests_cant": "interleaved histories over many objects", "anchors": ["src/legwork/source.py:Source.__getitem__", "src/legwork/source.py:SensitivityCurveParams.__copy__", "src/legwork/source.py:SensitivityCurveParams.__init__"]}
{"id": "C59", "title": "Saving and loading round-trips", "statement": "from_file(save(sources)) yields a collection with identical per-source attributes, tolerances, interpolation settings, computed results and sensitivity curve parameters (custom functions replaced by defaults).", "quantifier": "all collections, all presence/absence patterns of optional attributes, all parameter values", "why_tests_cant": "combinatorially many presence patterns", "anchors": ["src/legwork/source.py:Source.save", "src/legwork/source.py:Source.from_file", "src/legwork/source.py:_write_dataset", "src/legwork/source.py:_read_dataset"]}
{"id": "C60", "title": "Saving never silently destroys data", "statement": "save without overwrite never touches an existing file; with overwrite, if the process stops or an error occurs at any point during the save, the file afterwards holds either the complete old or the complete new collection.", "quantifier": "all crash points during a save", "why_tests_cant": "crash points", "anchors": ["src/legwork/source.py:Source.save"]}
{"id": "C61", "title": "Every saved collection can be loaded", "statement": "from_file succeeds on every file written by save, including collections with custom functions (with a warning).", "quantifier": "all collections", "why_tests_cant": "depends on a combination of custom instrument and interpolation", "anchors": ["src/legwork/source.py:Source.save", "src/legwork/source.py:Source.from_file", "src/legwork/source.py:Source.set_sc"]}
{"id": "C62", "title": "Merging is permanent and merger times count down through any evolution history", "statement": "After any sequence of non-negative evolve_sources calls, t_merge is max(0, original - total time), merged holds exactly the sources whose original merger time is at most the total time evolved up to the last call, merged sources sit at 100 Hz with zero eccentricity, and once merged a source stays merged.", "quantifier": "all collections and all finite sequences of evolution times", "why_tests_cant": "histories of evolution calls", "anchors": ["src/legwork/source.py:Source.evolve_sources", "src/legwork/source.py:Source.get_merger_time"]}
{"id": "C63", "title": "Evolving circular sources in several steps equals evolving once", "statement": "For circular sources, evolve_sources(t1) followed by evolve_sources(t2) (or any history of non-negative times) gives the same collection as evolve_sources of the total time, as long as no intermediate separation is exactly the value 1e-30 AU that evol_circ uses to mark merged binaries.", "quantifier": "all collections of circular sources, all finite sequences of times", "why_tests_cant": "unbounded splittings", "anchors": ["src/legwork/source.py:Source.evolve_sources", "src/legwork/evol.py:evol_circ"]}
{"id": "C64", "title": "evolve_sources(create_new_class=True) returns an evolved twin and leaves the original alone", "statement": "The new collection agrees with the original on everything except eccentricity, frequency, merger state and merger time, and the original's sources are not changed.", "quantifier": "all collections", "why_tests_cant": "optional attributes are easily forgotten", "anchors": ["src/legwork/source.py:Source.evolve_sources"]}
{"id": "C65", "title": "Source construction validates its input", "statement": "Constructing a Source fails exactly in the documented cases (no f_orb and no a; inclination or polarisation without position; position with any eccentric source; missing units; arrays of different length) and otherwise all per-source arrays have the same length.", "quantifier": "all combinations of supplied arguments and lengths", "why_tests_cant": "combinations of optional arguments", "anchors": ["src/legwork/source.py:Source.__init__"]}
{"id": "C66", "title": "Semi-major axis property", "statement": "Setting sources.a and reading it back returns the same values, f_orb is updated consistently, and constructing from a equals constructing from the corresponding f_orb.", "quantifier": "all positive separations and masses", "why_tests_cant": "exact inverse over a continuum", "anchors": ["src/legwork/source.py:Source.a"]}
{"id": "C67", "title": "get_merger_time returns and stores what was asked", "statement": "With save_in_class the stored and returned merger times cover all sources regardless of which_sources; otherwise nothing is stored and exactly the selected sources are returned; merged sources have merger time 0.", "quantifier": "all masks and merge states", "why_tests_cant": "combinations of flags and masks", "anchors": ["src/legwork/source.py:Source.get_merger_time"]}
{"id": "C68", "title": "Source masks partition the collection", "statement": "circular=True/False and stationary=True/False split all sources with a numeric eccentricity into disjoint classes covering every such source; None imposes no condition; anything else raises ValueError.", "quantifier": "all collections, all mask arguments", "why_tests_cant": "arbitrary collections", "anchors": ["src/legwork/source.py:Source.get_source_mask"]}
{"id": "C69", "title": "Stored SNRs describe the current sources", "statement": "Whenever Source.snr is set, it is the SNR of the sources in their current state.", "quantifier": "all histories of SNR and evolution calls", "why_tests_cant": "history dependent", "anchors": ["src/legwork/source.py:Source.snr", "src/legwork/source.py:Source.evolve_sources"]}
{"id": "C70", "title": "Points on a sensitivity-curve plot sit exactly SNR times above the curve", "statement": "plot_sources_on_sc draws exactly the sources above the cutoff, at their dominant frequency, at a height equal to SNR times the plotted curve at that frequency for both ASD and characteristic strain, with the weights of the same sources.", "quantifier": "all samples, cutoffs, instruments", "why_tests_cant": "arbitrary selections", "anchors": ["src/legwork/visualisation.py:plot_sources_on_sc", "src/legwork/visualisation.py:plot_sensitivity_curve"]}
{"id": "C71", "title": "Sources that cannot be plotted are reported", "statement": "Source.plot_sources_on_sc warns about every detectable inspiralling evolving source, counting circular and eccentric ones separately and each once.", "quantifier": "all collections", "why_tests_cant": "needs collections with evolving eccentric sources; excluded from coverage", "anchors": ["src/legwork/source.py:Source.plot_sources_on_sc"]}
{"id": "C72", "title": "Plot functions never leak style changes", "statement": "After any plotting function returns or raises, matplotlib's global style parameters are what they were before, also when plotting functions are nested. While it runs LEGWORK's style is in force (serif fonts without TeX, minor ticks). Exceptions of what a plotting function calls reach its caller, and nothing it does afterwards is left out.", "quantifier": "all call trees of plotting functions, all raising points", "why_tests_cant": "all nestings and exception points", "anchors": ["src/legwork/visualisation.py:legwork_plot_style"]}
{"id": "C73", "title": "Logging is attached once and respects user configuration", "statement": "However many times the logging module is imported or reloaded, there is at most one LEGWORK handler added by the package, no message is duplicated to the root logger, and user-configured handlers and levels are not overwritten; every message is prefixed 'LEGWORK <level>: ' (the level's name in small letters, also of levels the user added) with colour codes only on a terminal.", "quantifier": "all histories of reloads and user configuration", "why_tests_cant": "history dependent", "anchors": ["src/legwork/_logging.py:LegworkFormatter", "src/legwork/_logging.py:logger"]}
{"id": "C74", "title": "Sources are evolved independently and array and scalar calls agree", "statement": "Row i of what evol_circ or evol_ecc returns for arrays of sources is exactly what the scalar call for source i returns, for every output variable, with and without avoid_merger, whatever the other sources are.", "quantifier": "all numbers of sources, all values, all shared time grids, all schedules of the pool", "why_tests_cant": "arbitrary populations; locality is relational", "anchors": ["src/legwork/evol.py:evol_circ", "src/legwork/evol.py:evol_ecc", "src/legwork/evol.py:create_timesteps_array"]}
{"id": "C75", "title": "evol_ecc samples a true Peters inspiral", "statement": "If the ODE integrator is exact, the eccentricities, separations and frequencies evol_ecc returns at the requested times are the values of one solution of Peters' coupled equations starting at (a_i, ecc_i), related by Kepler's third law. Whatever the integrator returns, every returned eccentricity is a finite number: a failed (nan) step is given eccentricity 0.", "quantifier": "all masses, separations, eccentricities in (0,1), all non-decreasing times before the merger", "why_tests_cant": "continuum of solutions of a differential equation", "anchors": ["src/legwork/evol.py:evol_ecc", "src/legwork/evol.py:integrate_de_dt", "src/legwork/evol.py:de_dt"]}
{"id": "C76", "title": "Built-in noise curves equal the published formulae", "statement": "In band, lisa_psd, tianqin_psd and decigo_psd equal the published instrument formulae (Robson+19 Eq. 9-12, Huang+20 Eq. 13, Yagi & Seto 2011) plus the published confusion fit (Robson+19 Table 1, Huang+20 Table II, Thiele+21, Karnesis+21) for the chosen mission length, at every frequency.", "quantifier": "every frequency in band, arm length, mission length, response table and built-in confusion model", "why_tests_cant": "Unit tests sample a few frequencies and compare with the same code's earlier output; a wrong coefficient in one row of a table or a wrong exponent outside the sampled range goes unnoticed.", "anchors": ["src/legwork/psd.py:lisa_psd", "src/legwork/psd.py:tianqin_psd", "src/legwork/psd.py:decigo_psd", "src/legwork/psd.py:get_confusion_noise_robson19", "src/legwork/psd.py:get_confusion_noise_huang20", "src/legwork/psd.py:get_confusion_noise_thiele21", "src/legwork/psd.py:get_confusion_noise_karnesis21"]}
{"id": "C77", "title": "A custom confusion noise function is used the same way by every instrument", "statement": "A custom confusion_noise function is called as noise(f, t_obs) with the same kind of arguments whatever the instrument, and what it returns is added to the instrument noise at every frequency in band.", "quantifier": "every custom confusion function, instrument and frequency array", "why_tests_cant": "Tests use one custom function with one instrument.", "anchors": ["src/legwork/psd.py:lisa_psd", "src/legwork/psd.py:tianqin_psd", "src/legwork/psd.py:decigo_psd"]}
{"id": "C78", "title": "SNR functions treat sources independently", "statement": "The SNR (and loudest harmonic, and SNR^2 by harmonic) of a source returned by any of the four SNR functions does not depend on which other sources are in the call, on their order, or on the number of processes.", "quantifier": "all populations, sub-populations, orders, process counts and schedules", "why_tests_cant": "Tests try a few populations; independence must hold for every population and every schedule.", "anchors": ["src/legwork/snr.py:snr_circ_stationary", "src/legwork/snr.py:snr_ecc_stationary", "src/legwork/snr.py:snr_circ_evolving", "src/legwork/snr.py:snr_ecc_evolving"]}
{"id": "C79", "title": "The evolving SNR is the documented integral", "statement": "The SNR^2 of each harmonic of an evolving source is the trapezium rule, over the gravitational-wave frequencies of the evolved orbit, for h_c^2 / (f_n^2 S_n(f_n)) with the characteristic strain and the eccentricity of the same time.", "quantifier": "all sources, step counts and noise curves", "why_tests_cant": "Tests compare two numbers; the quadrature must pair the right strain, frequency and noise at every step of every source.", "anchors": ["src/legwork/snr.py:snr_circ_evolving", "src/legwork/snr.py:snr_ecc_evolving"]}
{"id": "C80", "title": "An inspiralling source in band has a positive SNR", "statement": "The evolving SNR of an unmerged source that is observed for a positive time at a frequency in the band of the detector is positive, however close to its merger it is.", "quantifier": "all binaries that have not merged", "why_tests_cant": "Tests use binaries far from merger; the claim concerns the last seconds and weeks too.", "anchors": ["src/legwork/snr.py:snr_circ_evolving", "src/legwork/snr.py:snr_ecc_evolving"]}
{"id": "C81", "title": "Returned SNRs stay what they were", "statement": "The array get_snr returned is the user's: a later SNR calculation on the same collection does not change the values in it.", "quantifier": "all collections, all sequences of SNR calls", "why_tests_cant": "needs every sequence of calls; a test checks the array right after the call", "anchors": ["src/legwork/source.py:Source.get_snr", "src/legwork/source.py:Source.get_snr_stationary", "src/legwork/source.py:Source.get_snr_evolving"]}
{"id": "C82", "title": "An interpolated sensitivity curve agrees with the exact one", "statement": "With interpolate_sc the curve used for SNRs equals power_spectral_density for the current sc_params at each of the 10000 log-spaced frequencies from 1e-7 to 2 Hz, lies between the neighbouring exact values elsewhere in that range, and is 1e30 (no signal) outside it.", "quantifier": "all parameter sets, all noise curves, all frequencies", "why_tests_cant": "the curve is only ever sampled at a few frequencies by tests", "anchors": ["src/legwork/source.py:Source.set_sc"]}
{"id": "C83", "title": "evolve_sources evolves each source as the evol functions would", "statement": "Source.evolve_sources(t) leaves each source that merges within t at 100 Hz with zero eccentricity and marked merged, and every other source with the orbital frequency and eccentricity that evol_circ (circular) or evol_ecc (eccentric) return for that source alone after t; merger times count down by t, and masses, distances, weights, angles, settings and order are unchanged.", "quantifier": "every collection, every mixture of merged, circular and eccentric sources, every scalar or per-source evolution time, every order in which worker processes finish", "why_tests_cant": "the rows of the arrays are regrouped by merger state and eccentricity and scattered back; a test sees a few mixtures only", "anchors": ["src/legwork/source.py:Source.evolve_sources", "src/legwork/source.py:Source.get_merger_time"]}
{"id": "C84", "title": "The approximate merger times for nearly circular and nearly parabolic binaries are accurate", "statement": "With the default tolerances (or a smaller small_e_tol, a larger large_e_tol), get_t_merge_ecc is within 2.3% of Peters' integral for every binary and every eccentricity 0 <= e < 1 (documented: approximately 2%). Below small_e_tol the time is never too long and too short by at most a fraction 1.02 e^2; above large_e_tol it is never too short and too long by at most a fraction 1.5 sqrt(1-e^2).", "quantifier": "all masses, separations and eccentricities, all tolerances at least as strict as the defaults", "why_tests_cant": "tests compare a handful of eccentricities; the bound is over a continuum including both singular ends of the integral", "anchors": ["src/legwork/evol.py:get_t_merge_ecc"]}
{"id": "C85", "title": "The fitted merger times are as accurate as documented", "statement": "With exact=False get_t_merge_ecc returns the circular merger time times Mandel's (2021) fit divided by LEGWORK's correction polynomial, and this is within the documented 0.5% of Peters' integral.", "quantifier": "all masses, separations and eccentricities", "why_tests_cant": "the correction is a degree-10 polynomial with a steep e^1000 term; the worst errors sit in a narrow range near e = 0.9976", "anchors": ["src/legwork/evol.py:t_merge_mandel_fit", "src/legwork/evol.py:get_t_merge_ecc"]}
{"id": "C86", "title": "The detector response is the orbit average of the response of a LISA-like constellation", "statement": "For every direction and polarisation the averaged squared responses equal the average over one orbit of the squared responses of the interferometer formed by two arms of three spacecraft on LISA's orbits, computed from their positions; amplitude_modulation is 5/4 times the orbit average of the power a source of that inclination leaves in the detector.", "quantifier": "all sky positions, polarisations, inclinations", "why_tests_cant": "a continuum of angles; the closed forms hide the geometry, so a wrong sign or angle convention is not visible in sampled values", "anchors": ["src/legwork/utils.py:F_plus_squared", "src/legwork/utils.py:F_cross_squared", "src/legwork/utils.py:D_plus_squared", "src/legwork/utils.py:D_cross_squared", "src/legwork/utils.py:D_plus_D_cross", "src/legwork/strain.py:amplitude_modulation"]}
{"id": "C87", "title": "Incomplete sky arguments are never ignored", "statement": "A strain function given some but not all of position, polarisation and inclination raises (AttributeError without a position, TypeError with one) instead of returning averaged or partly modulated strains.", "quantifier": "all populations, harmonics and combinations of sky arguments", "why_tests_cant": "combinations of optional arguments are rarely tested together", "anchors": ["src/legwork/strain.py:h_0_n", "src/legwork/strain.py:h_c_n", "src/legwork/strain.py:amplitude_modulation"]}
{"id": "C88", "title": "One entry per source, always", "statement": "Every per-source attribute of a collection (masses, distance, frequency, eccentricity, weights, sky angles, merger times, SNRs, loudest harmonics, merged flags) that is set has exactly one entry per source, after any sequence of calls on it, including calls that raised, and in every subset and every evolved collection made from it, provided the optional arrays given to the constructor and the separations assigned to a have one entry per source.", "quantifier": "all worlds, constructor arguments, histories of documented operations with any arguments, subsets of subsets, evolved collections", "why_tests_cant": "all histories and all points where an operation may raise", "anchors": ["src/legwork/source.py:Source.__init__", "src/legwork/source.py:Source.__getitem__", "src/legwork/source.py:Source.get_snr", "src/legwork/source.py:Source.get_snr_stationary", "src/legwork/source.py:Source.get_snr_evolving", "src/legwork/source.py:Source.get_merger_time", "src/legwork/source.py:Source.evolve_sources", "src/legwork/source.py:SensitivityCurveParams"]}
{"id": "C89", "title": "Plots of variables show the right values of the right sources", "statement": "plot_source_variables draws exactly the chosen sources, leaving out merged ones unless asked not to; every point has the x value, y value and weight of one source, and the gravitational wave frequency is twice the orbital one. Unknown variable names, and SNRs that have not been computed, are refused with a ValueError before anything is drawn.", "quantifier": "all collections, masks and pairs of variables", "why_tests_cant": "every combination of variables, masks and merged sources; the method is excluded from coverage", "anchors": ["src/legwork/source.py:Source.plot_source_variables", "src/legwork/visualisation.py:plot_1D_dist", "src/legwork/visualisation.py:plot_2D_dist"]}
{"id": "C90", "title": "Plot functions leave matplotlib's unit converters and Python's warning filters as they found them", "statement": "After plot_1D_dist, plot_2D_dist, plot_sensitivity_curve, plot_sources_on_sc or a plotting method of a collection returns or raises, the converter registered for astropy quantities in matplotlib's registry and Python's list of warning filters are those before the call, whatever the drawing did inside, as long as the calls outside the drawing blocks keep them.", "quantifier": "all programs run as the drawing, all points at which they raise, all prior converters and filters, nested calls", "why_tests_cant": "A test sees one call with one figure; the claim is about every point at which drawing may raise and every prior state of the global registries.", "anchors": ["src/legwork/visualisation.py:plot_1D_dist", "src/legwork/visualisation.py:plot_2D_dist", "src/legwork/visualisation.py:plot_sensitivity_curve", "src/legwork/visualisation.py:plot_sources_on_sc"]}
{"id": "C91", "title": "Every message goes through the logger and can be silenced by its level", "statement": "Whatever a function of the package tells the user (warnings of saving, loading, computing SNRs, plotting), it tells through the 'legwork' logger, so that a level set there above that of the message silences it.", "quantifier": "all messages of the package, all states of the logger", "why_tests_cant": "Tests do not enumerate the messages together with the levels a user may set.", "anchors": ["src/legwork/_logging.py:logger", "src/legwork/source.py:Source.save", "src/legwork/source.py:Source.from_file", "src/legwork/source.py:Source.get_snr"]}
{"id": "C92", "title": "A collection's data are its own", "statement": "Masses, distances, frequencies, eccentricities, weights and angles of a collection are its own: once it has been made, what the user writes into the arrays passed to the constructor, or into the arrays of another collection, does not change it; and no method writes into an array of the user's.", "quantifier": "all programs that make collections from arrays, from other collections by indexing and by evolve_sources, and write into arrays", "why_tests_cant": "needs all aliasing patterns and histories; a test looks at one", "anchors": ["src/legwork/source.py:Source.__init__", "src/legwork/source.py:Source.__getitem__", "src/legwork/source.py:Source.evolve_sources", "src/legwork/utils.py:ensure_array"]}
{"id": "C93", "title": "Sky positions make the SNR of circular sources position-aware, and of those only", "statement": "In a collection built with sky positions, inclinations and polarisations, get_snr returns for every inspiralling circular source its averaged SNR (the one of the same collection without positions) times the square root of amplitude_modulation at its own angles, so always less (docs/limitations.rst), and leaves the SNR of eccentric sources averaged; get_h_0_n and get_h_c_n multiply the strains of every inspiralling source by the same factor.", "quantifier": "all collections, all mixtures of circular/eccentric and stationary/evolving sources, all angles, all classes", "why_tests_cant": "continuum of angles and every mixture of kinds in arrays of any length; a test of get_snr with positions uses a few stationary sources", "anchors": ["src/legwork/source.py:Source.get_snr", "src/legwork/source.py:Source.get_snr_stationary", "src/legwork/source.py:Source.get_snr_evolving", "src/legwork/source.py:Source.get_h_0_n", "src/legwork/source.py:Source.get_h_c_n", "src/legwork/strain.py:amplitude_modulation", "docs/limitations.rst"]}
{"id": "C94", "title": "Evolution and merger times do not depend on the units of the inputs", "statement": "The functions of evol.py (merger times, circular and eccentric evolution, evolving a frequency, deciding stationarity) return the same physical result however the masses, separations, frequencies and times are written: the same quantities in other units of the right dimension give identical outputs, in the documented units (Gyr for merger times; yr, AU and Hz for evolutions; no unit for eccentricities; the unit of merge_f for evolve_f_orb_circ), or the same error. Times without a unit, or with a unit that is not one of time, are rejected.", "quantifier": "all arguments (scalars, arrays or absent), all output variables, all choices of units of the right dimensions, every quadrature and ODE solver and every schedule of the workers", "why_tests_cant": "tests write each quantity in one fixed unit; independence of units ranges over all units and all inputs, including values that a unit conversion turns into a special value", "anchors": ["src/legwork/evol.py:get_t_merge_circ", "src/legwork/evol.py:get_t_merge_ecc", "src/legwork/evol.py:evol_circ", "src/legwork/evol.py:evol_ecc", "src/legwork/evol.py:evolve_f_orb_circ", "src/legwork/evol.py:determine_stationarity", "src/legwork/evol.py:create_timesteps_array", "src/legwork/evol.py:check_mass_freq_input"]}
{"id": "C95", "title": "Sensitivity curves do not depend on the units of the inputs", "statement": "power_spectral_density and get_confusion_noise return the same noise power, in 1/Hz, however frequencies, mission length, arm length and custom confusion noise are written: the same quantities in other units of the right dimension give identical results or the same error. Frequencies, mission lengths or arm lengths without a unit, or with a unit of another dimension, raise an error.", "quantifier": "all arrays of frequencies, all built-in instruments, response functions and confusion noises, all mission and arm lengths, all choices of units of the right dimensions", "why_tests_cant": "tests write each quantity in one fixed unit; independence of units ranges over all units, all frequencies and all combinations of instrument and confusion noise", "anchors": ["src/legwork/psd.py:power_spectral_density", "src/legwork/psd.py:lisa_psd", "src/legwork/psd.py:tianqin_psd", "src/legwork/psd.py:decigo_psd", "src/legwork/psd.py:get_confusion_noise", "src/legwork/psd.py:get_confusion_noise_robson19", "src/legwork/psd.py:get_confusion_noise_huang20", "src/legwork/psd.py:get_confusion_noise_thiele21", "src/legwork/psd.py:get_confusion_noise_karnesis21"]}
{"id": "C96", "title": "Signal-to-noise ratios do not depend on the units of the inputs", "statement": "The four SNR functions return the same bare numbers however masses, frequencies, distances, observation time, merger times, arm length and angles are written: the same quantities in other units of the right dimension give identical SNRs and loudest harmonics, or the same error, whether the noise is computed or taken from the interpolated curve of a collection. An observation time without a unit, or with a unit that is not one of time, is rejected.", "quantifier": "all arrays of sources, all observation and merger times, all detector settings and sensitivity curves, all choices of units of the right dimensions, every quadrature and ODE solver and every schedule of the workers", "why_tests_cant": "tests write each quantity in one fixed unit; independence of units ranges over all units, all sources and all settings, including values that a unit conversion turns into a special value", "anchors": ["src/legwork/snr.py:snr_circ_stationary", "src/legwork/snr.py:snr_ecc_stationary", "src/legwork/snr.py:snr_circ_evolving", "src/legwork/snr.py:snr_ecc_evolving", "src/legwork/source.py:Source.set_sc"]}
{"id": "C97", "title": "A collection behaves the same whatever units it is described in", "statement": "Two users who build a collection from the same binaries written in different units (of the right dimensions) and then make the same calls - setting parameters, separations or tolerances, computing SNRs, masks, strains, merger times, evolving the orbits in place or into a new collection - with times and lengths written in different units, see the same errors and end with collections of the same physical content. SNRs, strains and masks are identical; chirp masses are reported in solar masses, separations in AU and merger times in Gyr whatever the inputs were in; the masses, distances and sky positions stay in the units they were given in, the frequencies stay or are in Hz.", "quantifier": "all collections, all sequences of calls (failed ones included), all choices of units of the right dimensions, all user-supplied curves and noises that do not depend on units, every quadrature, ODE solver and schedule", "why_tests_cant": "tests run a few call sequences in one choice of units; independence of units over histories ranges over all units, all sequences of calls and all collections", "anchors": ["src/legwork/source.py:Source.__init__", "src/legwork/source.py:Source.a", "src/legwork/source.py:Source.m_c", "src/legwork/source.py:Source.get_source_mask", "src/legwork/source.py:Source.get_h_0_n", "src/legwork/source.py:Source.get_h_c_n", "src/legwork/source.py:Source.get_snr", "src/legwork/source.py:Source.get_snr_stationary", "src/legwork/source.py:Source.get_snr_evolving", "src/legwork/source.py:Source.get_merger_time", "src/legwork/source.py:Source.evolve_sources", "src/legwork/source.py:SensitivityCurveParams"]}
{"id": "C98", "title": "Quantities of the wrong dimension given to a collection are rejected", "statement": "A mass, distance, frequency, separation, evolution time or observation time of the wrong dimension (or a time without a unit) that is handed to a collection is rejected with an error, and the orbits and results already stored stay as they were; the unit in which a custom sensitivity curve answers is respected wherever the curve is used.", "quantifier": "all collections, all values and units, all worlds (solvers, curves), all other arguments of the calls", "why_tests_cant": "tests try one or two wrong units at one or two entry points; that no wrong unit is silently taken as a number must be shown for all units and all states of the collection", "anchors": ["src/legwork/source.py:Source.__init__", "src/legwork/source.py:Source.evolve_sources", "src/legwork/source.py:Source.a", "src/legwork/source.py:Source.get_snr", "src/legwork/source.py:Source.get_source_mask", "src/legwork/source.py:Source.m_c", "src/legwork/source.py:Source.get_h_0_n", "src/legwork/source.py:Source.get_h_c_n", "src/legwork/source.py:Source.set_sc"]}
{"id": "C99", "title": "The verification binaries are the published ones and stay aligned with their labels", "statement": "VerificationBinaries() always succeeds when the packaged files are present and holds the packaged table: entry by entry, masses, distances, inclinations, positions, labels and reference SNRs belong to the same binary, orbits are circular and the orbital frequency is half the frequency of the wave. Whatever is called on the object afterwards (also calls that raise), masses, distances and sky coordinates stay in the order of the labels, orbits stay circular, and the loudest harmonic stays the second; subsets, which would lose the labels, are always refused. The sixteen binaries in the package have different labels and are all treated as stationary for observations of up to five years.", "quantifier": "all tables with one entry per binary in each column, all worlds in which the packaged files can be read, all histories of calls, all indices, all observation times up to five years", "why_tests_cant": "a test looks at one object after one or two calls; that no history of calls separates the data from the labels needs an invariant over all histories, and that the packaged binaries are stationary for every observing time up to five years is a statement about a continuum", "anchors": ["src/legwork/source.py:VerificationBinaries.__init__", "src/legwork/source.py:VerificationBinaries.__getitem__", "src/legwork/source.py:Source.get_source_mask", "src/legwork/source.py:Source.evolve_sources", "src/legwork/source.py:Source.get_snr", "src/legwork/verification_binaries.npy"]}
{"id": "C100", "title": "Results are reproducible: only sky angles that are left out are drawn at random", "statement": "Building a collection without sky positions, or with positions, inclinations and polarisations, gives the same collection in every session, and no later call depends on random numbers: its results, its errors and the state it leaves are functions of the inputs. If a position is given without inclination or polarisation, whether the constructor succeeds does not depend on the draw, and the collections of two sessions (also two VerificationBinaries objects) differ only in the angles that were left out; these angles then do change the SNRs of circular sources treated as stationary.", "quantifier": "all worlds (also all values the random generator may return), all constructor arguments, all histories of calls, all evolved copies, all tables of verification binaries", "why_tests_cant": "tests run with one seed or without looking at randomness at all; independence of the draws must hold for all values drawn and all call sequences", "anchors": ["src/legwork/source.py:Source.__init__", "src/legwork/source.py:VerificationBinaries.__init__", "src/legwork/source.py:Source.evolve_sources", "src/legwork/source.py:Source.get_snr"]}
{"id": "C101", "title": "Axis labels of plots state the unit of the numbers on the axis", "statement": "The label that plot_source_variables makes for an axis names the variable and the unit in which the numbers on that axis are drawn; when logarithms are drawn, the label says that it is the logarithm of the variable divided by that unit; eccentricities and SNRs carry no unit. The axes of the sensitivity curve are labelled with the units they count in.", "quantifier": "all collections, all variables and units, all choices of sources, all plot types, scales, labels and keyword arguments; all frequency ranges and noise curves", "why_tests_cant": "tests only check that plots do not raise; whether the text on an axis agrees with the numbers must hold for all units and options", "anchors": ["src/legwork/source.py:Source.plot_source_variables", "src/legwork/visualisation.py:plot_1D_dist", "src/legwork/visualisation.py:plot_2D_dist", "src/legwork/visualisation.py:plot_sensitivity_curve"]}
{"id": "C102", "title": "Labels and limits asked for are in force when a plot returns", "statement": "After a plotting function returns, each axis has the label and the limits that were asked for, and labels and limits that were not asked for are as before; if the logarithms of the values are drawn, the limits are converted with them, so that a value lies between the limits asked for exactly if what is drawn for it lies between the limits of the axis.", "quantifier": "all data, units, plot types, scales, labels, limits and keyword arguments, all axes drawn on before", "why_tests_cant": "tests do not look at the axes; and that limits and data are converted alike is a statement about all values", "anchors": ["src/legwork/visualisation.py:plot_1D_dist", "src/legwork/visualisation.py:plot_2D_dist", "src/legwork/visualisation.py:plot_sources_on_sc", "src/legwork/source.py:Source.plot_source_variables", "src/legwork/source.py:Source.plot_sources_on_sc"]}
{"id": "C103", "title": "Keyword arguments reach the drawing function and override the defaults", "statement": "Every further keyword argument given to a plotting function is passed to the drawing function of matplotlib or seaborn with the value given, defaults apply exactly to the keywords not given, weights and colour are passed along, and keywords that the drawing functions know are not refused by LEGWORK.", "quantifier": "all keyword arguments, data, plot types, scales and axes", "why_tests_cant": "tests pass a few keywords and do not inspect the drawing calls; precedence over defaults must hold for all keywords", "anchors": ["src/legwork/visualisation.py:plot_1D_dist", "src/legwork/visualisation.py:plot_2D_dist", "src/legwork/visualisation.py:plot_sources_on_sc", "src/legwork/source.py:Source.plot_source_variables"]}
{"id": "C104", "title": "A plot is shown exactly once, complete, if and only if this is asked for", "statement": "With show=True a plotting function that returns has shown the finished picture once and nothing else; with show=False, or if it raises, nothing is shown.", "quantifier": "all data, options, keyword arguments and axes, all errors of the libraries", "why_tests_cant": "tests pass show=False throughout; that no path shows an unfinished picture, shows twice or forgets to show is a statement about all paths", "anchors": ["src/legwork/visualisation.py:plot_1D_dist", "src/legwork/visualisation.py:plot_2D_dist", "src/legwork/visualisation.py:plot_sensitivity_curve", "src/legwork/visualisation.py:plot_sources_on_sc", "src/legwork/source.py:Source.plot_source_variables", "src/legwork/source.py:Source.plot_sources_on_sc"]}
{"id": "C105", "title": "Closed formulae are computed accurately in double precision", "statement": "For all masses, frequencies, separations, distances and eccentricities a user can sensibly give, the doubles computed for chirp mass, orbital frequency and separation, Peters' beta, f(e), c_0 and a(e), frequency derivative, strain and the merger time of an eccentric binary where a closed formula is used have a relative error of at most 1e-12 (of 1e-12/(1-e^2) where 1-e^2 occurs) against the exact formula: no intermediate result overflows, underflows or cancels. The instrument noise of LISA (with the approximate response), TianQin and the DECIGO curve and the SNR of a circular stationary binary are accurate in the same sense, and all the power of a circular binary is computed to be in the second harmonic, exactly. The chirp mass does not depend on the order of the masses, not even in the last bit, and converting a frequency to a separation and back returns the frequency up to 1e-12.", "quantifier": "all implementations of double precision within half an ulp for the basic operations and one ulp for pow; all masses between 2^-140 and 2^140 kg, frequencies between 2^-60 and 2^60 Hz, distances up to 2^110 m, harmonics up to 2^40, eccentricities that are 0 or at least 2^-100, with 1-e^2 >= 2^-30; merger times: separations up to 2^60 m, beta up to 2^160 m^4/s, eccentricities from 2^-40 (from 2^-20 above the large tolerance), any tolerances", "why_tests_cant": "tests compare a few values with tolerances; that no combination of inputs makes an intermediate result leave the range of doubles or lose digits is a statement about all inputs", "anchors": ["src/legwork/utils.py:chirp_mass", "src/legwork/utils.py:peters_f", "src/legwork/utils.py:get_a_from_f_orb", "src/legwork/utils.py:get_f_orb_from_a", "src/legwork/utils.py:beta", "src/legwork/utils.py:c_0", "src/legwork/utils.py:get_a_from_ecc", "src/legwork/utils.py:fn_dot", "src/legwork/strain.py:h_0_n", "src/legwork/strain.py:h_c_n", "src/legwork/utils.py:peters_g", "src/legwork/psd.py:approximate_response_function", "src/legwork/psd.py:lisa_psd", "src/legwork/psd.py:tianqin_psd", "src/legwork/snr.py:snr_circ_stationary", "src/legwork/evol.py:get_t_merge_ecc"]}
{"id": "C106", "title": "Sums over harmonics are accurate whatever the order of the additions", "statement": "The SNR of a source, computed in double precision from the squared SNRs of its harmonics, has a relative error of about that of the harmonics plus their number times the machine precision, in whatever order and grouping numpy adds the harmonics; two orders agree up to the number of harmonics times 2^-50.", "quantifier": "all numbers of harmonics up to 2^48, all values that are 0 or between 2^-900 and 2^900, known with any relative error up to 1/8, all orders and bracketings of the additions, all implementations of double precision", "why_tests_cant": "the order of additions in np.sum depends on shape, axis and processor; tests see one of them", "anchors": ["src/legwork/snr.py:snr_ecc_stationary", "src/legwork/snr.py:snr_ecc_evolving"]}
{"id": "C107", "title": "Circular evolution in double precision", "statement": "The merger time of a circular binary computed in double precision is accurate to 1e-14. The separation computed at time t is accurate to 1e-13 over the fraction of the merger time that is left. A circular binary evolved, as by default, to its own merger time ends merged: with separation 0.", "quantifier": "all implementations of double precision within half an ulp for the basic operations and one ulp for pow; all beta between 2^-420 and 2^420, separations between 2^-110 and 2^110 m, times between 2^-200 and 2^200 s or 0, with at least 2^-30 of the merger time left", "why_tests_cant": "whether a^4 - 4 beta t cancels to exactly 0 at the last timestep depends on the last bits of the binary; tests see a few binaries", "anchors": ["src/legwork/evol.py:get_t_merge_circ", "src/legwork/evol.py:evol_circ"]}
{"id": "C108", "title": "Harmonic numbers do not overflow numpy's integers", "statement": "Strains and SNRs are those of exact integer arithmetic for every harmonic and every number of harmonics, although n**4 and 3 * n**2 in g(n, e) are computed in integers of 64 (or 32) bits that wrap around.", "quantifier": "all word lengths from 8 bits on, all harmonics, all numbers of harmonics, all sources, noise curves and Bessel routines", "why_tests_cant": "numpy wraps around silently; tests use small harmonics, and where the first wrong one lies depends on the platform's word length", "anchors": ["src/legwork/utils.py:peters_g", "src/legwork/strain.py:h_0_n", "src/legwork/strain.py:h_c_n", "src/legwork/snr.py:snr_ecc_stationary", "src/legwork/snr.py:snr_ecc_evolving"]}
{"id": "C109", "title": "LISA's noise is positive with the packaged response table", "statement": "With the response table that comes with the package, LISA's noise is a finite positive number at every frequency of its band and every arm length, so that SNRs are numbers.", "quantifier": "all arm lengths, all frequencies, all observing times, all built-in confusion noises, all splrep/splev that give the interpolating not-a-knot cubic spline", "why_tests_cant": "a cubic spline may undershoot between any two of the 899 points and is continued beyond the last one; tests evaluate the curve at a handful of frequencies for one arm length", "anchors": ["src/legwork/psd.py:load_response_function", "src/legwork/psd.py:lisa_psd", "src/legwork/psd.py:power_spectral_density", "src/legwork/snr.py:snr_circ_stationary"]}
{"id": "C110", "title": "The evolving SNR of a circular binary continues the stationary one", "statement": "For a circular binary observed until at least a second before its merger, the squared SNRs computed by snr_circ_evolving and snr_circ_stationary agree up to the factors (f_T/f)^(11/3) above and (f_T/f)^(7/3) below, times the factor by which the noise varies between the first and the last frequency, whatever the number of time steps from two on; f_T is the frequency at the end of the observation. So for binaries that determine_stationarity labels stationary the choice of function matters by at most (1 + stat_tol)^(11/3) in the squared SNR and the variation of the noise.", "quantifier": "all masses, frequencies, distances and observing times up to a second before the merger, all positive noise curves, all numbers of time steps from two on, all tolerances", "why_tests_cant": "a bound on the difference of two algorithms for every source and every step count; tests compare single values at a tolerance", "anchors": ["src/legwork/snr.py:snr_circ_stationary", "src/legwork/snr.py:snr_circ_evolving", "src/legwork/evol.py:determine_stationarity", "src/legwork/evol.py:evol_circ"]}
{"id": "C111", "title": "The evolving SNR converges as the number of time steps grows", "statement": "For a binary that is followed through its inspiral, the SNR returned by snr_circ_evolving and by snr_ecc_evolving tends, as n_step grows, to the SNR of the continuous inspiral: the square root of the time integral of the squared strain amplitude over the noise power, summed over the harmonics asked for. This holds although the integral is computed over frequency with the characteristic strain, and although evol_ecc may move the last time step back.", "quantifier": "all masses, frequencies, distances, eccentricities, observing times and merger times that leave a positive time to follow, all noise curves whose reciprocal is continuous along the track, all numbers of harmonics and processes", "why_tests_cant": "a limit over all step counts; tests compare one step count with another or with a stored value", "anchors": ["src/legwork/snr.py:snr_circ_evolving", "src/legwork/snr.py:snr_ecc_evolving", "src/legwork/evol.py:evol_circ", "src/legwork/evol.py:evol_ecc", "src/legwork/evol.py:create_timesteps_array"]}
{"id": "C112", "title": "Noise curves are continuous functions of the frequency in band", "statement": "Between the limits of an instrument's band, the power spectral density returned by lisa_psd, tianqin_psd, decigo_psd and power_spectral_density is a positive continuous function of the frequency, for every built-in confusion noise model: sources at nearly equal frequencies see nearly equal noise.", "quantifier": "all frequencies in band, all built-in confusion models with mission lengths they accept, all arm lengths, all continuous positive response functions", "why_tests_cant": "a statement about limits at every frequency; tests evaluate the curve at isolated frequencies", "anchors": ["src/legwork/psd.py:lisa_psd", "src/legwork/psd.py:tianqin_psd", "src/legwork/psd.py:decigo_psd", "src/legwork/psd.py:power_spectral_density", "src/legwork/psd.py:get_confusion_noise_huang20"]}
{"id": "C113", "title": "The relative powers of all harmonics add up to peters_f", "statement": "For every eccentricity below 1 the sums of peters_g(n, e) over the first harmonics never exceed peters_f(e) and converge to it, as the docstring of peters_f says; hence some number of harmonics holds all but any given share of the power. The squares of n times the strain amplitude add up to peters_f times the value of the circular binary, and n times the squared characteristic strains add up to a value that does not depend on the eccentricity.", "quantifier": "all eccentricities 0 <= e < 1, all numbers of harmonics (limit to infinity), all tolerances, all masses, frequencies, distances and orientations", "why_tests_cant": "an infinite sum for a continuum of eccentricities; tests can add a few harmonics at a few eccentricities to within a tolerance", "anchors": ["src/legwork/utils.py:peters_g", "src/legwork/utils.py:peters_f", "src/legwork/strain.py:h_0_n", "src/legwork/strain.py:h_c_n"]}
{"id": "C114", "title": "The luminosity tolerance bounds what the SNR misses", "statement": "Summing only the first harmonics that carry all but a share tol of the gravitational-wave luminosity (as gw_lum_tol asks for) gives a stationary SNR whose square is at most a share tol below that of any larger number of harmonics; and with more and more harmonics the SNR converges.", "quantifier": "all masses, frequencies, distances, eccentricities 0 <= e < 1, tolerances, numbers of harmonics and noise curves", "why_tests_cant": "compares with the sum over infinitely many harmonics, for every eccentricity and noise curve; tests compare a few sources with a fixed number of harmonics", "anchors": ["src/legwork/snr.py:snr_ecc_stationary", "src/legwork/utils.py:peters_g", "src/legwork/utils.py:peters_f", "src/legwork/source.py:Source.create_harmonics_functions", "src/legwork/source.py:Source.get_snr_stationary"]}
{"id": "C115", "title": "Every luminosity tolerance between 0 and 1 can be used", "statement": "Assigning any gw_lum_tol between 0 and 1 (or constructing a Source with it) succeeds and updates the tables and ecc_tol to the new tolerance.", "quantifier": "all tolerances, all luminosity tables and all previous states of the object", "why_tests_cant": "whether the search for the transition finds a value depends on the Bessel functions at the end of a grid of 10000 eccentricities; tests use two or three tolerances", "anchors": ["src/legwork/source.py:Source.gw_lum_tol", "src/legwork/source.py:Source.find_eccentric_transition", "src/legwork/utils.py:peters_g", "src/legwork/utils.py:peters_f"]}
{"id": "C116", "title": "A stationary source has SNR zero exactly if it radiates at no frequency in band", "statement": "snr_circ_stationary returns 0 exactly if twice the orbital frequency lies outside the instrument's band, and snr_ecc_stationary exactly if none of the harmonics summed lies in band (only the second counts for eccentricity 0); otherwise the SNR is positive.", "quantifier": "all populations, masses, frequencies, distances, eccentricities 0 <= e < 1, numbers of harmonics, observing times, instruments and confusion noises", "why_tests_cant": "needs the relative power of every harmonic to be positive at every eccentricity, a statement about zeros of combinations of Bessel functions", "anchors": ["src/legwork/snr.py:snr_circ_stationary", "src/legwork/snr.py:snr_ecc_stationary", "src/legwork/utils.py:peters_g", "src/legwork/psd.py:power_spectral_density"]}
{"id": "C117", "title": "A wider, lighter or less eccentric binary merges later", "statement": "With everything else equal, get_t_merge_ecc returns a later merger for a wider orbit, for lighter components and for a smaller eccentricity.", "quantifier": "all positive masses and separations, eccentricities 0 <= e < 1 and tolerances; every exact integrator", "why_tests_cant": "ordering of an integral over a continuum of eccentricities, and of approximations on both sides of the tolerances", "anchors": ["src/legwork/evol.py:get_t_merge_ecc", "src/legwork/evol.py:get_t_merge_circ"]}
{"id": "C118", "title": "Stationary binaries are recognised in double precision", "statement": "determine_stationarity, computed in IEEE double precision, labels a binary stationary if the exact criterion holds with a tolerance smaller by 1e-9/(1-e^2), and evolving if the exact criterion fails with a tolerance larger by that: rounding can only flip labels of binaries at the tolerance itself, although the criterion subtracts nearly equal numbers. If the chirp mass is computed from the two masses first, twice these margins suffice. evolve_f_orb_circ is accurate to 1e-8/(1-e^2) until the frequency has grown eightfold.", "quantifier": "all IEEE doubles and pow functions accurate to one unit in the last place, frequencies between 2^-60 and 2^20 Hz, times between 2^-200 and 2^200 s, chirp masses between 2^-140 and 2^140 kg (masses between 2^-139 and 2^139 kg), eccentricities with 1-e^2 >= 1e-6, tolerances up to 1", "why_tests_cant": "all doubles and all rounding errors, next to cancellation and to the jump at merger", "anchors": ["src/legwork/evol.py:evolve_f_orb_circ", "src/legwork/evol.py:determine_stationarity"]}
{"id": "C119", "title": "Results scale with the masses as general relativity demands", "statement": "Multiplying all masses, separations, distances and times by k > 0 and dividing all frequencies by k multiplies chirp masses, separations and merger times (circular or eccentric, by integral or by fit) by k, divides computed and evolved frequencies and the change of eccentricities by k, lets eccentric binaries (evol_ecc) pass through the same eccentricities k times more slowly, and leaves strains (h_0_n, h_c_n), the labels of determine_stationarity and, for a noise curve that is rescaled likewise, stationary SNRs as they are.", "quantifier": "all scale factors k > 0, binaries with positive masses and eccentricities below 1, time steps, harmonics, tolerances, noise curves and exact integrators", "why_tests_cant": "all real scale factors and binaries; the merger, where formulas change, included", "anchors": ["src/legwork/utils.py:chirp_mass", "src/legwork/utils.py:get_a_from_f_orb", "src/legwork/utils.py:get_f_orb_from_a", "src/legwork/utils.py:beta", "src/legwork/utils.py:c_0", "src/legwork/utils.py:get_a_from_ecc", "src/legwork/utils.py:fn_dot", "src/legwork/evol.py:de_dt", "src/legwork/evol.py:get_t_merge_circ", "src/legwork/evol.py:get_t_merge_ecc", "src/legwork/evol.py:evol_circ", "src/legwork/evol.py:evol_ecc", "src/legwork/evol.py:evolve_f_orb_circ", "src/legwork/evol.py:determine_stationarity", "src/legwork/strain.py:h_0_n", "src/legwork/strain.py:h_c_n", "src/legwork/snr.py:snr_circ_stationary", "src/legwork/snr.py:snr_ecc_stationary"]}
{"id": "C120", "title": "It does not matter which member of a binary is called the first", "statement": "Exchanging m_1 and m_2 changes no result: chirp masses, conversions, merger times, evolution, stationarity and SNRs are the same, and the same arguments are refused with the same exceptions. A collection constructed from exchanged masses is the exchanged collection, and after any history of operations, indexing and copying it still is, with the same SNRs, strains, masks and merger times.", "quantifier": "all masses (infinite and invalid ones included), arguments given or left out, arrays of any lengths, integrators and schedules, and all histories of operations on a collection", "why_tests_cant": "all inputs and histories, invalid ones and exceptions included", "anchors": ["src/legwork/utils.py:chirp_mass", "src/legwork/utils.py:beta", "src/legwork/utils.py:get_a_from_f_orb", "src/legwork/utils.py:get_f_orb_from_a", "src/legwork/evol.py:check_mass_freq_input", "src/legwork/evol.py:get_t_merge_circ", "src/legwork/evol.py:get_t_merge_ecc", "src/legwork/evol.py:evol_circ", "src/legwork/evol.py:evol_ecc", "src/legwork/evol.py:determine_stationarity", "src/legwork/snr.py:snr_circ_evolving", "src/legwork/snr.py:snr_ecc_evolving", "src/legwork/source.py:Source.__init__", "src/legwork/source.py:Source.get_snr", "src/legwork/source.py:Source.get_merger_time", "src/legwork/source.py:Source.evolve_sources", "src/legwork/source.py:Source.__getitem__", "src/legwork/source.py:Source.copy"]}
{"id": "C121", "title": "Observing longer never lowers an SNR", "statement": "With everything else equal, the SNR of a stationary source for a longer observing time is not lower than for a shorter one, with every instrument and every confusion noise model.", "quantifier": "all stationary sources, circular or eccentric, all pairs of observing times, the noise curves of all instruments, interpolated curves, all confusion models", "why_tests_cant": "all pairs of times: the SNR drops only across single observing times and only at some frequencies", "anchors": ["src/legwork/snr.py:snr_circ_stationary", "src/legwork/snr.py:snr_ecc_stationary", "src/legwork/psd.py:power_spectral_density", "src/legwork/psd.py:get_confusion_noise_robson19", "src/legwork/psd.py:get_confusion_noise_huang20", "src/legwork/psd.py:get_confusion_noise_karnesis21"]}
