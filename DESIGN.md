# Formal model of LEGWORK in Rocq — design

Source modelled: `/repo/src/legwork` (read as text, never executed).
Everything is in `rocq/theories`, logical name `Verif`.

## 1. Modelling decisions

* **Numbers.** LEGWORK computes with IEEE doubles.  `Num.v` models a double as an *extended real*
  `num := Fin r | PInf | NInf | NaN` with `r` an exact real, and the IEEE rules for infinities, NaN, comparisons with
  NaN, division by zero and powers of zero/negative numbers.  *Not* modelled: rounding, overflow/underflow, signed
  zero (every zero counts as +0).  So theorems are about the exact-arithmetic meaning of the code, including its
  special values.  The exception is `Float.v`, which evaluates the closed formulae of `utils.py` and `strain.py`, the noise curves, the
  sums over harmonics and circular evolution operation by operation with rounding; C105 to C107 and C118 bound the distance between the two.
* **Integers** have no bounds, except in `Words.v`, which computes g(n, e) in machine words; C108 says up to which harmonic this
  makes no difference.
* **Arrays.** 1-D arrays are `list`s, 2-D arrays lists of rows.  Boolean-mask reads and writes are `select` and
  `scatter`.  Broadcasting is modelled where the code relies on it (`bcast`), with an error on shape mismatch.
* **Units.** Physical quantities are represented by their SI value in all files except `Units*.v`.  Those model the code once
  more with astropy quantities (number, size of the unit, dimension) and prove that the code with units computes the SI
  model.  That is the justification for working in SI elsewhere.
* **Exceptions are values** (`res A := Ok a | Err e`), with the Python exception class as `e`.
* **External routines are oracles**: parameters of the model (record `oracles`), universally quantified in the theorems:
  scipy `jv`, `quad`, `odeint`, `splev` of R.npy, the `g(n,e)` spline, numpy random numbers, SkyCoord transforms, h5py
  storage, matplotlib drawing.  Where a theorem needs a fact about an oracle (e.g. `quad` returns the Riemann integral,
  J_k(0) = [k=0], the response is positive) it is an explicit hypothesis of the theorem, shown to be satisfiable.
* **State.** `Source` objects are records; methods are functions returning the new record.  Sharing of mutable objects is
  modelled where it is observable (`ScParams.v`: a world of collections with parameter dictionaries bound to owners;
  `Evol.v`: the caller's timesteps array).

## 2. Files

Model (no proofs; every definition cites file and lines of `/repo/src/legwork`):

| file | models |
|---|---|
| `Num.v`, `Np.v` | extended reals; numpy-like list operations |
| `Utils.v`, `Strain.v`, `Psd.v`, `Evol.v`, `Snr.v` | the modules of the same name |
| `Harmonics.v`, `ScParams.v`, `Interp.v`, `Index.v`, `Source.v` | `source.py`: harmonic tables, parameter dictionaries, interpolation, indexing, the classes |
| `History.v` | one collection under any sequence of calls (`op`, `step`, `run`) |
| `World.v`, `WorldCopy.v`, `WorldEvents.v` | several collections in one heap of arrays and parameter dictionaries; what the user does with handles |
| `FileIO.v`, `FileNames.v` | saving and loading; names of files and attributes |
| `Vis.v`, `VisAxes.v`, `Style.v` | `visualisation.py`: what is drawn and said; units, labels, limits, keyword arguments and display of the plots; what happens to matplotlib's global state |
| `Logging.v`, `Messages.v` | `_logging.py`, `__init__.py`; messages of the package and how they reach the user |
| `Verification.v`, `VerificationData.v` | the class `VerificationBinaries`; the table it reads, transcribed from `verification_binaries.npy` |
| `Float.v` | closed formulae, noise curves, sums and circular evolution in double precision (facts in `FloatFacts.v`, `FloatThms.v`, `FloatSum.v`, `FloatNoise.v`, `FloatEvol.v`; `FloatIEEE.v` shows that Flocq's binary64 rounding meets `ieee`) |
| `Words.v` | harmonic numbers in machine words: g(n, e), strains, eccentric SNRs (facts in `WordsFacts.v`) |
| `SplineSpec.v`, `SplineFacts.v` | not-a-knot cubic splines: definition, existence, bounds from an approximate solution of their equations |
| `ResponseData.v`, `ResponseCert.v`, `ResponseFacts.v`, `ResponseThms.v` | the packaged R.npy (generated by `tools/response.py`), its spline within bounds, LISA's noise with it |
| `PositiveFacts.v` | when the evolving SNR is positive and when exactly 0 |
| `AgreeFacts.v` | stationary and evolving SNRs of circular binaries compared |
| `ConvSpec.v`, `ConvFacts.v` | limit of many time steps for evolving SNRs |
| `NoiseContFacts.v` | continuity and jumps of the noise curves |
| `FourierFacts.v` | Fejer kernels, Bessel's inequality and Parseval's identity for Lipschitz functions on the circle |
| `ParsevalFacts.v`, `ParsevalThms.v`, `ParsevalStrain.v` | Kepler's equation as a change of variable, the quadrupole's third derivatives and the sum of all harmonics |
| `SumSpec.v`, `BesselPositive.v`, `HarmonicSums.v` | SNRs of the first harmonics; J_0 and J_1 have no common zero, so every harmonic carries power; what truncated sums miss |
| `ShareFacts.v`, `BesselBounds.v` | the n = 2 share of the luminosity falls with eccentricity; enclosures of J_0 and J_1 and of the share at e = 0.2 |
| `ZeroFacts.v` | zero SNRs, scaling with the chirp mass, positive evolving SNRs with the Bessel functions themselves |
| `MonoFacts.v` | how merger times change with eccentricity, separation and masses (the jump at the large tolerance in `JumpFacts.v`) |
| `FloatStat.v` | the decision whether a binary is stationary in double precision (facts in `FloatStatFacts.v`, `FloatStatMass.v`) |
| `FloatMerge.v` | the closed formulae for merger times of eccentric binaries in double precision (facts in `FloatMergeFacts.v`) |
| `KeysFacts.v` | known keys given to setdefault and \|= (facts for C51) |
| `GeomFacts.v`, `GeomSnr.v` | multiplying masses, lengths and times by k and dividing frequencies by k (facts for C119) |
| `SwapSpec.v` | exchanging the two members of every binary (facts in `SwapFacts.v`, `SwapThms.v`, `SwapIndex.v`) |
| `LongerSpec.v` | confusion noise models at two observing times (facts in `LongerFacts.v`, `LongerSnr.v`, `LongerJump.v`, `LongerHuang.v`) |
| `ReadsSpec.v` | what the values in sc_params stand for (facts in `ReadsFacts.v`) |
| `StickyToy.v` | a LISA Source that has computed its SNR, for the examples of C52 |
| `PosCheck.v`, `Bessel.v` | sky arguments of the strain functions; the Bessel functions |
| `Units.v`, `UnitsStrain.v`, `UnitsEvol.v`, `UnitsPsd.v`, `UnitsSnr.v`, `UnitsSource.v` | the same code once more, on values with units (number, size of the unit, dimension), with the unit conversions and checks of astropy |

Specifications: `Spec.v`, `*Spec.v` – the vocabulary of the theorem statements (Peters' equations and other formulae in
textbook form, what a row of a collection is, what it means that two values with units are the same, ...).

Proofs: `*Facts.v`, `*Thms*.v`, `*Runs.v`, `*Wrong.v`, `*Keep.v`, `*Sim.v`, `*Steps.v`, `*Proofs.v`, ...; concrete worlds and collections for
the examples: `Toy*.v`, `UnitsSourceToy.v`.

Properties: `Prop*.v` – the property theorems only, each `exact`ed from a lemma, with `Print Assumptions` and an `Example`
exhibiting a non-trivial instance of its hypotheses.

Theorem names start with the property id (`C01_...`).  `_refuted`: the property is false of the code, with a witness.
`_partial`: only part of the property is proved; the note in MANIFEST.json says what is missing.

## 3. Trusted base

* Coq 8.16.1's kernel.
* Axioms (all from the standard library): those of the classical reals
  (`ClassicalDedekindReals.sig_not_dec`, `ClassicalDedekindReals.sig_forall_dec`),
  `FunctionalExtensionality.functional_extensionality_dep`, `Classical_Prop.classic` (through Coquelicot/Reals).
  `Print Assumptions` under every theorem lists what it uses; see section 5.
* The reading of the Python code in the model files and of the semantics of numpy/astropy/scipy/h5py calls they use.
* Idealisations listed in section 1.

## 4. Properties: what is modelled and how it is proved

| id | property | modelled by | proof |
|---|---|---|---|
| C01 | Kepler conversions are mutual inverses and obey Kepler's third law | Utils.get_a_from_f_orb/get_f_orb_from_a on extended reals | Rpower algebra; both compositions reduce to the identity; third law stated separately |
| C02 | Chirp mass laws | Utils.chirp_mass | Rpower algebra, ln/exp monotonicity |
| C03 | Eccentricity-separation relation is invertible and monotone | Utils.c_0, get_a_from_ecc | exponent cancellation by ln; monotone product of monotone positive factors |
| C04 | Peters enhancement factor is at least one and strictly increasing | Utils.peters_f | monotone numerator over antitone denominator |
| C05 | Relative harmonic power is never negative and circular binaries radiate only at n = 2 | Utils.peters_g with jv an arbitrary oracle | sum of non-negative terms; evaluation at 0 from J_k(0)=[k=0] |
| C06 | fn_dot is n times the orbital frequency drift implied by Peters' orbital decay | Utils.fn_dot, beta, chirp_mass, Kepler | Coquelicot derivative of the Kepler conversion along any orbit with Peters' decay |
| C07 | Eccentricity derivative and separation relation are mutually consistent | Evol.de_dt, Utils.get_a_from_ecc | chain rule on an arbitrary solution; mean value theorem for strict decrease |
| C08 | ensure_array contract | PyVal.ensure_array over a small universe of Python values | induction over the argument list |
| C09 | Results do not depend on the units inputs are expressed in | Units.v: quantities = value x unit(scale, rational dimensions); unit-carrying version of each function | each quantity version is proved equal to the SI function on SI values, hence unit independent; wrong dimension gives UnitError |
| C10 | Detector responses are physical | Utils.D_*, F_* | polynomial identities/inequalities in cos^2 theta, sin^2 2phi; nlinarith |
| C11 | Averaged detector response equals the documented value | Utils.F_*, Strain.amplitude_modulation | iterated Coquelicot RInt with explicit antiderivatives |
| C12 | Position-aware strain and SNR never exceed the averaged ones | Strain.amplitude_modulation, h_0_n, Snr.snr_circ_stationary | bound 5/16 (D_+^2 + D_x^2) < 1 lifted through the strain and SNR models |
| C13 | Circular evolution solves Peters' equation | Evol.evol_circ (per source and time) | derivative of (a^4-4 beta t)^(1/4), monotonicity |
| C14 | Circular evolution composes | Evol.evol_circ, Kepler | algebra; induction over the list of steps |
| C15 | Circular merger time is exactly when evol_circ merges and counts down linearly | Evol.get_t_merge_circ, evol_circ | sign of a^4-4 beta t |
| C16 | The two circular frequency evolutions agree | Evol.evolve_f_orb_circ vs evol_circ | Rpower algebra relating beta and chirp mass |
| C17 | The stationarity estimate is conservative | Evol.evolve_f_orb_circ, determine_stationarity | derivative of f^(-8/3) along an arbitrary Peters trajectory is bounded below; mean value theorem |
| C18 | Stationarity is monotone and merged binaries are never stationary | Evol.determine_stationarity | monotonicity of the inner part |
| C19 | Eccentric merger times are bounded by the circular one | Evol.get_t_merge_ecc, quad = Riemann integral | comparison of derivatives: d/de (19/48 (a/c0)^4) = integrand * peters_f |
| C20 | The exact eccentric merger time counts down at unit rate along the inspiral | same, with de_dt | chain rule on the integral upper limit |
| C21 | Merger times are computed per source and do not depend on calling convention | Evol.get_t_merge_ecc array and scalar versions | masks/scatter lemmas, pointwise evaluation |
| C22 | Input checking accepts exactly the sufficient argument combinations | Evol.check_mass_freq_input | case analysis |
| C23 | Timestep arrays | Evol.create_timesteps_array | list lemmas on linspace |
| C24 | avoid_merger keeps timesteps ordered and away from the merger | Evol.avoid_merger_row | induction on rows |
| C25 | Eccentric evolution does not depend on the number of processes | Evol.pool_map: an arbitrary scheduler delivering (index, result) events | permutation invariance |
| C26 | Evolution functions do not modify the caller's arrays | Evol.evol_ecc with the timesteps array as an explicit heap cell | refuted by a witness; proved for the 1D/None cases |
| C27 | output_vars are returned in the requested order and shape | Evol output loop | induction over output_vars |
| C28 | Characteristic strain and strain amplitude satisfy h_c^2 = f_n^2 / fdot_n * h_0^2 | Strain.h_0_n, h_c_n, Utils.fn_dot | Rpower algebra, lifted to arrays |
| C29 | Strain scaling laws and agreement with the quadrupole formula | Strain.h_0_n | Rpower algebra |
| C30 | Circular sources emit at n = 2 only | Strain.h_0_n, h_c_n | C05 at e=0 |
| C31 | Negative interpolated powers are treated as zero | Strain.* | clamp lemma |
| C32 | Invalid harmonics are rejected | Strain.*, Utils.fn_dot | existsb lemma |
| C33 | Strain entries depend only on their own source, timestep and harmonic | Strain.* array versions | nth lemmas through broadcast maps |
| C34 | Sensitivity curves are infinite out of band and finite positive in band | Psd.lisa_psd, tianqin_psd, decigo_psd with the response spline an oracle assumed positive | case analysis, positivity |
| C35 | Confusion noise only ever adds noise | Psd confusion models | positivity of exp, 1+tanh, squares |
| C36 | power_spectral_density resolves defaults per instrument | Psd.power_spectral_density over Python parameter values | case analysis on strings |
| C37 | Confusion models pick the nearest fitted mission length | Psd.* | argmin lemmas |
| C38 | Missing response file falls back to the approximation | Psd.load_response_function with the load result (incl. exceptions) as input | refuted |
| C39 | Approximate response function is bounded and decreasing | Psd.approximate_response_function | real algebra |
| C40 | SNR is the quadrature sum over harmonics | Snr.* | definition unfolding on lists; both flags |
| C41 | max_snr_harmonic is the loudest harmonic | Snr.*, Np.argmax | argmax specification by induction |
| C42 | Circular and eccentric SNR agree at zero eccentricity | Snr.* | C05 + list sum with a single non-zero entry |
| C43 | SNR scaling with distance and observing time | Snr.* | homogeneity |
| C44 | Out-of-band harmonics contribute nothing and more harmonics never hurt | Snr.* | non-negativity of each term; x/inf = 0 |
| C45 | Evolving SNR is well defined | Snr.* evolving | positive for frequencies in order (proved); NaN / degenerate window just before merger (refuted) |
| C46 | get_snr treats every selected inspiralling source exactly once | Source.get_snr & co over lists with masks | pointwise characterisation of the scatter/gather pipeline |
| C47 | Each source's SNR is independent of the other sources in the collection | same | pointwise characterisation commutes with selection |
| C48 | Merged sources have zero strain and SNR and unselected ones are not returned | Source.get_h_0_n etc. | select/scatter lemmas |
| C49 | Computing SNR for a subset leaves the other sources' stored SNR alone | Source.get_snr_* | proved for _stationary/_evolving, refuted for get_snr |
| C50 | The interpolated sensitivity curve always matches sc_params | ScParams.v: world of collections, step function over operations | invariant by induction for the guarded operations; refuted for \|=, failing set, interpolate_sc toggles |
| C51 | sc_params always holds exactly the documented keys | ScParams.v | same; refuted for setdefault and \|= |
| C52 | The default observing time follows the instrument | ScParams.v + get_snr | refuted (sticky 4 yr; DECIGO 4 vs 5 yr); positive statement for fresh collections |
| C53 | Harmonic tables always match gw_lum_tol | Harmonics.v: gw_lum_tol setter with failing table construction | induction; refuted for the failing case |
| C54 | harmonics_required delivers the requested luminosity | Harmonics.v: table loop | loop invariant by induction |
| C55 | max_strain_harmonic returns the harmonic with the largest tabulated power | Harmonics.v | argmax at grid points (proved); out of table (refuted) |
| C56 | Sources treated as circular meet the luminosity tolerance | Harmonics.v find_eccentric_transition | find-first lemma; refuted at ecc_tol itself; off the grid because the derivative of the share is a negative definite quadratic form in J_2 and its derivative (polynomial certificates) |
| C57 | Indexing keeps all per-source attributes aligned | Index.v: Python index expressions, Source.getitem | list lemmas; composition |
| C58 | Copies and subsets are isolated from the original | ScParams.v world | frame lemma by induction over operations |
| C59 | Saving and loading round-trips | FileIO.v: HDF5 file as finite maps | round trip by case analysis over optional attributes |
| C60 | Saving never silently destroys data | FileIO.v: save as a list of writes with a crash point | proved for no overwrite; refuted for atomicity |
| C61 | Every saved collection can be loaded | FileIO.v + ScParams.set_sc | refuted for custom instrument with interpolation; proved otherwise |
| C62 | Merging is permanent and merger times count down through any evolution history | Source.v evolve_sources | induction over histories |
| C63 | Evolving circular sources in several steps equals evolving once | Source.v | C14/C15 pointwise + induction |
| C64 | evolve_sources(create_new_class=True) returns an evolved twin and leaves the original alone | Source.v | field-by-field; refuted for weights, class and interpolate_sc |
| C65 | Source construction validates its input | Source.v (init) over Python values | case analysis; refuted for weights length |
| C66 | Semi-major axis property | Source.a getter/setter | C01 lifted |
| C67 | get_merger_time returns and stores what was asked | Source.get_merger_time | select/scatter |
| C68 | Source masks partition the collection | Source.get_source_mask | boolean partition |
| C69 | Stored SNRs describe the current sources | Source.v + get_snr | refuted |
| C70 | Points on a sensitivity-curve plot sit exactly SNR times above the curve | Vis.v: list of drawn points | algebra on sqrt |
| C71 | Sources that cannot be plotted are reported | Vis.v: log of warnings | refuted (eccentric evolving sources never reported) |
| C72 | Plot functions never leak style changes | Vis.v: rcParams state machine with exceptions | structural induction over call trees |
| C73 | Logging is attached once and respects user configuration | Logging.v: logger state machine | induction over reload/configure histories |
| C74 | Sources are evolved independently and array and scalar calls agree | Evol array versions | pointwise evaluation of broadcast maps |
| C75 | evol_ecc samples a true Peters inspiral | Evol.evol_ecc, odeint exact | uniqueness of the solution, chain rule |
| C76 | Built-in noise curves equal the published formulae | Psd.* | unfolding and real algebra against formulae in PsdSpec.v |
| C77 | A custom confusion noise is used the same way by every instrument | Psd.* | refuted for units; proved that it is added |
| C78 | SNR functions treat sources independently | Snr.* | pointwise evaluation |
| C79 | The evolving SNR is the documented integral | Snr evolving functions | pointwise evaluation, trapezium rule by induction |
| C80 | An inspiralling source in band has a positive SNR | Snr evolving functions | refuted in the last month and for two steps; positive otherwise: the second step is later than the first, the frequency strictly grows and the first trapezium is positive |
| C81 | Returned SNRs stay what they were | World.v: arrays in a heap | refuted by a history; partial: until the next stationary or evolving call |
| C82 | An interpolated curve agrees with the exact one | Interp.v, ScParams.v | piecewise linear interpolation lemmas, induction over histories; what the values of the parameters stand for is in `ReadsSpec.v` |
| C83 | evolve_sources evolves each source as the evol functions would | Source.evolve_sources | pointwise characterisation |
| C84 | Approximate merger times are accurate | Evol.get_t_merge_ecc | bounds on the integral |
| C85 | Fitted merger times are as accurate as documented | Evol.get_t_merge_ecc(exact=False) | bounds by subdivision and monotonicity; documented accuracy refuted |
| C86 | Detector response is the orbit average of a LISA-like constellation | Utils.D_*, F_* | explicit integrals over one orbit |
| C87 | Incomplete sky arguments are never ignored | PosCheck.v, Strain.* | case analysis |
| C88 | One entry per source, always | FileIO.v, History.v | invariant by induction over histories |
| C89 | Plots of variables show the right values | Vis.v | list lemmas on masks |
| C90 | Plot functions leave converters and warning filters alone | Style.v | structural induction over call trees |
| C91 | Every message goes through the logger | Messages.v, Logging.v | case analysis over messages; refuted for print |
| C92 | A collection's data are its own | World.v | induction over events; refuted for constructor and evolution |
| C93 | Sky positions make the SNR of circular sources position-aware | Source.get_snr with positions | pointwise; refuted for evolving sources |
| C94 | Evolution and merger times do not depend on units | UnitsEvol.v against Evol.v | relational proof: same quantities give the same results |
| C95 | Sensitivity curves do not depend on units | UnitsPsd.v against Psd.v | relational proof |
| C96 | Signal-to-noise ratios do not depend on units | UnitsSnr.v against Snr.v | relational proof |
| C97 | A collection behaves the same whatever units it is described in | UnitsSource.v against Source.v/History.v | simulation, induction over histories |
| C98 | Quantities of the wrong dimension are rejected | UnitsSource.v | case analysis; refuted for constructor, distances and custom curves |
| C99 | The verification binaries are the published ones and stay aligned with their labels | Verification.v, VerificationData.v (the packaged table) | invariant over histories; for stationarity a bound valid for all binaries as slow and light as these |
| C100 | Results are reproducible: only sky angles that are left out are drawn at random | Source.v, History.v, Verification.v with the generator as an oracle | the same term in two worlds that differ in the generator; simulation for the constructor; a witness that draws matter |
| C101 | Axis labels of plots state the unit of the numbers on the axis | VisAxes.v: axes with a unit, label, scale; arrays with a unit | inversion of runs; refuted for curves in mHz, second plots on the same axes, cumulative plots |
| C102 | Labels and limits asked for are in force when a plot returns | VisAxes.v | drawing keeps labels and limits; log10 increasing; refuted for y limits of plot_sources_on_sc |
| C103 | Keyword arguments reach the drawing function and override the defaults | VisAxes.v: dictionaries, calls with a keyword given twice | induction on dictionaries; refuted for the keyword s of scatter plots |
| C104 | A plot is shown exactly once, complete, if and only if this is asked for | VisAxes.v: list of pictures shown | every step but the last keeps the list; refuted if no source is detectable |
| C105 | Closed formulae are computed accurately in double precision | Float.v: Python expressions, their exact value, their value with a rounding after each operation | induction on expressions, bounding the error and the size of the logarithm; boxes for the inputs. Hypothesis `ieee` on rounding and pow, met by Flocq's round-to-nearest-even with 53 bits. The LISA curve bounds the cosine between 0 and 1, so that no term cancels. Merger times of eccentric binaries take the computed c_0 with its error as an input. Not covered: the fit of Mandel (a polynomial whose terms cancel), peters_g of eccentric binaries and the antenna patterns (differences of terms of similar size), integrals, ODEs, the confusion noise |
| C106 | Sums over harmonics are accurate whatever the order of the additions | Float.v: trees of additions | induction on trees; zeros stay exact |
| C107 | Circular evolution in double precision | Float.v | the difference a^4 - 4 beta t is bounded by the errors of its two terms; refuted at the last timestep by computing the bits of one binary |
| C108 | Harmonic numbers do not overflow numpy's integers | Words.v: integers of b bits that wrap around | the wrapped integers are the exact ones while n^4 fits; between half and all of the words n^4 becomes negative, hence nan |
| C109 | LISA's noise is positive with the packaged response table | ResponseData.v: R.npy; splrep/splev give the not-a-knot cubic spline (SplineSpec.v) | second derivatives are close to a certificate (diagonal dominance), integer check of all 898 pieces by computation; the last cubic beyond the table in closed form |
| C110 | The evolving SNR of a circular binary continues the stationary one | Snr.v, Evol.v as for C45 and C79 | the frequency moves by the drift times the time (mean value theorem), the integrand is (h0^2/S)/drift, and a trapezium sum lies between its extreme rectangles |
| C111 | The evolving SNR converges as the number of time steps grows | Snr.v, Evol.v as for C45 and C79; odeint exact; reciprocal of the noise continuous along the track | uniform continuity of (h0^2/S)/drift bounds every panel of the trapezium rule against the time integral of h0^2/S (the drift is the derivative of the frequency); the steps become fine and end near T even when the last one is moved back |
| C112 | Noise curves are continuous functions of the frequency in band | Psd.v as for C76; the response file is any continuous positive function | published formulae of C76 shown continuous (auto_derive, composition with tanh); the cuts of huang20 give positive jumps, bounded row by row of its table |
| C113 | The relative powers of all harmonics add up to peters_f | Utils.v and Strain.v; scipy.special.jv is the Bessel function defined by its integral | peters_g(n, e) is the squared n-th Fourier coefficient of the third derivatives of the quadrupole of a Kepler ellipse (Bessel's integral in the eccentric anomaly); Parseval's identity via Fejer kernels; the mean square computed in closed form gives peters_f |
| C114 | The luminosity tolerance bounds what the SNR misses | Snr.v, Utils.v as for C40 and C113 | contributions are powers times weights 1/(n^2 S(n f)); falling weights give the bound, bounded ones convergence and a tail bound (C113); a source just below the band refutes it in general, as every harmonic carries power (C05_every_harmonic) |
| C115 | Every luminosity tolerance between 0 and 1 can be used | Harmonics.v set_gw_lum_tol | the share falls, so only e = 0.2 matters; its value is enclosed by alternating series of J_0 and J_1; refuted from 0.39 on |
| C116 | A stationary source has SNR zero exactly if it radiates at no frequency in band | Snr.v stationary functions | the formula of C40, positivity of every harmonic (C05_every_harmonic) and the bands of C34 |
| C117 | A wider, lighter or less eccentric binary merges later | Evol.v merger times | the mean value theorem for Peters' integral over its circular limit, closed forms of the approximations, a second-order lower bound of the integral at e = 0.15 for the refutation; partial: refuted across both default tolerances |
| C118 | Stationary binaries are recognised in double precision | FloatStat.v | the error of the difference is bounded by those of its terms, and that of its power -3/8 by the distance from 0; merged binaries and powers that overflow are treated apart; the exact label changes with the chirp mass only near the tolerance |
| C119 | Results scale with the masses as general relativity demands | Utils.v, Evol.v, Strain.v, Snr.v | the powers of k in each closed form cancel; merger times by their ratio to the circular time (C117); trajectories of the scaled equation are the old ones with time stretched, and exact integrators return them (C75); labels by cases before, at and after merger |
| C120 | It does not matter which member of a binary is called the first | Utils.v, Evol.v, Snr.v, Source.v, History.v | sums and products commute, broadcasting is symmetric; operations on a collection are shown to act alike on the exchanged one, by induction over histories |
| C121 | Observing longer never lowers an SNR | Psd.v, Snr.v | noise curves are split into a part that does not depend on the time and the confusion noise; monotonicity of each factor of the fits; partial: refuted for robson19 across nine months and for huang20 across four and a half years |

## 5. Assumptions per theorem

Axioms, by letter: C = `Classical_Prop.classic`, F = `FunctionalExtensionality.functional_extensionality_dep`,
S = `ClassicalDedekindReals.sig_forall_dec`, N = `ClassicalDedekindReals.sig_not_dec`; `-` = closed under the global context.
The table is written by `tools/assumptions.py` from the output of `Print Assumptions`.

Facts about external routines are hypotheses of the theorems, never axioms.  The last column names them:

* `quad_exact` – `scipy.integrate.quad` returns the Riemann integral of a continuous integrand.
* `odeint_exact` – `odeint` returns values of a solution of the equation; `odeint_shape` – it returns one value per time.
* `complete_schedule` – the worker pool runs every task at least once, in any order.
* `response_ok` – the response file, if present, gives positive values; `proper_noise` – a noise curve is positive or infinite.
* `noise_curve`, `exact_curve` – the noise is computed frequency by frequency (custom curves included).
* `finite_bessel`, `circular_powers`, `good_source` – Bessel functions finite; J_k(0) = [k = 0]; powers not negative.
* `lum_table` – shape of the table of relative powers; `tabulates` – the interpolation passes through its nodes.
* `computable` – an SNR can be computed at all: see MethodSpec.v, field by field.
* `units_parse`, `lists_attributes` – astropy parses the unit names it writes; h5py lists every attribute once.
* `same_world` – the custom curves and spline tables of the model with units answer as those of the model in SI.

Theorems without such a name hold for every choice of the external routines.

<!-- assumptions -->
| theorem | file | axioms | assumed of external routines |
|---|---|---|---|
| `C01_kepler_from_frequency` | PropUtils | CFNS |  |
| `C01_kepler_from_separation` | PropUtils | CFNS |  |
| `C02_chirp_mass_equation` | PropUtils | CFNS |  |
| `C02_chirp_mass_scaling` | PropUtils | CFNS |  |
| `C02_chirp_mass_increasing` | PropUtils | CFNS |  |
| `C03_separation_roundtrip` | PropUtils | CFNS |  |
| `C03_c0_roundtrip` | PropUtils | CFNS |  |
| `C03_separation_increasing` | PropUtils | CFNS |  |
| `C04_peters_f_value` | PropUtils | CFNS |  |
| `C04_peters_f_circular_and_limit` | PropUtils | CFNS |  |
| `C04_peters_f_increasing` | PropUtils | CFNS |  |
| `C05_published_formula` | PropAccuracy | CFNS |  |
| `C05_bessel_at_0` | PropAccuracy | CFNS |  |
| `C05_every_harmonic` | PropParseval | CFNS |  |
| `C05_peters_g_never_negative` | PropUtils | FS |  |
| `C05_peters_g_finite` | PropUtils | FS |  |
| `C05_peters_g_circular` | PropUtils | FS |  |
| `C06_fn_dot_is_frequency_drift` | PropUtils | CFNS |  |
| `C06_fn_dot_linear_in_n` | PropUtils | CFNS |  |
| `C06_fn_dot_rejects` | PropUtils | CFNS |  |
| `C07_trajectory_rates` | PropEvol | CFNS |  |
| `C07_trajectories_exist` | PropEvol | CFNS | quad_exact |
| `C08_ensure_array_results` | PropUtils | - |  |
| `C08_ensure_array_flag` | PropUtils | - |  |
| `C08_ensure_array_idempotent` | PropUtils | - |  |
| `C09_value` | PropUnits | CFNS |  |
| `C09_strain` | PropUnits | CFNS |  |
| `C09_unit_independent` | PropUnits | CFNS |  |
| `C09_wrong_dimension` | PropUnits | CFNS |  |
| `C09_wrong_angle` | PropUnits | FNS |  |
| `C09_strain_refuted` | PropUnits | CFNS |  |
| `C09_forgotten_distance_refuted` | PropUnits | CFNS |  |
| `C09_plain_zero` | PropUnits | CFNS |  |
| `C10_responses_nonnegative` | PropUtils | FNS |  |
| `C10_total_independent_of_polarisation` | PropUtils | FNS |  |
| `C10_rotation_by_45_degrees_swaps` | PropUtils | FNS |  |
| `C10_cauchy_schwarz` | PropUtils | FNS |  |
| `C11_average_responses` | PropUtils | CFNS |  |
| `C11_average_modulation` | PropUtils | CFNS |  |
| `C12_modulated_strain` | PropAccuracy | CFNS |  |
| `C12_located_snr_is_smaller` | PropSnr | CFNS | noise_curve, proper_noise |
| `C12_located_strain_is_smaller` | PropStrain | CFNS |  |
| `C12_modulation_between_0_and_1` | PropUtils | FNS |  |
| `C13_separation` | PropEvol | CFNS |  |
| `C13_frequency` | PropEvol | CFNS |  |
| `C14_two_steps` | PropEvol | CFNS |  |
| `C14_history` | PropEvol | CFNS |  |
| `C15_merged_iff` | PropEvol | CFNS |  |
| `C15_countdown` | PropEvol | CFNS |  |
| `C16_same_frequency` | PropEvol | CFNS |  |
| `C17_estimate_is_upper_bound` | PropEvol | CFNS |  |
| `C17_stationary_sources_barely_change` | PropEvol | CFNS |  |
| `C18_monotone` | PropEvol | CFNS |  |
| `C18_merged_not_stationary` | PropEvol | CFNS | quad_exact |
| `C18_component_masses` | PropEvol | CFNS |  |
| `C18_missing_masses` | PropEvol | CFNS |  |
| `C19_merger_time_bounds` | PropEvol | CFNS | quad_exact |
| `C20_countdown` | PropEvol | CFNS | quad_exact |
| `C21_array_is_scalar` | PropEvol | CFNS |  |
| `C21_crossed_tolerances_refuted` | PropEvol | CFNS |  |
| `C22_accepts_iff` | PropEvol | CFNS |  |
| `C22_rejects_with_ValueError` | PropEvol | CFNS |  |
| `C22_values` | PropEvol | CFNS |  |
| `C22_population` | PropEvol | CFNS |  |
| `C23_rows` | PropEvol | CFNS |  |
| `C23_row_shape` | PropEvol | FS |  |
| `C23_scalar_t_evol` | PropEvol | CFNS |  |
| `C23_default_is_merger_time` | PropEvol | CFNS |  |
| `C23_given_steps` | PropEvol | CFNS |  |
| `C24_avoid_merger` | PropEvol | CFNS | complete_schedule |
| `C25_pool` | PropEvol | CFNS | complete_schedule |
| `C25_broadcast_refuted` | PropEvol | CFNS |  |
| `C26_caller_arrays_refuted` | PropEvol | CFNS |  |
| `C26_shared_steps_kept_partial` | PropEvol | CFNS |  |
| `C26_no_avoid_merger_kept_partial` | PropEvol | CFNS |  |
| `C27_circ_arrays` | PropEvol | CFNS |  |
| `C27_circ_scalars` | PropEvol | CFNS |  |
| `C27_ecc_arrays` | PropEvol | CFNS | complete_schedule |
| `C27_circ_needs_masses` | PropEvol | CFNS |  |
| `C27_ecc_needs_masses` | PropEvol | CFNS |  |
| `C28_strain_relation` | PropStrain | CFNS |  |
| `C29_carries_the_luminosity` | PropStrain | CFNS |  |
| `C29_scaling` | PropStrain | CFNS |  |
| `C29_circular_amplitude` | PropStrain | CFNS |  |
| `C30_circular_sources` | PropStrain | CFNS |  |
| `C31_negative_power_is_zero_strain` | PropStrain | CFNS |  |
| `C31_same_as_clipped` | PropStrain | CFNS |  |
| `C32_rejected` | PropStrain | CFNS |  |
| `C32_accepted` | PropStrain | CFNS |  |
| `C32_fn_dot` | PropStrain | CFNS |  |
| `C33_strain_is_local` | PropStrain | CFNS |  |
| `C34_lisa` | PropPsd | CFNS | response_ok |
| `C34_decigo` | PropPsd | CFNS |  |
| `C34_tianqin` | PropPsd | CFNS |  |
| `C34_decigo_tiny_f_low_refuted` | PropPsd | CFNS |  |
| `C35_nonnegative` | PropPsd | CFNS |  |
| `C35_none_is_zero` | PropPsd | S |  |
| `C35_huang20_outside` | PropPsd | CFNS |  |
| `C35_lisa_total` | PropPsd | CFNS | response_ok |
| `C35_tianqin_total` | PropPsd | CFNS |  |
| `C35_decigo_total` | PropPsd | CFNS |  |
| `C36_lisa` | PropPsd | CFNS |  |
| `C36_tianqin` | PropPsd | CFNS |  |
| `C36_decigo` | PropPsd | CFNS |  |
| `C36_custom` | PropPsd | - |  |
| `C36_unknown_instrument` | PropPsd | CFNS |  |
| `C36_unknown_model` | PropPsd | CFNS |  |
| `C37_robson19` | PropPsd | CFNS |  |
| `C37_huang20` | PropPsd | CFNS |  |
| `C37_thiele21_only_4yr` | PropPsd | CFNS |  |
| `C37_thiele21_value` | PropPsd | CFNS |  |
| `C37_auto` | PropPsd | CFNS |  |
| `C38_missing_file_refuted` | PropPsd | FS |  |
| `C38_missing_file_breaks_lisa_psd_refuted` | PropPsd | CFNS |  |
| `C38_present_file_partial` | PropPsd | FS |  |
| `C39_bounded_and_decreasing` | PropPsd | FS |  |
| `C40_stationary_flags` | PropSnr | CFNS | noise_curve |
| `C40_evolving_flags` | PropSnr | CFNS | odeint_shape, complete_schedule, noise_curve |
| `C40_stationary_value` | PropSnr | CFNS | noise_curve, proper_noise, good_source |
| `C41_loudest_stationary` | PropSnr | CFNS |  |
| `C41_loudest_evolving` | PropSnr | CFNS |  |
| `C42_agree_at_zero_eccentricity` | PropSnr | CFNS | noise_curve, proper_noise, circular_powers |
| `C43_distance` | PropSnr | CFNS | odeint_shape, complete_schedule, noise_curve |
| `C43_observing_time` | PropSnr | CFNS |  |
| `C43_mass_eccentric` | PropZero | CFNS | noise_curve, proper_noise, good_source |
| `C43_mass_circular` | PropZero | CFNS | noise_curve, proper_noise |
| `C44_out_of_band` | PropSnr | CFNS | good_source |
| `C44_more_harmonics` | PropSnr | CFNS | noise_curve, proper_noise, good_source |
| `C45_circular` | PropSnr | CFNS | noise_curve, proper_noise |
| `C45_eccentric` | PropSnr | CFNS | odeint_exact, odeint_shape, complete_schedule, noise_curve, proper_noise |
| `C45_last_second_refuted` | PropSnr | CFNS | noise_curve, proper_noise |
| `C46_source` | PropSource | CFNS | computable |
| `C46_unique` | PropSource | CFNS |  |
| `C46_all_classes` | PropSource | CFNS | computable |
| `C47_subset` | PropSource | CFNS | computable |
| `C48_snr_stationary` | PropSource | CFNS | computable |
| `C48_snr_evolving` | PropSource | CFNS | computable |
| `C48_h_0_n` | PropSource | CFNS |  |
| `C48_h_c_n` | PropSource | CFNS |  |
| `C48_np_integer_refuted` | PropSource | CFNS |  |
| `C49_get_snr_refuted` | PropSource | CFNS | computable |
| `C49_history_refuted` | PropSource | CFNS |  |
| `C49_others_partial` | PropSource | CFNS | computable |
| `C50_any_history` | PropCurve | CFNS |  |
| `C50_successful_history` | PropCurve | CFNS |  |
| `C50_indexing` | PropCurve | CFNS |  |
| `C50_toggle_refuted` | PropCurve | CFNS |  |
| `C50_ior_refuted` | PropCurve | CFNS |  |
| `C50_repeated_failure_refuted` | PropCurve | CFNS |  |
| `C50_new_class_refuted` | PropCurve | CFNS |  |
| `C51_any_history` | PropCurve | CFNS |  |
| `C51_unknown_keys` | PropCurve | CFNS |  |
| `C51_unknown_keys_at_construction` | PropCurve | CFNS |  |
| `C51_item_assignment` | PropCurve | CFNS |  |
| `C51_update` | PropCurve | CFNS |  |
| `C51_assignment` | PropCurve | CFNS |  |
| `C51_construction` | PropCurve | CFNS |  |
| `C51_ior_refuted` | PropCurve | CFNS |  |
| `C51_setdefault_refuted` | PropCurve | CFNS |  |
| `C51_setdefault_of_known_keys` | PropCurve | CFNS |  |
| `C51_ior_of_known_keys` | PropCurve | CFNS |  |
| `C52_first_call_stationary` | PropCurve | CFNS |  |
| `C52_first_call_evolving` | PropCurve | CFNS |  |
| `C52_first_call` | PropCurve | CFNS |  |
| `C52_same_as_psd` | PropCurve | CFNS |  |
| `C52_decigo_refuted` | PropCurve | CFNS |  |
| `C52_second_call_refuted` | PropCurve | CFNS |  |
| `C53_tables_match` | PropHarm | CFNS |  |
| `C53_failed_assignment_refuted` | PropHarm | CFNS | lum_table |
| `C54_harmonics_required` | PropHarm | CFNS | lum_table |
| `C54_monotone` | PropHarm | CFNS | lum_table |
| `C54_tabulated_eccentricities` | PropHarm | CFNS | lum_table |
| `C55_maximal_power` | PropHarm | CFNS | lum_table |
| `C55_beyond_the_table` | PropHarm | CFNS | lum_table |
| `C55_beyond_the_table_refuted` | PropHarm | CFNS | lum_table |
| `C56_transition_refuted` | PropHarm | CFNS |  |
| `C56_share_falls` | PropShare | CFNS |  |
| `C56_exact_transition_partial` | PropShare | CFNS |  |
| `C56_monotone` | PropShare | CFNS |  |
| `C56_edge_refuted` | PropSource | CFNS |  |
| `C57_rows` | PropIndex | - |  |
| `C57_unique` | PropIndex | - |  |
| `C57_accepts` | PropIndex | - |  |
| `C57_twice` | PropIndex | - |  |
| `C57_copy` | PropIndex | - |  |
| `C57_errors` | PropIndex | - |  |
| `C57_empty_list_refuted` | PropIndex | - |  |
| `C57_bool_refuted` | PropIndex | - |  |
| `C57_verification_copy_refuted` | PropIndex | - |  |
| `C58_isolated` | PropWorld | CFNS |  |
| `C58_as_if_alone` | PropWorld | CFNS |  |
| `C58_refines` | PropWorld | CFNS |  |
| `C58_subsets` | PropWorld | CFNS |  |
| `C58_apart` | PropWorld | CFNS |  |
| `C58_in_place` | PropWorld | CFNS |  |
| `C58_copied_parameters` | PropWorld | CFNS |  |
| `C58_snr_as_weights_refuted` | PropWorld | CFNS |  |
| `C59_round_trip` | PropFile | CFNS | units_parse, lists_attributes |
| `C59_exact` | PropFile | CFNS | units_parse, lists_attributes |
| `C59_overrides` | PropFile | CFNS | units_parse, lists_attributes |
| `C59_warnings` | PropFile | FS |  |
| `C59_verification_binaries_refuted` | PropFile | CFNS | units_parse, lists_attributes |
| `C60_no_overwrite` | PropFile | FS |  |
| `C60_other_files` | PropFile | FS |  |
| `C60_file_name` | PropFile | CFNS |  |
| `C60_outcomes` | PropFile | CFNS |  |
| `C60_completed_partial` | PropFile | CFNS | units_parse, lists_attributes |
| `C60_overwrite_error_refuted` | PropFile | CFNS |  |
| `C60_overwrite_crash_refuted` | PropFile | CFNS |  |
| `C60_partial_file_refuted` | PropFile | CFNS | units_parse, lists_attributes |
| `C61_without_interpolation_partial` | PropFile | CFNS | units_parse, lists_attributes |
| `C61_custom_instrument_refuted` | PropFile | CFNS | units_parse, lists_attributes |
| `C61_refused_tolerance_refuted` | PropFile | CFNS | units_parse, lists_attributes |
| `C62_history` | PropEvolve | CFNS |  |
| `C62_permanent` | PropEvolve | CFNS |  |
| `C63_steps` | PropEvolve | CFNS |  |
| `C64_twin_partial` | PropEvolve | CFNS |  |
| `C64_lost_refuted` | PropEvolve | CFNS |  |
| `C65_accepts` | PropSource | CFNS |  |
| `C65_only` | PropSource | CFNS |  |
| `C65_lengths` | PropSource | CFNS |  |
| `C65_no_frequency` | PropSource | CFNS |  |
| `C65_sky_without_position` | PropSource | CFNS |  |
| `C65_eccentric_position` | PropSource | CFNS |  |
| `C65_missing_units` | PropSource | CFNS |  |
| `C65_different_lengths` | PropSource | CFNS |  |
| `C65_collection` | PropSource | CFNS |  |
| `C65_weights_refuted` | PropSource | CFNS |  |
| `C66_set_get` | PropSource | CFNS |  |
| `C66_no_unit` | PropSource | CFNS |  |
| `C66_construct` | PropSource | CFNS |  |
| `C66_length_refuted` | PropSource | CFNS |  |
| `C67_selected` | PropSource | CFNS |  |
| `C67_saved` | PropSource | CFNS |  |
| `C68_mask` | PropSource | CFNS |  |
| `C68_partition` | PropSource | CFNS |  |
| `C68_errors` | PropSource | CFNS |  |
| `C69_fresh_partial` | PropSource | CFNS | computable |
| `C69_stale_refuted` | PropSource | CFNS |  |
| `C70_points_on_curve` | PropVis | CFNS | exact_curve |
| `C70_nothing_detectable` | PropVis | CFNS | exact_curve |
| `C70_curve` | PropVis | CFNS | exact_curve |
| `C70_collection` | PropVis | CFNS | exact_curve |
| `C70_no_snr` | PropVis | CFNS |  |
| `C71_circular_partial` | PropVis | CFNS | exact_curve |
| `C71_eccentric_never_reported_refuted` | PropVis | CFNS | exact_curve |
| `C71_circular_counted_twice_refuted` | PropVis | CFNS | exact_curve |
| `C72_call_trees` | PropStyle | - |  |
| `C72_functions` | PropStyle | - |  |
| `C72_methods` | PropStyle | - |  |
| `C72_after_call` | PropStyle | - |  |
| `C72_style_in_force` | PropStyle | - |  |
| `C72_style` | PropStyle | - |  |
| `C72_style_refused` | PropStyle | - |  |
| `C72_outcome` | PropStyle | - |  |
| `C72_method_outcome` | PropStyle | - |  |
| `C73_one_handler` | PropLogging | - |  |
| `C73_delivered_once` | PropLogging | - |  |
| `C73_not_passed_to_root` | PropLogging | - |  |
| `C73_handlers_respected` | PropLogging | - |  |
| `C73_handlers_kept` | PropLogging | - |  |
| `C73_root_kept` | PropLogging | - |  |
| `C73_messages_shown` | PropLogging | - |  |
| `C73_level_before_import_refuted` | PropLogging | - |  |
| `C73_level_before_reload_refuted` | PropLogging | - |  |
| `C73_passed_to_root_refuted` | PropLogging | - |  |
| `C73_prefix` | PropLogging | - |  |
| `C73_level_in_small_letters` | PropLogging | - |  |
| `C73_no_colour` | PropLogging | - |  |
| `C73_colour` | PropLogging | - |  |
| `C74_circ_rows_are_scalar_calls` | PropEvol | CFNS |  |
| `C74_ecc_rows_are_scalar_calls` | PropEvol | CFNS | complete_schedule |
| `C75_eccentricity_always_finite` | PropAccuracy | CFNS |  |
| `C75_failed_steps_are_zero` | PropAccuracy | CFNS |  |
| `C75_samples_peters_inspiral` | PropEvol | CFNS | odeint_exact, complete_schedule |
| `C76_lisa` | PropPsd | CFNS | response_ok |
| `C76_tianqin` | PropPsd | CFNS |  |
| `C76_decigo` | PropPsd | CFNS |  |
| `C76_confusion_well_defined` | PropPsd | CFNS |  |
| `C77_custom_confusion_units_refuted` | PropPsd | CFNS |  |
| `C77_custom_confusion_added_partial` | PropPsd | CFNS |  |
| `C78_stationary_is_local` | PropSnr | CFNS | noise_curve |
| `C78_evolving_is_local` | PropSnr | CFNS | odeint_shape, complete_schedule, noise_curve |
| `C79_circular` | PropSnr | CFNS | noise_curve, proper_noise |
| `C79_eccentric` | PropSnr | CFNS | odeint_shape, complete_schedule, noise_curve, proper_noise |
| `C80_circular_partial` | PropSnr | CFNS | noise_curve, proper_noise |
| `C80_eccentric_partial` | PropSnr | CFNS | odeint_exact, odeint_shape, complete_schedule, noise_curve, proper_noise |
| `C80_two_steps_refuted` | PropSnr | CFNS | odeint_exact, odeint_shape, complete_schedule, noise_curve, proper_noise |
| `C80_last_month_refuted` | PropSnr | CFNS | odeint_exact, odeint_shape, complete_schedule, noise_curve, proper_noise |
| `C80_bessel_partial` | PropZero | CFNS | odeint_exact, odeint_shape, complete_schedule, noise_curve, proper_noise |
| `C81_returned_partial` | PropWorld | CFNS |  |
| `C81_overwritten_refuted` | PropWorld | CFNS |  |
| `C81_refuted` | PropWorld | CFNS |  |
| `C82_tabulated` | PropCurve | CFNS | exact_curve, tabulates |
| `C82_of_power_spectral_density` | PropCurve | CFNS | tabulates |
| `C82_refused` | PropCurve | CFNS |  |
| `C82_meaningless_time` | PropCurve | CFNS |  |
| `C82_between_exact_values` | PropCurve | CFNS | tabulates |
| `C83_evolve` | PropEvolve | CFNS | odeint_shape |
| `C84_within_2_3_percent` | PropAccuracy | CFNS | quad_exact |
| `C84_small_eccentricity` | PropAccuracy | CFNS | quad_exact |
| `C84_large_eccentricity` | PropAccuracy | CFNS | quad_exact |
| `C85_fit_value` | PropAccuracy | CFNS |  |
| `C85_within_3_3_percent` | PropAccuracy | CFNS | quad_exact |
| `C85_documented_accuracy_refuted` | PropAccuracy | CFNS | quad_exact |
| `C86_responses_are_orbit_averages` | PropAccuracy | CFNS |  |
| `C86_modulation_is_orbit_average` | PropAccuracy | CFNS |  |
| `C87_incomplete_sky_arguments_raise` | PropAccuracy | CFNS |  |
| `C88_one_entry_per_source` | PropFile | CFNS |  |
| `C89_two_variables` | PropVis | CFNS |  |
| `C89_one_variable` | PropVis | CFNS |  |
| `C89_unknown_variable` | PropVis | CFNS |  |
| `C89_snr_not_computed` | PropVis | CFNS |  |
| `C90_converters_and_filters` | PropStyle | - |  |
| `C91_logged_partial` | PropLogging | - |  |
| `C91_silenced_partial` | PropLogging | - |  |
| `C91_shown_partial` | PropLogging | - |  |
| `C91_printed_refuted` | PropLogging | CFNS |  |
| `C92_users_arrays` | PropWorld | CFNS |  |
| `C92_constructor_refuted` | PropWorld | CFNS |  |
| `C92_evolved_refuted` | PropWorld | CFNS |  |
| `C93_stationary_circular` | PropSky | CFNS | computable |
| `C93_evolving_refuted` | PropSky | CFNS | computable |
| `C93_h_0_n` | PropSky | CFNS |  |
| `C93_h_c_n` | PropSky | CFNS |  |
| `C94_merger_times` | PropUnitsEvol | CFNS |  |
| `C94_circular_evolution` | PropUnitsEvol | CFNS |  |
| `C94_marker_refuted` | PropUnitsEvol | CFNS |  |
| `C94_eccentric_evolution` | PropUnitsEvol | CFNS |  |
| `C94_frequency_and_stationarity` | PropUnitsEvol | CFNS |  |
| `C94_same_outcome` | PropUnitsEvol | CFNS |  |
| `C94_time_without_unit` | PropUnitsEvol | CFNS |  |
| `C94_time_of_wrong_dimension` | PropUnitsEvol | CFNS |  |
| `C94_wrong_time_of_frequency` | PropUnitsEvol | CFNS |  |
| `C95_sensitivity` | PropUnitsPsd | CFNS |  |
| `C95_confusion_noise` | PropUnitsPsd | CFNS |  |
| `C95_frequency_wrong` | PropUnitsPsd | CFNS |  |
| `C95_arm_length_wrong` | PropUnitsPsd | CFNS |  |
| `C95_mission_length_wrong` | PropUnitsPsd | CFNS |  |
| `C95_custom_noise_refuted` | PropUnitsPsd | CFNS |  |
| `C95_custom_noise_without_unit` | PropUnitsPsd | CFNS |  |
| `C95_custom_noise_tianqin` | PropUnitsPsd | CFNS |  |
| `C96_stationary_circular` | PropUnitsSnr | CFNS |  |
| `C96_stationary_eccentric` | PropUnitsSnr | CFNS |  |
| `C96_evolving_circular` | PropUnitsSnr | CFNS |  |
| `C96_evolving_eccentric` | PropUnitsSnr | CFNS |  |
| `C96_source_curve` | PropUnitsSnr | FS |  |
| `C96_settings` | PropUnitsSnr | FS |  |
| `C96_time_dimension_refuted` | PropUnitsSnr | CFNS |  |
| `C96_evolving_wrong_time` | PropUnitsSnr | CFNS |  |
| `C96_stationary_wrong_time` | PropUnitsSnr | CFNS |  |
| `C96_time_without_confusion_refuted` | PropUnitsSnr | CFNS |  |
| `C97_construction` | PropUnitsSource | CFNS | same_world |
| `C97_histories` | PropUnitsSource | CFNS | same_world |
| `C97_two_users` | PropUnitsSource | CFNS | same_world |
| `C97_readings` | PropUnitsSource | CFNS | same_world |
| `C97_methods` | PropUnitsSource | CFNS | same_world |
| `C97_units_kept` | PropUnitsSource | CFNS |  |
| `C98_evolution_time` | PropUnitsWrong | CFNS | same_world |
| `C98_evolution_time_without_unit` | PropUnitsWrong | CFNS |  |
| `C98_separations` | PropUnitsWrong | CFNS |  |
| `C98_separations_given` | PropUnitsWrong | CFNS |  |
| `C98_observation_time_mask` | PropUnitsWrong | CFNS |  |
| `C98_observation_time` | PropUnitsWrong | CFNS |  |
| `C98_construction_refuted` | PropUnitsWrong | CFNS |  |
| `C98_masses_later` | PropUnitsWrong | CFNS |  |
| `C98_distances_refuted` | PropUnitsWrong | CFNS |  |
| `C98_custom_curve_refuted` | PropUnitsWrong | CFNS |  |
| `C99_built` | PropVerification | CFNS | world_ready |
| `C99_histories` | PropVerification | CFNS |  |
| `C99_no_subset` | PropVerification | CFNS |  |
| `C99_published` | PropVerification | CFNS | world_ready |
| `C100_given` | PropDraws | CFNS |  |
| `C100_histories` | PropDraws | CFNS |  |
| `C100_evolved_copy` | PropDraws | CFNS |  |
| `C100_only_angles` | PropDraws | CFNS |  |
| `C100_verification` | PropDraws | CFNS |  |
| `C100_draws_matter` | PropDraws | CFNS | computable |
| `C100_irreproducible` | PropDraws | CFNS |  |
| `C101_one_variable` | PropAxes | CFNS |  |
| `C101_two_variables` | PropAxes | CFNS |  |
| `C101_sensitivity_curve` | PropAxes | CFNS |  |
| `C101_frequency_unit_refuted` | PropAxes | CFNS |  |
| `C101_second_plot_refuted` | PropAxes | CFNS |  |
| `C101_ecdf_refuted` | PropAxes | CFNS |  |
| `C102_distribution` | PropAxes | CFNS |  |
| `C102_two_dimensions` | PropAxes | FS |  |
| `C102_one_variable` | PropAxes | CFNS |  |
| `C102_two_variables` | PropAxes | CFNS |  |
| `C102_sources` | PropAxes | CFNS |  |
| `C102_ylim_refuted` | PropAxes | CFNS |  |
| `C103_distribution` | PropAxes | CFNS |  |
| `C103_two_dimensions` | PropAxes | FS |  |
| `C103_one_variable` | PropAxes | CFNS |  |
| `C103_two_variables` | PropAxes | CFNS |  |
| `C103_sources` | PropAxes | CFNS |  |
| `C103_accepted` | PropAxes | CFNS |  |
| `C103_scatter_s_refuted` | PropAxes | FS |  |
| `C104_shown` | PropAxes | CFNS |  |
| `C104_sources` | PropAxes | CFNS |  |
| `C104_nothing_detectable` | PropAxes | CFNS |  |
| `C104_nothing_detectable_refuted` | PropAxes | CFNS |  |
| `C104_errors` | PropAxes | CFNS |  |
| `C105_chirp_mass` | PropFloat | CFNS |  |
| `C105_chirp_mass_symmetric` | PropFloat | FNS |  |
| `C105_separation` | PropFloat | CFNS |  |
| `C105_frequency` | PropFloat | CFNS |  |
| `C105_there_and_back` | PropFloat | CFNS |  |
| `C105_beta` | PropFloat | CFNS |  |
| `C105_enhancement` | PropFloat | CFNS |  |
| `C105_enhancement_circular` | PropFloat | CFNS |  |
| `C105_peters_constant` | PropFloat | CFNS |  |
| `C105_peters_separation` | PropFloat | CFNS |  |
| `C105_merger_small` | PropFloat | CFNS |  |
| `C105_merger_large` | PropFloat | CFNS |  |
| `C105_chirp` | PropFloat | CFNS |  |
| `C105_strain` | PropFloat | CFNS |  |
| `C105_characteristic_strain` | PropFloat | CFNS |  |
| `C105_lisa_noise` | PropFloat | CFNS |  |
| `C105_lisa_instrument_noise` | PropFloat | CFNS |  |
| `C105_tianqin_noise` | PropFloat | CFNS |  |
| `C105_decigo_noise` | PropFloat | CFNS |  |
| `C105_circular_power` | PropFloat | CFNS |  |
| `C105_circular_snr` | PropFloat | CFNS |  |
| `C106_sum` | PropFloat | CFNS |  |
| `C106_snr` | PropFloat | CFNS |  |
| `C106_orders` | PropFloat | CFNS |  |
| `C107_merger_time` | PropFloat | CFNS |  |
| `C107_start` | PropFloat | CFNS |  |
| `C107_separation` | PropFloat | CFNS |  |
| `C107_ends_close` | PropFloat | CFNS |  |
| `C107_ends_merged_refuted` | PropFloat | CFNS |  |
| `C108_strains` | PropWords | CFNS |  |
| `C108_snr_stationary` | PropWords | CFNS |  |
| `C108_snr_evolving` | PropWords | CFNS |  |
| `C108_limits` | PropWords | - |  |
| `C108_strain_refuted` | PropWords | CFNS |  |
| `C108_snr_refuted` | PropWords | CFNS | noise_curve |
| `C109_response` | PropResponse | FNS |  |
| `C109_short_arms` | PropResponse | CFNS |  |
| `C109_default_noise` | PropResponse | CFNS |  |
| `C109_long_arms_refuted` | PropResponse | CFNS |  |
| `C109_snr_refuted` | PropResponse | CFNS |  |
| `C110_agreement` | PropAgree | CFNS | noise_curve, proper_noise |
| `C110_labelled_stationary` | PropAgree | CFNS | noise_curve, proper_noise |
| `C111_circular` | PropConv | CFNS | noise_curve, proper_noise |
| `C111_eccentric` | PropConv | CFNS | odeint_exact, odeint_shape, complete_schedule, noise_curve, proper_noise |
| `C112_lisa_partial` | PropCont | CFNS |  |
| `C112_approximate_response` | PropCont | CFNS |  |
| `C112_tianqin_partial` | PropCont | CFNS |  |
| `C112_decigo_partial` | PropCont | CFNS |  |
| `C112_tianqin_refuted` | PropCont | CFNS |  |
| `C112_one_year_refuted` | PropCont | CFNS |  |
| `C112_jumps_small_partial` | PropCont | CFNS |  |
| `C112_reciprocal` | PropCont | CFNS |  |
| `C113_sum` | PropParseval | CFNS |  |
| `C113_enough_harmonics` | PropParseval | CFNS |  |
| `C113_strain` | PropParseval | CFNS |  |
| `C113_characteristic` | PropParseval | CFNS |  |
| `C113_never_all` | PropParseval | CFNS |  |
| `C114_rising_noise_partial` | PropParseval | CFNS | noise_curve, proper_noise |
| `C114_truncation` | PropParseval | CFNS | noise_curve, proper_noise |
| `C114_below_band_refuted` | PropParseval | CFNS |  |
| `C115_large_tolerance_refuted` | PropShare | CFNS | lum_table |
| `C115_small_tolerance_partial` | PropShare | CFNS | lum_table |
| `C115_accepted_iff` | PropShare | CFNS | lum_table |
| `C116_eccentric` | PropZero | CFNS |  |
| `C116_circular` | PropZero | CFNS |  |
| `C116_any_curve` | PropZero | CFNS | noise_curve, proper_noise |
| `C117_peters` | PropMono | CFNS | quad_exact |
| `C117_same_regime_partial` | PropMono | CFNS | quad_exact |
| `C117_jump_refuted` | PropMono | CFNS | quad_exact |
| `C117_jump_large_refuted` | PropMono | CFNS | quad_exact |
| `C117_within_5_percent_partial` | PropMono | CFNS | quad_exact |
| `C117_same_ratio` | PropMono | CFNS | quad_exact |
| `C117_wider_lighter` | PropMono | CFNS | quad_exact |
| `C118_stationary` | PropFloatStat | CFNS |  |
| `C118_evolving` | PropFloatStat | CFNS |  |
| `C118_stationary_masses` | PropFloatStat | CFNS |  |
| `C118_evolving_masses` | PropFloatStat | CFNS |  |
| `C118_frequency` | PropFloatStat | CFNS |  |
| `C119_conversions` | PropGeom | CFNS |  |
| `C119_de_dt` | PropGeom | CFNS |  |
| `C119_merger_circular` | PropGeom | CFNS |  |
| `C119_merger` | PropGeom | CFNS |  |
| `C119_evolution` | PropGeom | CFNS |  |
| `C119_frequencies` | PropGeom | CFNS |  |
| `C119_eccentric` | PropGeom | CFNS | odeint_exact, complete_schedule |
| `C119_evolve_f_orb` | PropGeom | CFNS |  |
| `C119_stationarity` | PropGeom | CFNS |  |
| `C119_strain` | PropGeom | CFNS |  |
| `C119_snr_circular` | PropGeom | CFNS | noise_curve, proper_noise |
| `C119_snr_eccentric` | PropGeom | CFNS | noise_curve, proper_noise, good_source |
| `C120_masses` | PropSwap | CFNS |  |
| `C120_merger_times` | PropSwap | CFNS |  |
| `C120_merger_times_of_one` | PropSwap | CFNS |  |
| `C120_stationarity` | PropSwap | CFNS |  |
| `C120_evol_circ` | PropSwap | CFNS |  |
| `C120_evol_ecc` | PropSwap | CFNS |  |
| `C120_snr_circ` | PropSwap | CFNS |  |
| `C120_snr_ecc` | PropSwap | CFNS |  |
| `C120_construction` | PropSwap | CFNS |  |
| `C120_results` | PropSwap | CFNS |  |
| `C120_history` | PropSwap | CFNS |  |
| `C120_evolve_new` | PropSwap | CFNS |  |
| `C120_indexing` | PropSwap | - |  |
| `C120_copy` | PropSwap | - |  |
| `C120_every_collection` | PropSwap | CFNS |  |
| `C121_circular_partial` | PropLonger | CFNS | noise_curve, proper_noise |
| `C121_eccentric_partial` | PropLonger | CFNS | noise_curve, proper_noise, good_source |
| `C121_noise_falls` | PropLonger | CFNS | noise_curve, proper_noise |
| `C121_robson_noise_refuted` | PropLonger | CFNS | noise_curve |
| `C121_robson_snr_refuted` | PropLonger | CFNS |  |
| `C121_huang_noise_refuted` | PropLonger | CFNS | noise_curve |
| `C121_huang_snr_refuted` | PropLonger | CFNS |  |
<!-- end assumptions -->

## 6. Not modelled

Rounding error outside C105 to C107 and C118, performance, the numerical accuracy of scipy's `quad`/`odeint`/splines, the contents of the data files
(`harmonics.npz`, `peters_g.npy`; `R.npy` and `verification_binaries.npy` are transcribed), pixel-level drawing by matplotlib/seaborn, the
numba compilation of the integrand, and HDF5's own crash behaviour below the level of one attribute/dataset write.
