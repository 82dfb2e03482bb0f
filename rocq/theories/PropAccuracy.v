(** PropAccuracy.v -- properties C84-C87 and further theorems for C05, C12 and C75. *)
From Coq Require Import String Reals ZArith List Lra Lia Bool.
From Coquelicot Require Import Coquelicot.
From Verif Require Import Num Np Utils Spec Strain StrainSpec Evol EvolSpec MergeFacts Bessel BesselFacts AccuracySpec AccuracyThms OrbitSpec OrbitFacts
  TightSpec TightThms.
Import ListNotations.
Open Scope R_scope.

(** ** C05: the relative power is Peters & Mathews' g(n, e) *)
(** For the Bessel functions J_n (defined by Bessel's integral) peters_g is the published g(n, e), written with J_n and its
    derivative. *)
Theorem C05_published_formula : forall jv n e, (forall k x, jv k (Fin x) = Fin (besselJ k x)) -> (1 <= n)%Z -> 0 < e <= 1 ->
  exists D, is_derive (besselJ n) (IZR n * e) D /\
    peters_g jv n (Fin e) = Fin (harmonic_power (IZR n) e (besselJ n (IZR n * e)) D).
Proof. exact published_g. Qed.
Print Assumptions C05_published_formula.
(** The values at 0 that C05_peters_g_circular assumes are those of the Bessel functions. *)
Theorem C05_bessel_at_0 : forall k, besselJ k 0 = if (k =? 0)%Z then 1 else 0.
Proof. exact besselJ_0. Qed.
Print Assumptions C05_bessel_at_0.
Example C05_published_satisfiable : exists jv, forall k x, jv k (Fin x) = Fin (besselJ k x).
Proof. exists (fun k x => match x with Fin r => Fin (besselJ k r) | _ => NaN end). reflexivity. Qed.

(** ** C12: a located source's strain is the averaged one times the root of the modulation *)
Theorem C12_modulated_strain : forall jv gi m f e n d g a, 0 < m -> 0 < f -> 0 < d -> 0 <= e < 1 -> (1 <= n)%Z -> power_used jv gi n e g ->
  exists h c, h_0_single jv gi m f e n d None = Ok [[[Fin h]]] /\ h_c_single jv gi m f e n d None = Ok [[[Fin c]]] /\
    let A := sqrt (5/4 * orbit_average (detected_power (PI/2 - lat a) (lon a) (psi a) (inc a))) in
    h_0_single jv gi m f e n d (Some a) = Ok [[[Fin (A * h)]]] /\ h_c_single jv gi m f e n d (Some a) = Ok [[[Fin (A * c)]]].
Proof. exact modulated_strain. Qed.
Print Assumptions C12_modulated_strain.
Example C12_modulated_satisfiable : power_used (fun _ _ => NaN) (Some (fun n x => Fin (IZR n))) 3 (1/2) 3.
Proof. exists 3. split; auto. rewrite Rmax_left; lra. Qed.

(** ** C75: eccentricities are never nan; a step at which the integration failed counts as merged (e = 0) *)
Theorem C75_eccentricity_always_finite : forall quad odeint sched ec t_evol n ts b m1 m2 a f np am ex tb tm v ts',
  evol_ecc quad odeint sched ec t_evol n ts b m1 m2 a f ["ecc"%string] np am ex tb tm = Ok (Single v, ts') ->
  forall y, In y (entries v) -> exists r, y = Fin r.
Proof. exact ecc_finite. Qed.
Print Assumptions C75_eccentricity_always_finite.
Theorem C75_failed_steps_are_zero : forall quad odeint sched e a b t_evol n ts ex tb tm, exists out,
  evol_ecc quad odeint sched (PArr [e]) t_evol n (S1 ts) (PQArr [b] tt) PNone PNone (PQArr [a] tt) PNone ["ecc"%string] 1 false ex tb tm
    = Ok (Single (E2 [out]), S1 ts) /\ length out = length (odeint (de_dt b (c_0 a e)) e ts) /\
  forall k x, nth_error (odeint (de_dt b (c_0 a e)) e ts) k = Some x ->
    match x with NaN => nth_error out k = Some (Fin 0) | Fin r => nth_error out k = Some (Fin r) | _ => True end.
Proof. exact ecc_failed. Qed.
Print Assumptions C75_failed_steps_are_zero.
Example C75_failing_integrator : exists out,
  evol_ecc quad_model (fun _ e ts => map (fun _ => NaN) ts) [] (PArr [Fin (1/2)]) TNone 3 (S1 [Fin 0; Fin 1])
      (PQArr [Fin 1] tt) PNone PNone (PQArr [Fin 1] tt) PNone ["ecc"%string] 1 false true (Fin 0) None = Ok (Single out, S1 [Fin 0; Fin 1])
  /\ entries out = [Fin 0; Fin 0].
Proof. eexists. split; reflexivity. Qed.

(** ** C84: the approximations used for nearly circular and nearly parabolic binaries *)
(** [merger_time] is get_t_merge_ecc, [peters_time] is the same without any approximation (Peters' integral).  With the
    default tolerances, or tighter ones, the result is within 2.3% of Peters' integral. *)
Theorem C84_within_2_3_percent : forall quad m1 m2 a, quad_exact quad -> 0 < m1 -> 0 < m2 -> 0 < a ->
  forall e small large, 0 <= e < 1 -> small <= 15/100 -> 1 - 1/10000 <= large ->
  exists t T, merger_time quad m1 m2 a e (Fin small) (Fin large) true = Ok (Fin t) /\ peters_time quad m1 m2 a e = Ok (Fin T)
    /\ 0 < T /\ Rabs (t - T) <= 23/1000 * T.
Proof. exact default_close. Qed.
Print Assumptions C84_within_2_3_percent.
(** Below the small tolerance the merger time is underestimated by at most 1.02 e^2 ... *)
Theorem C84_small_eccentricity : forall quad m1 m2 a, quad_exact quad -> 0 < m1 -> 0 < m2 -> 0 < a ->
  forall e small large exact, 0 < e < small -> small <= 15/100 -> exists t T,
  merger_time quad m1 m2 a e (Fin small) (Fin large) exact = Ok (Fin t) /\
  peters_time quad m1 m2 a e = Ok (Fin T) /\ t <= T <= t * (1 + 102/100 * e ^ 2).
Proof. exact small_formula. Qed.
Print Assumptions C84_small_eccentricity.
(** ... above the large one it is overestimated by at most a fraction 1.5 sqrt (1 - e^2). *)
Theorem C84_large_eccentricity : forall quad m1 m2 a, quad_exact quad -> 0 < m1 -> 0 < m2 -> 0 < a ->
  forall e small large exact, 9/10 <= e < 1 -> small <= e -> large < e -> exists t T,
  merger_time quad m1 m2 a e (Fin small) (Fin large) exact = Ok (Fin t) /\
  peters_time quad m1 m2 a e = Ok (Fin T) /\ (1 - 3/2 * sqrt (1 - e ^ 2)) * t <= T <= t.
Proof. exact large_formula. Qed.
Print Assumptions C84_large_eccentricity.
Example C84_satisfiable : quad_exact quad_model /\ 0 <= 1/10 < 1 /\ 0 < 1/10 < 15/100 /\ 9/10 <= 99999/100000 < 1 /\ 1 - 1/10000 < 99999/100000.
Proof. split; [exact quad_model_exact|lra]. Qed.

(** ** C85: exact_t_merge = False (Mandel's fit with LEGWORK's correction) *)
Theorem C85_fit_value : forall quad m1 m2 a, 0 < m1 -> 0 < m2 ->
  forall e small large, 0 < e < 1 -> small <= e <= large ->
  exists Tc, get_t_merge_circ_sc None (Some (Fin m1)) (Some (Fin m2)) (Some (Fin a)) None = Ok (Fin Tc) /\ 9/10 <= correction e /\
    merger_time quad m1 m2 a e (Fin small) (Fin large) false = Ok (Fin (Tc * mandel_2021 e / correction e)).
Proof. exact fit_value. Qed.
Print Assumptions C85_fit_value.
(** Within 3.3% of Peters' integral for every eccentricity ... *)
Theorem C85_within_3_3_percent : forall quad m1 m2 a, quad_exact quad -> 0 < m1 -> 0 < m2 -> 0 < a ->
  forall e small large, 0 <= e < 1 -> small <= 15/100 -> large = 1 - 1/10000 ->
  exists t T, merger_time quad m1 m2 a e (Fin small) (Fin large) false = Ok (Fin t) /\ peters_time quad m1 m2 a e = Ok (Fin T)
    /\ 0 < T /\ Rabs (t - T) <= 33/1000 * T.
Proof. exact fit_close. Qed.
Print Assumptions C85_within_3_3_percent.
(** ... but not within the documented 0.5%: near e = 0.9976 the merger time is at least 2.8% too short, for every binary. *)
Theorem C85_documented_accuracy_refuted : forall quad m1 m2 a, quad_exact quad -> 0 < m1 -> 0 < m2 -> 0 < a ->
  let e := 1866000 / 1870489 in exists t T,
  merger_time quad m1 m2 a e small_e_tol_default large_e_tol_default false = Ok (Fin t) /\
  peters_time quad m1 m2 a e = Ok (Fin T) /\ 0 < T /\ t <= 972/1000 * T.
Proof. exact fit_off. Qed.
Print Assumptions C85_documented_accuracy_refuted.
Example C85_satisfiable : quad_exact quad_model /\ 15/100 <= 1866000 / 1870489 <= 1 - 1/10000 /\ 0 < 1/2 < 1 /\ 15/100 <= 1/2 <= 1 - 1/10000.
Proof. split; [exact quad_model_exact|lra]. Qed.

(** ** C86: the detector response is that of a LISA-like interferometer averaged over its orbit *)
(** [lisa_plus], [lisa_cross] are the responses of the Michelson interferometer formed by two arms of the constellation at
    orbital phase alpha, computed from the positions of the spacecraft (OrbitSpec). *)
Theorem C86_responses_are_orbit_averages : forall th ph psi,
  F_plus_squared (Fin th) (Fin ph) (Fin psi) = Fin (orbit_average (fun alpha => lisa_plus th ph psi alpha ^ 2)) /\
  F_cross_squared (Fin th) (Fin ph) (Fin psi) = Fin (orbit_average (fun alpha => lisa_cross th ph psi alpha ^ 2)).
Proof. exact response_is_average. Qed.
Print Assumptions C86_responses_are_orbit_averages.
Theorem C86_modulation_is_orbit_average : forall lat lon psi inc,
  amplitude_modulation_elem (Fin lat) (Fin lon) (Fin psi) (Fin inc)
  = Fin (5/4 * orbit_average (detected_power (PI/2 - lat) lon psi inc)).
Proof. exact modulation_is_average. Qed.
Print Assumptions C86_modulation_is_orbit_average.
(** The constellation keeps its shape: the two arms have unit length at every phase. *)
Example C86_arms_are_rigid : forall lam x, dot (arm lam 1 2 x) (arm lam 1 2 x) = 1 /\ dot (arm lam 1 3 x) (arm lam 1 3 x) = 1.
Proof. intros. split; apply arm_unit; auto. Qed.

(** ** C87: incomplete sky arguments raise, they are never ignored *)
Theorem C87_incomplete_sky_arguments_raise : forall X jv gi (m d : X -> num) rows xs ns s ex, existsb (fun k => (k <? 1)%Z) ns = false -> incomplete s = Some ex ->
  h_0_n jv gi (map m xs) (f_rows rows xs) (e_rows rows xs) ns (map d xs) s = Err ex /\
  h_c_n jv gi (map m xs) (f_rows rows xs) (e_rows rows xs) ns (map d xs) s = Err ex.
Proof. exact incomplete_sky. Qed.
Print Assumptions C87_incomplete_sky_arguments_raise.
Example C87_satisfiable : incomplete (mkSky None (Some [Fin 1]) None) = Some AttributeError /\
  incomplete (mkSky (Some [(Fin 0, Fin 0)]) (Some [Fin 1]) None) = Some TypeError.
Proof. split; reflexivity. Qed.
