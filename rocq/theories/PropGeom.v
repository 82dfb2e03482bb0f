(** PropGeom.v -- property C119: results scale with the masses as general relativity demands.
    Gravity has no length of its own: multiplying all masses, lengths and times of a binary by k > 0, and dividing its
    frequencies by k, gives another possible binary. *)
From Coq Require Import Reals ZArith List Bool String Lra Lia.
From Verif Require Import Num Np Utils Evol EvolSpec MergeFacts Strain StrainSpec AccuracySpec AccuracyThms Psd PsdSpec Snr SnrSpec OdeintFacts GeomFacts GeomSnr.
Import ListNotations.
Open Scope R_scope.

(** ** C119 *)
(** The conversions: masses and separations are multiplied by k, frequencies divided by it, beta grows as k^3 and the rate of
    change of frequencies falls as 1 / k^2. *)
Theorem C119_conversions : forall k, 0 < k -> forall m1 m2 f a e ce n,
  0 < m1 -> 0 < m2 -> 0 < f -> 0 < a -> 0 < e < 1 -> 0 < ce -> (1 <= n)%Z ->
  exists mc r1 r2 r3 r4 r5 r6,
    chirp_mass (Fin m1) (Fin m2) = Fin mc /\ chirp_mass (Fin (k * m1)) (Fin (k * m2)) = Fin (k * mc) /\
    get_a_from_f_orb (Fin f) (Fin m1) (Fin m2) = Fin r1 /\ get_a_from_f_orb (Fin (f / k)) (Fin (k * m1)) (Fin (k * m2)) = Fin (k * r1) /\
    get_f_orb_from_a (Fin a) (Fin m1) (Fin m2) = Fin r2 /\ get_f_orb_from_a (Fin (k * a)) (Fin (k * m1)) (Fin (k * m2)) = Fin (r2 / k) /\
    beta (Fin m1) (Fin m2) = Fin r3 /\ beta (Fin (k * m1)) (Fin (k * m2)) = Fin (k ^ 3 * r3) /\
    c_0 (Fin a) (Fin e) = Fin r4 /\ c_0 (Fin (k * a)) (Fin e) = Fin (k * r4) /\
    get_a_from_ecc (Fin e) (Fin ce) = Fin r5 /\ get_a_from_ecc (Fin e) (Fin (k * ce)) = Fin (k * r5) /\
    fn_dot (Fin mc) (Fin f) (Fin e) [n] = Ok [Fin r6] /\ fn_dot (Fin (k * mc)) (Fin (f / k)) (Fin e) [n] = Ok [Fin (r6 / k ^ 2)].
Proof. exact utils_scale. Qed.
Print Assumptions C119_conversions.
(** Eccentricities change k times more slowly. *)
Theorem C119_de_dt : forall k, 0 < k -> forall m1 m2 c e, 0 < c -> 0 < e < 1 -> exists r,
  de_dt (beta (Fin m1) (Fin m2)) (Fin c) (Fin e) = Fin r /\ de_dt (beta (Fin (k * m1)) (Fin (k * m2))) (Fin (k * c)) (Fin e) = Fin (r / k).
Proof. exact de_dt_scale. Qed.
Print Assumptions C119_de_dt.
(** Merger times are multiplied by k: of circular binaries, *)
Theorem C119_merger_circular : forall k, 0 < k -> forall m1 m2 a, 0 < m1 -> 0 < m2 -> 0 < a ->
  exists t, get_t_merge_circ_sc None (Some (Fin m1)) (Some (Fin m2)) (Some (Fin a)) None = Ok (Fin t) /\
    get_t_merge_circ_sc None (Some (Fin (k * m1))) (Some (Fin (k * m2))) (Some (Fin (k * a))) None = Ok (Fin (k * t)).
Proof. exact circ_merger_scale. Qed.
Print Assumptions C119_merger_circular.
(** and of eccentric ones, with every tolerance, by integral or by fit. *)
Theorem C119_merger : forall k, 0 < k -> forall quad m1 m2 a e small large exact, quad_exact quad -> 0 < m1 -> 0 < m2 -> 0 < a -> 0 <= e < 1 ->
  exists t, merger_time quad m1 m2 a e (Fin small) (Fin large) exact = Ok (Fin t) /\
    merger_time quad (k * m1) (k * m2) (k * a) e (Fin small) (Fin large) exact = Ok (Fin (k * t)).
Proof. exact merger_scale. Qed.
Print Assumptions C119_merger.
(** A circular binary evolves through the same history, k times longer and k times wider, to the merger and after it. *)
Theorem C119_evolution : forall k, 0 < k -> forall quad m1 m2 a0 n, exists a : R -> R, forall ts,
  circ_call quad m1 m2 a0 n (map Fin ts) ["a"%string] = Ok (Single (E1 (map (fun t => Fin (a t)) ts))) /\
  circ_call quad (k * m1) (k * m2) (k * a0) n (map (fun t => Fin (k * t)) ts) ["a"%string] = Ok (Single (E1 (map (fun t => Fin (k * a t)) ts))).
Proof. exact evolution_scale. Qed.
Print Assumptions C119_evolution.
(** Its frequencies are divided by k until the merger. (Separations up to 1e-30 AU count as merged.) *)
Theorem C119_frequencies : forall k, 0 < k -> forall quad m1 m2 a0 n ts, 0 < m1 -> 0 < m2 ->
  exists a f : R -> R,
  circ_call quad m1 m2 a0 n (map Fin ts) ["a"%string] = Ok (Single (E1 (map (fun t => Fin (a t)) ts))) /\
  (Forall (fun t => AU / 10 ^ 30 < a t /\ AU / 10 ^ 30 < k * a t) ts ->
   circ_call quad m1 m2 a0 n (map Fin ts) ["f_orb"%string] = Ok (Single (E1 (map (fun t => Fin (f t)) ts))) /\
   circ_call quad (k * m1) (k * m2) (k * a0) n (map (fun t => Fin (k * t)) ts) ["f_orb"%string] = Ok (Single (E1 (map (fun t => Fin (f t / k)) ts)))).
Proof. exact frequencies_scale. Qed.
Print Assumptions C119_frequencies.
(** An eccentric binary passes through the same eccentricities, k times more slowly; separations and frequencies scale as those
    of circular binaries. *)
Theorem C119_eccentric : forall k, 0 < k -> forall quad odeint sched n_proc n m1 m2 a0 e0 b c T e ts, odeint_exact odeint ->
  0 < m1 -> 0 < m2 -> 0 < a0 -> 0 < e0 < 1 -> 0 <= T -> complete_schedule 1 sched ->
  beta (Fin m1) (Fin m2) = Fin b -> c_0 (Fin a0) (Fin e0) = Fin c -> e 0 = e0 -> follows_de_dt b c T e ->
  sorted (0 :: ts) -> (forall t, In t ts -> t <= T) ->
  let evol m1 m2 a0 ts var := evol_ecc quad odeint sched (POther (Fin e0)) TNone n (S1 (map Fin ts)) PNone (PQScalar (Fin m1) tt)
       (PQScalar (Fin m2) tt) (PQScalar (Fin a0) tt) PNone [var] n_proc false true (Fin 0) None in
  let call := evol m1 m2 a0 (0 :: ts) in
  let call' := evol (k * m1) (k * m2) (k * a0) (map (Rmult k) (0 :: ts)) in
  let result g := Ok (Single (E1 (map (fun t => Fin (g t)) (0 :: ts))), S1 (map Fin (0 :: ts))) in
  let result' g := Ok (Single (E1 (map (fun t => Fin (g t)) (0 :: ts))), S1 (map Fin (map (Rmult k) (0 :: ts)))) in
  exists a f : R -> R,
    call "ecc"%string = result e /\ call' "ecc"%string = result' e /\
    call "a"%string = result a /\ call' "a"%string = result' (fun t => k * a t) /\
    (Forall (fun t => AU / 10 ^ 30 < a t /\ AU / 10 ^ 30 < k * a t) (0 :: ts) ->
     call "f_orb"%string = result f /\ call' "f_orb"%string = result' (fun t => f t / k)).
Proof. exact eccentric_scale. Qed.
Print Assumptions C119_eccentric.
(** What evolve_f_orb_circ returns is divided by k too, the infinite frequency at merger included. *)
Theorem C119_evolve_f_orb : forall k, 0 < k -> forall f mc t e mf, 0 < f -> 0 < mc -> 0 <= e < 1 ->
  exists r, evolve_f_orb_circ [Fin f] [Fin mc] [Fin t] [Fin e] (Fin mf) = Ok [r] /\
    evolve_f_orb_circ [Fin (f / k)] [Fin (k * mc)] [Fin (k * t)] [Fin e] (Fin (mf / k)) = Ok [(r / Fin k)%num].
Proof. exact evolve_f_scale. Qed.
Print Assumptions C119_evolve_f_orb.
(** A population keeps its labels stationary or evolving. (Merged binaries count as 1e9 Hz, whatever their masses.) *)
Theorem C119_stationarity : forall k, 0 < k -> forall (bins : list (R * R * R * R)) tol,
  Forall (fun '(f, mc, t, e) => 0 < f /\ 0 < mc /\ 0 <= e < 1 /\ f * (1 + tol) < 10 ^ 9 /\ f / k * (1 + tol) < 10 ^ 9) bins ->
  determine_stationarity (map (fun '(f, mc, t, e) => Fin (f / k)) bins) (map (fun '(f, mc, t, e) => Fin (k * t)) bins)
    (map (fun '(f, mc, t, e) => Fin e) bins) None None (Some (map (fun '(f, mc, t, e) => Fin (k * mc)) bins)) (Fin tol) =
  determine_stationarity (map (fun '(f, mc, t, e) => Fin f) bins) (map (fun '(f, mc, t, e) => Fin t) bins)
    (map (fun '(f, mc, t, e) => Fin e) bins) None None (Some (map (fun '(f, mc, t, e) => Fin mc) bins)) (Fin tol).
Proof. exact labels_scale. Qed.
Print Assumptions C119_stationarity.
(** Strains, which are pure numbers, stay as they are when the distance is multiplied too. *)
Theorem C119_strain : forall k, 0 < k -> forall jv gi m f e n d g o,
  0 < m -> 0 < f -> 0 < d -> 0 <= e < 1 -> (1 <= n)%Z -> power_used jv gi n e g ->
  exists h hc, h_0_single jv gi m f e n d o = Ok [[[Fin h]]] /\ h_0_single jv gi (k * m) (f / k) e n (k * d) o = Ok [[[Fin h]]] /\
    h_c_single jv gi m f e n d o = Ok [[[Fin hc]]] /\ h_c_single jv gi (k * m) (f / k) e n (k * d) o = Ok [[[Fin hc]]].
Proof. exact strain_scale. Qed.
Print Assumptions C119_strain.
(** SNRs, which are pure numbers too, stay as they are when the observing time is multiplied by k and the noise curve, a power per
    unit of frequency, is rescaled likewise. *)
Theorem C119_snr_circular : forall k, 0 < k -> forall w w' jv gi X (m f d : X -> R) (o : option (X -> angles)) xs t sc sc' kw kw' p p',
  noise_curve w kw sc t p -> noise_curve w' kw' sc' (k * t) p' -> proper_noise p -> proper_noise p' -> 0 <= t ->
  (forall x, 0 < x -> p' (Fin (x / k)) = (Fin k * p (Fin x))%num) ->
  (exists g, power_used jv gi 2 0 g) -> (forall x, In x xs -> 0 < m x /\ 0 < f x /\ 0 < d x) ->
  exists s : X -> R,
    snr_circ_stationary w jv gi (map (fun x => Fin (m x)) xs) (map (fun x => Fin (f x)) xs) (map (fun x => Fin (d x)) xs) (Fin t)
      (pop_sky xs o) sc kw = Ok (map (fun x => Fin (s x)) xs) /\
    snr_circ_stationary w' jv gi (map (fun x => Fin (k * m x)) xs) (map (fun x => Fin (f x / k)) xs) (map (fun x => Fin (k * d x)) xs)
      (Fin (k * t)) (pop_sky xs o) sc' kw' = Ok (map (fun x => Fin (s x)) xs).
Proof. exact snr_scale_circ. Qed.
Print Assumptions C119_snr_circular.
Theorem C119_snr_eccentric : forall k, 0 < k -> forall w w' jv gi X (m f e d : X -> R) xs t hr sc sc' kw kw' p p',
  noise_curve w kw sc t p -> noise_curve w' kw' sc' (k * t) p' -> proper_noise p -> proper_noise p' -> 0 <= t ->
  (forall x, 0 < x -> p' (Fin (x / k)) = (Fin k * p (Fin x))%num) ->
  (forall x, In x xs -> good_source jv gi (m x) (f x) (e x) (d x)) ->
  exists s : X -> R,
    snr_ecc_stationary w jv gi (map (fun x => Fin (m x)) xs) (map (fun x => Fin (f x)) xs) (map (fun x => Fin (e x)) xs)
      (map (fun x => Fin (d x)) xs) (Fin t) hr sc false false kw = Ok (Snr (map (fun x => Fin (s x)) xs)) /\
    snr_ecc_stationary w' jv gi (map (fun x => Fin (k * m x)) xs) (map (fun x => Fin (f x / k)) xs) (map (fun x => Fin (e x)) xs)
      (map (fun x => Fin (k * d x)) xs) (Fin (k * t)) hr sc' false false kw' = Ok (Snr (map (fun x => Fin (s x)) xs)).
Proof. exact snr_scale_ecc. Qed.
Print Assumptions C119_snr_eccentric.
(** Two noise curves that belong together: up to 1 Hz, and up to 1/1000 Hz. *)
Example C119_noise_satisfiable :
  let below top (x : num) := match x with Fin r => if Rlt_dec r top then Fin (1 / r) else PInf | _ => PInf end in
  (forall w kw t, noise_curve w kw (Some (below 1)) t (below 1)) /\ proper_noise (below 1) /\ proper_noise (below (1/1000)) /\
  forall x, 0 < x -> below (1/1000) (Fin (x / 1000)) = (Fin 1000 * below 1 (Fin x))%num.
Proof.
  cbv zeta. split; [intros w kw t fs; reflexivity|].
  assert (Q : forall top, proper_noise (fun x => match x with Fin r => if Rlt_dec r top then Fin (1 / r) else PInf | _ => PInf end)).
  { intros top f Hf. destruct (Rlt_dec f top); [right|now left]. exists (1 / f). split; [reflexivity|]. apply Rdiv_lt_0_compat; lra. }
  split; [apply Q|]. split; [apply Q|]. intros x Hx. destruct (Rlt_dec (x / 1000) (1/1000)), (Rlt_dec x 1); try lra.
  - rewrite NumFacts.nmul_fin. f_equal. field. lra.
  - now rewrite ScaleFacts.nmul_pinf by lra.
Qed.
(** The hypotheses can be met: exact integrators (trajectories exist by C07_trajectories_exist); a harmonic of an interpolated g;
    a population of two. *)
Example C119_satisfiable : quad_exact quad_model /\ odeint_exact odeint_model /\ complete_schedule 1 [0%nat] /\
  power_used (fun _ _ => Fin 0) (Some (fun _ _ => Fin (1/2))) 2 (1/10) (1/2) /\
  Forall (fun '(f, mc, t, e) => 0 < f /\ 0 < mc /\ 0 <= e < 1 /\ f * (1 + 1/100) < 10 ^ 9 /\ f / 1000 * (1 + 1/100) < 10 ^ 9)
    [(1/1000, 10 ^ 30, 10 ^ 8, 0); (1/100, 10 ^ 31, 10 ^ 9, 1/2)].
Proof.
  split; [exact quad_model_exact|]. split; [exact odeint_model_exact|]. split; [intros [|i] H; simpl; auto; lia|].
  split; [exists (1/2); split; [reflexivity|]; rewrite Rmax_left; lra|].
  repeat constructor; lra.
Qed.
