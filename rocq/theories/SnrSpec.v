(** SnrSpec.v -- vocabulary for the theorems about snr.py. *)
From Coq Require Import String Reals ZArith List Bool.
From Verif Require Import Num Np Utils Strain Psd PsdSpec Evol EvolSpec StrainSpec Snr.
Import ListNotations.
Open Scope R_scope.

(** [p] is the noise power used by an SNR function: the given interpolation, or else the instrument's power spectral
    density for the observing time of the SNR and the given settings.  Both act entry by entry (true of every built-in
    curve and of an interpolated one). *)
Definition noise_curve (w : psd_env) (kw : psd_kwargs) (sc : option (num -> num)) (t_obs : R) (p : num -> num) : Prop :=
  forall fs, match sc with
             | Some s => Ok (map s fs)
             | None => power_spectral_density w fs (kw_instrument kw) (kw_custom kw) (Given (Fin t_obs)) (kw_L kw)
                         (kw_approximate_R kw) (kw_confusion kw)
             end = Ok (map p fs).
(** At every frequency the noise is a positive number or infinite. *)
Definition proper_noise (p : num -> num) : Prop := forall f, 0 < f -> p (Fin f) = PInf \/ exists s, p (Fin f) = Fin s /\ 0 < s.

(** [x] is the power h^2 t of a signal of amplitude [h] over the noise power [s]. *)
Inductive signal_to_noise_squared (h t : R) : num -> R -> Prop :=
| in_noise s : signal_to_noise_squared h t (Fin s) (h ^ 2 * t / s)
| drowned : signal_to_noise_squared h t PInf 0.

(** The arguments of one stationary source are physical and the harmonic powers are defined. *)
Definition good_source (jv : Z -> num -> num) (gi : option (Z -> num -> num)) (m f e d : R) : Prop :=
  0 < m /\ 0 < f /\ 0 < d /\ 0 <= e < 1 /\ forall n, (1 <= n)%Z -> exists g, power_used jv gi n e g.

(** The SNRs computed from SNR^2 by harmonic. *)
Definition snr_of_rows (rows : list (list num)) : list num := map (fun r => nsqrt (nsum r)) rows.
(** Every number of a result times [k] / of an SNR^2 result times [k]^2; the reported harmonics are unchanged. *)
Definition scaled (k : R) (l : list num) : list num := map (nmul (Fin k)) l.
Definition scaled_ret (k : R) (r : snr_ret) : snr_ret :=
  match r with
  | Snr l => Snr (scaled k l)
  | SnrMax l h => SnrMax (scaled k l) h
  | Snr2 rows => Snr2 (map (scaled (k ^ 2)) rows)
  end.
(** One SNR as a number. *)
Definition real_snr (x : num) : Prop := exists s, x = Fin s /\ 0 <= s.

(** The trapezium rule for points (x, y). *)
Fixpoint trapezium (pts : list (R * R)) : R :=
  match pts with
  | (x0, y0) :: (((x1, y1) :: _) as rest) => (x1 - x0) * (y0 + y1) / 2 + trapezium rest
  | _ => 0
  end.
(** [y] is h_c^2 / (f_n^2 S_n) for a characteristic strain [hc] at frequency [fn] and noise power [s]. *)
Inductive characteristic_ratio (hc fn : R) : num -> R -> Prop :=
| ratio_in_noise s : characteristic_ratio hc fn (Fin s) (hc ^ 2 / (fn ^ 2 * s))
| ratio_drowned : characteristic_ratio hc fn PInf 0.

(** The curve of a built-in instrument for a mission of [t] seconds, and the frequencies inside its band. *)
Inductive built_in_curve (w : psd_env) (kw : psd_kwargs) (t : R) : (R -> Prop) -> Prop :=
| lisa_curve_used L c : kw_instrument kw = "LISA"%string -> chosen (kw_L kw) (Fin 2.5e9) (Fin L) -> 0 < L ->
    response_ok w L (kw_approximate_R kw) -> chosen_conf (kw_confusion kw) "karnesis21" c -> builtin c t ->
    built_in_curve w kw t (fun f => 1e-7 <= f <= 2)
| tianqin_curve_used L c : kw_instrument kw = "TianQin"%string -> chosen (kw_L kw) (Fin (sqrt 3 * 1e8)) (Fin L) -> 0 < L ->
    chosen_conf (kw_confusion kw) "huang20" c -> builtin c t -> built_in_curve w kw t (fun _ => True)
| decigo_curve_used c : kw_instrument kw = "DECIGO"%string -> chosen_conf (kw_confusion kw) "karnesis21" c -> builtin c t ->
    built_in_curve w kw t (fun f => 1e-3 <= f <= 1e2).
(** The circular orbit emits at twice the orbital frequency only. *)
Definition circular_powers (jv : Z -> num -> num) (gi : option (Z -> num -> num)) : Prop :=
  exists g2, forall n, (1 <= n)%Z -> power_used jv gi n 0 (if (n =? 2)%Z then g2 else 0).
(** [h] (counted from 1) is the lowest position of the largest of [vs]. *)
Definition is_loudest (vs : list R) (h : Z) : Prop :=
  exists v, (1 <= h <= Z.of_nat (length vs))%Z /\ nth_error vs (Z.to_nat h - 1) = Some v /\
    forall j u, nth_error vs j = Some u -> u <= v /\ ((Z.of_nat j + 1 < h)%Z -> u < v).
(** odeint returns one value per time. *)
Definition odeint_shape (odeint : odeint_t) : Prop := forall rhs e ts, length (odeint rhs e ts) = length ts.
(** The integrand at one point (frequency, eccentricity) of the track of harmonic [n]. *)
Definition integrand jv gi (p : num -> num) (mc d : R) (n : Z) (fe : R * R) (y : R) : Prop :=
  0 <= y /\ exists hc, h_c_single jv gi mc (fst fe) (snd fe) n d None = Ok [[[Fin hc]]] /\
    characteristic_ratio hc (IZR n * fst fe) (p (Fin (IZR n * fst fe))) y.
(** The time to merger (in seconds) used by snr_ecc_evolving for one source: the one given by the caller, else the computed one. *)
Inductive merger_time_used (quad : quad_t) (m1 m2 f e tm : R) : option (list num) -> Prop :=
| merger_given : merger_time_used quad m1 m2 f e tm (Some [Fin tm])
| merger_computed : get_t_merge_ecc quad [Fin e] None (Some [Fin f]) None (Some [Fin m1]) (Some [Fin m2]) small_e_tol_default large_e_tol_default true
    = Ok [Fin tm] -> merger_time_used quad m1 m2 f e tm None.
