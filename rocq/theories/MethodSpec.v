(** MethodSpec.v -- vocabulary for the strain and SNR methods of a Source: the arguments in use, one source at a time. *)
From Coq Require Import String Reals ZArith List Bool.
From Verif Require Import Num Np Utils Spec Strain StrainSpec Psd Snr SnrSpec Evol EvolSpec Harmonics ScParams Source Index SourceSpec CurveSpec.
Import ListNotations.
Open Scope R_scope.

(** The arguments of an SNR call: those given, the current parameters otherwise. *)
Definition given (v : pval) (k : string) (s : src) : pval := match v with PNil => current k s | _ => v end.
Definition asked (a : snr_args) (s : src) : snr_args :=
  mkArgs (given (a_t_obs a) "t_obs" s) (given (a_instrument a) "instrument" s) (given (a_custom a) "custom_psd" s) (given (a_L a) "L" s)
         (given (a_approximate_R a) "approximate_R" s) (given (a_confusion a) "confusion_noise" s).
(** The same with the mission length for an observing time "auto". *)
Definition used (a : snr_args) (s : src) : snr_args :=
  let u := asked a s in
  match a_t_obs u with
  | PStr k => if String.eqb k "auto" then with_t_obs u (Fin (mission_length (a_instrument u))) else u
  | _ => u
  end.
(** The six parameters. *)
Definition params_of (u : snr_args) : dict :=
  [("instrument", a_instrument u); ("custom_psd", a_custom u); ("t_obs", a_t_obs u); ("L", a_L u);
   ("approximate_R", a_approximate_R u); ("confusion_noise", a_confusion u)]%string.
(** The noise in use: the interpolated curve of the parameters in use, or none (the exact noise). *)
Definition curve_in_use (x : ext) (s : src) (u : snr_args) (sc : option (num -> num)) : Prop :=
  if s_interpolate_sc s then exists c, curve_of x (params_of u) = Ok c /\ sc = Some c else sc = None.
(** A mask selects source [i]; no mask selects everything. *)
Definition selected (which : option (list bool)) (i : nat) : bool := match which with None => true | Some w => nth i w false end.
(** Source [r] of [s] is circular or eccentric to the tolerance in use. *)
Definition is_circular (s : src) (r : row) : Prop := exists tol, h_ecc_tol (s_harm s) = Some tol /\ nle (r_e r) tol = true.
Definition is_eccentric (s : src) (r : row) : Prop := exists tol, h_ecc_tol (s_harm s) = Some tol /\ ngt (r_e r) tol = true.
(** Whether source [r] is stationary over the time [t]. *)
Definition is_stationary (s : src) (t : R) (r : row) (b : bool) : Prop :=
  determine_stationarity [r_f r] [Fin t] [r_e r] (Some [r_m1 r]) (Some [r_m2 r]) None (s_stat_tol s) = Ok [b].
(** The number of harmonics computed for a source that needs [hr]. *)
Inductive harmonic_group (hr : Z) : nat -> Prop :=
| group_10 : (1 < hr <= 10)%Z -> harmonic_group hr (Z.to_nat 10)
| group_100 : (10 < hr <= 100)%Z -> harmonic_group hr (Z.to_nat 100)
| group_1000 : (100 < hr <= 1000)%Z -> harmonic_group hr (Z.to_nat 1000)
| group_10000 : (1000 < hr <= 10000)%Z -> harmonic_group hr (Z.to_nat 10000).
(** The sky angles and the stored merger time of source [r], if the collection has any. *)
Definition sky_of_row (s : src) (r : row) : sky := pop_sky [r] (if s_position s then Some r_sky else None).
Definition t_merge_of_row (s : src) (r : row) : option (list num) := if s_t_merge s then Some [r_tm r] else None.
(** What the functions of snr.py return for source [r] alone: SNR [v], loudest harmonic [h]. *)
Inductive stationary_snr (x : ext) (s : src) (sc : option (num -> num)) (kw : psd_kwargs) (t : R) (r : row) (v : num) : Z -> Prop :=
| circular_stationary : is_circular s r ->
    snr_circ_stationary (x_psd x) (x_jv x) (s_g s) [chirp_mass (r_m1 r) (r_m2 r)] [r_f r] [r_d r] (Fin t) (sky_of_row s r) sc kw = Ok [v] ->
    stationary_snr x s sc kw t r v 2
| eccentric_stationary u h : is_eccentric s r -> harmonic_group (h_required (s_harm s) (r_e r)) u ->
    snr_ecc_stationary (x_psd x) (x_jv x) (s_g s) [chirp_mass (r_m1 r) (r_m2 r)] [r_f r] [r_e r] [r_d r] (Fin t) u sc true false kw = Ok (SnrMax [v] [h]) ->
    stationary_snr x s sc kw t r v h.
Inductive evolving_snr (x : ext) (s : src) (sc : option (num -> num)) (kw : psd_kwargs) (t : R) (n_step : nat) (r : row) (v : num) : Z -> Prop :=
| circular_evolving : is_circular s r ->
    snr_circ_evolving (x_psd x) (x_jv x) (s_g s) (x_quad x) [r_m1 r] [r_m2 r] [r_f r] [r_d r] (Fin t) n_step (t_merge_of_row s r) sc kw = Ok [v] ->
    evolving_snr x s sc kw t n_step r v 2
| eccentric_evolving u h : is_eccentric s r -> harmonic_group (h_required (s_harm s) (r_e r)) u ->
    snr_ecc_evolving (x_psd x) (x_jv x) (s_g s) (x_quad x) (x_odeint x) (x_sched x 1) [r_m1 r] [r_m2 r] [r_f r] [r_d r] [r_e r] u (Fin t) n_step None sc
      (s_n_proc s) true false kw = Ok (SnrMax [v] [h]) ->
    evolving_snr x s sc kw t n_step r v h.
(** Source by source: stationary sources by the stationary functions, the others by the evolving ones. *)
Inductive source_snr (x : ext) (s : src) (sc : option (num -> num)) (kw : psd_kwargs) (t : R) (n_step : nat) (r : row) (v : num) (h : Z) : Prop :=
| by_stationary : is_stationary s t r true -> stationary_snr x s sc kw t r v h -> source_snr x s sc kw t n_step r v h
| by_evolving : is_stationary s t r false -> evolving_snr x s sc kw t n_step r v h -> source_snr x s sc kw t n_step r v h.

(** What the SNR methods need: a collection whose parameters and curve belong together, an observing time, a noise curve
    computed frequency by frequency, eccentricities in [0, 1] whose number of harmonics is in range (C54), and an
    integrator that returns one value per time. *)
Record computable (x : ext) (s : src) (xs : list row) (a : snr_args) (t : R) (n_step : nat) : Prop := {
  ok_rows : collection s xs;
  ok_keys : keys (s_params s) = documented;
  ok_curve : in_step x s;
  ok_time : a_t_obs (used a s) = PVal (Fin t);
  ok_noise : exists p, exact_curve x (params_of (used a s)) p;
  ok_asked : exists p, exact_curve x (params_of (asked a s)) p;
  ok_tol : exists tol, h_ecc_tol (s_harm s) = Some (Fin tol);
  ok_ecc : forall r, In r xs -> exists e, r_e r = Fin e /\ 0 <= e <= 1 /\ (1 < h_required (s_harm s) (Fin e) <= 10000)%Z;
  ok_steps : (1 <= n_step)%nat;
  ok_odeint : odeint_shape (x_odeint x);
  ok_pool : forall k, complete_schedule k (x_sched x k) }.
(** A mask has one entry per source. *)
Definition fits (which : option (list bool)) (n : nat) : Prop := match which with None => True | Some w => length w = n end.
(** The sources a mask selects, in order. *)
Definition chosen {A} (which : option (list bool)) (xs : list A) : list A :=
  match which with None => xs | Some w => map fst (filter snd (combine xs w)) end.
(** Two objects agree on everything but stored SNRs, loudest harmonics, curve and parameters. *)
Definition same_sources (s s' : src) : Prop :=
  s_class s' = s_class s /\ s_m_1 s' = s_m_1 s /\ s_m_2 s' = s_m_2 s /\ s_dist s' = s_dist s /\ s_f_orb s' = s_f_orb s /\ s_ecc s' = s_ecc s /\
  s_weights s' = s_weights s /\ s_position s' = s_position s /\ s_inclination s' = s_inclination s /\ s_polarisation s' = s_polarisation s /\
  s_t_merge s' = s_t_merge s /\ s_merged s' = s_merged s /\ s_stat_tol s' = s_stat_tol s /\ s_n_proc s' = s_n_proc s /\ s_harm s' = s_harm s /\
  s_g s' = s_g s /\ s_interpolate_sc s' = s_interpolate_sc s.
(** The stored SNR and loudest harmonic of source [i] before anything was stored are 0. *)
Definition stored {A} (zero : A) (o : option (list A)) (i : nat) (v : A) : Prop := match o with None => v = zero | Some l => nth_error l i = Some v end.
(** The strain of one source and harmonics [ns], as returned by strain.h_0_n or strain.h_c_n. *)
Definition strain_row (f : (Z -> num -> num) -> option (Z -> num -> num) -> list num -> list (list num) -> list (list num) -> list Z ->
       list num -> sky -> res (list (list (list num)))) (x : ext) (s : src) (ns : list Z) (r : row) (vs : list num) : Prop :=
  f (x_jv x) (s_g s) [chirp_mass (r_m1 r) (r_m2 r)] [[r_f r]] [[r_e r]] ns [r_d r] (sky_of_row s r) = Ok [[vs]].
(** The harmonics asked for. *)
Definition harmonics_list (h : harmonics) : option (list Z) := match h with HInt n => Some [n] | HList l => Some l | HNpInt _ => None end.
(** The result of an SNR method that computes [spec]: one value per selected source, 0 for merged ones; SNR and loudest
    harmonic are stored for the selected inspiralling sources, those of the other sources and everything else stay. *)
Definition method_result (s : src) (xs : list row) (which : option (list bool)) (spec : row -> num -> Z -> Prop) (s' : src) (v : list num) : Prop :=
  Forall2 (fun r vi => if r_merged r then vi = Fin 0 else exists h, spec r vi h) (chosen which xs) v /\ same_sources s s' /\
  forall i r, nth_error xs i = Some r -> exists vi h, stored (Fin 0) (s_snr s') i vi /\ stored 0%Z (s_max_snr_harmonic s') i h /\
    if selected which i && negb (r_merged r) then spec r vi h else stored (Fin 0) (s_snr s) i vi /\ stored 0%Z (s_max_snr_harmonic s) i h.
(** The subclasses Stationary and Evolving take fewer arguments. *)
Definition class_args (k : klass) (a : snr_args) : snr_args :=
  match k with
  | KStationary | KEvolving => mkArgs (a_t_obs a) (a_instrument a) (a_custom a) PNil PNil PNil
  | _ => a
  end.
(** The SNR of a source by class of collection. *)
Definition class_snr (x : ext) (s : src) (sc : option (num -> num)) (kw : psd_kwargs) (t : R) (n_step : nat) (r : row) (v : num) (h : Z) : Prop :=
  match s_class s with
  | KStationary => stationary_snr x s sc kw t r v h
  | KEvolving => evolving_snr x s sc kw t n_step r v h
  | _ => source_snr x s sc kw t n_step r v h
  end.
(** The rows of strains returned for the sources of mask [which]: the direct computation for the source alone, zeros for
    merged sources. *)
Definition strain_rows f x s (xs : list row) which (ns : list Z) (rows : list (list num)) : Prop :=
  Forall2 (fun r vs => if r_merged r then vs = repeat (Fin 0) (length ns) else strain_row f x s ns r vs) (chosen which xs) rows.
(** The stored SNR and loudest harmonic of source [i] are the same in both objects. *)
Definition kept (s s' : src) (i : nat) : Prop := exists v h, stored (Fin 0) (s_snr s) i v /\ stored (Fin 0) (s_snr s') i v /\
  stored 0%Z (s_max_snr_harmonic s) i h /\ stored 0%Z (s_max_snr_harmonic s') i h.
(** The observing time a mask is computed for: the one given or current; for "auto" the mission length of the current instrument. *)
Definition mask_time (s : src) (t_obs : pval) (t : R) : Prop :=
  given t_obs "t_obs" s = PVal (Fin t) \/ given t_obs "t_obs" s = PStr "auto" /\ t = mission_length (current "instrument" s).
