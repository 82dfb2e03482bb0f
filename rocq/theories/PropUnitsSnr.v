(** PropUnitsSnr.v -- C96: signal-to-noise ratios do not depend on the units of the inputs.

    [in_unit u x] is the physical value [x] (SI) written in the unit [u].  The functions ending in [_q] are snr.py on quantities
    (UnitsSnr.v); the ones without are the same functions on SI numbers, which the other property files speak about.
    [same_curve], [same_settings] (UnitsSnrSpec.v): the sensitivity curve and the detector settings are the same physically. *)
From Coq Require Import String Reals ZArith List Bool Lra Lia.
From Verif Require Import Num NumFacts Np NpFacts Utils Strain Psd Evol Snr Units UnitsSpec UnitsFacts UnitsThms UnitsEvol UnitsEvolSpec UnitsEvolFacts UnitsPsd
  UnitsPsdSpec UnitsPsdFacts UnitsPsdWrong UnitsPsdThms UnitsSnr UnitsSnrSpec UnitsSnrFacts UnitsSnrEvol UnitsSnrEcc UnitsSnrWrong UnitsSnrThms UnitsSnrTime.
Import ListNotations.
Open Scope list_scope.
Open Scope R_scope.
Open Scope res_scope.

(** Chirp masses, frequencies, distances and observation time in any units of the right dimensions: the SNR is the SI one (a
    bare number), or the same error.  Sky positions likewise ([sky_reads]). *)
Theorem C96_stationary_circular : forall w jv gi m f d t s s' sc sc' kw kw' um uf ud ut,
  unit_for mass_dim um -> unit_for frequency_dim uf -> unit_for length_dim ud -> unit_for time_dim ut -> sky_reads s s' ->
  same_curve sc sc' -> same_settings kw kw' ->
  snr_circ_stationary_q w jv gi (map (in_unit um) m) (map (in_unit uf) f) (map (in_unit ud) d) (in_unit ut t) s sc kw
  = snr_circ_stationary w jv gi m f d t s' sc' kw'.
Proof. exact circ_stationary_in. Qed.
Print Assumptions C96_stationary_circular.
Theorem C96_stationary_eccentric : forall w jv gi m f e d t nh sc sc' rm rs kw kw' um uf ud ut,
  unit_for mass_dim um -> unit_for frequency_dim uf -> unit_for length_dim ud -> unit_for time_dim ut ->
  same_curve sc sc' -> same_settings kw kw' ->
  snr_ecc_stationary_q w jv gi (map (in_unit um) m) (map (in_unit uf) f) e (map (in_unit ud) d) (in_unit ut t) nh sc rm rs kw
  = snr_ecc_stationary w jv gi m f e d t nh sc' rm rs kw'.
Proof. exact ecc_stationary_in. Qed.
Print Assumptions C96_stationary_eccentric.

(** The same for evolving sources: the two masses may be in different units, the merger times (if given) in a third. *)
Theorem C96_evolving_circular : forall w jv gi quad m1 m2 f d t n tm sc sc' kw kw' u1 u2 uf ud ut um,
  unit_for mass_dim u1 -> unit_for mass_dim u2 -> unit_for frequency_dim uf -> unit_for length_dim ud -> unit_for time_dim ut ->
  unit_for time_dim um -> same_curve sc sc' -> same_settings kw kw' ->
  snr_circ_evolving_q w jv gi quad (map (in_unit u1) m1) (map (in_unit u2) m2) (map (in_unit uf) f) (map (in_unit ud) d) (in_unit ut t) n
    (list_in um tm) sc kw = snr_circ_evolving w jv gi quad m1 m2 f d t n tm sc' kw'.
Proof. exact circ_evolving_si. Qed.
Print Assumptions C96_evolving_circular.
Theorem C96_evolving_eccentric : forall w jv gi quad odeint sched m1 m2 f d ecc nh t n tm sc sc' np rm rs kw kw' u1 u2 uf ud ut um,
  unit_for mass_dim u1 -> unit_for mass_dim u2 -> unit_for frequency_dim uf -> unit_for length_dim ud -> unit_for time_dim ut ->
  unit_for time_dim um -> same_curve sc sc' -> same_settings kw kw' ->
  snr_ecc_evolving_q w jv gi quad odeint sched (map (in_unit u1) m1) (map (in_unit u2) m2) (map (in_unit uf) f) (map (in_unit ud) d) ecc nh
    (in_unit ut t) n (list_in um tm) sc np rm rs kw = snr_ecc_evolving w jv gi quad odeint sched m1 m2 f d ecc nh t n tm sc' np rm rs kw'.
Proof. exact ecc_evolving_si. Qed.
Print Assumptions C96_evolving_eccentric.

(** The interpolated curve of a Source object, and keyword arguments with an arm length in any unit, are of this kind. *)
Theorem C96_source_curve : forall g, same_curve (Some (source_curve_q g)) (Some g).
Proof. exact source_curve_same. Qed.
Print Assumptions C96_source_curve.
Theorem C96_settings : forall i L a c uL, unit_for length_dim uL -> forall c', same_noise c c' ->
  same_settings (mkKwQ i None (auto_in uL L) a c) (mkKw i None L a c').
Proof. exact settings_same. Qed.
Print Assumptions C96_settings.

(** Stationary SNRs with an interpolated curve accept an observation time that is no time: [x] metres, or [x] without unit,
    give the SNR of [x] seconds. *)
Theorem C96_time_dimension_refuted : forall w jv gi m f d x s s' g g' kw um uf ud,
  unit_for mass_dim um -> unit_for frequency_dim uf -> unit_for length_dim ud -> sky_reads s s' -> same_curve (Some g) (Some g') ->
  let snr t := snr_circ_stationary_q w jv gi (map (in_unit um) m) (map (in_unit uf) f) (map (in_unit ud) d) t s (Some g) kw in
  let snr_ecc t e nh rm rs := snr_ecc_stationary_q w jv gi (map (in_unit um) m) (map (in_unit uf) f) e (map (in_unit ud) d) t nh (Some g) rm rs kw in
  (snr (Qy x meter) = snr (Qy x second) /\ snr (Pl x) = snr (Qy x second)) /\
  (forall e nh rm rs, snr_ecc (Qy x meter) e nh rm rs = snr_ecc (Qy x second) e nh rm rs /\ snr_ecc (Pl x) e nh rm rs = snr_ecc (Qy x second) e nh rm rs).
Proof. exact stationary_any_time. Qed.
Print Assumptions C96_time_dimension_refuted.

(** Evolving SNRs reject it: where a call with some time would have returned SNRs, the call with a wrong one raises a unit
    error (whatever the distances and the noise, and whether the merger times were given or not). *)
Theorem C96_evolving_wrong_time : forall w jv gi quad m1 m2 f d tq n tm sc kw u1 u2 uf um,
  unit_for mass_dim u1 -> unit_for mass_dim u2 -> unit_for frequency_dim uf -> unit_for time_dim um -> wrong time_dim tq ->
  m1 <> [] -> m2 <> [] -> f <> [] -> tm <> Some [] ->
  (forall d' t' sc' kw' r, snr_circ_evolving w jv gi quad m1 m2 f d' t' n tm sc' kw' = Ok r ->
   snr_circ_evolving_q w jv gi quad (map (in_unit u1) m1) (map (in_unit u2) m2) (map (in_unit uf) f) d tq n (list_in um tm) sc kw = Err UnitError) /\
  (forall odeint sched ecc nh np rm rs d' t' sc' kw' r, ecc <> [] ->
   snr_ecc_evolving w jv gi quad odeint sched m1 m2 f d' ecc nh t' n tm sc' np rm rs kw' = Ok r ->
   snr_ecc_evolving_q w jv gi quad odeint sched (map (in_unit u1) m1) (map (in_unit u2) m2) (map (in_unit uf) f) d ecc nh tq n
     (list_in um tm) sc np rm rs kw = Err UnitError).
Proof. exact evolving_wrong_time. Qed.
Print Assumptions C96_evolving_wrong_time.

(** Stationary SNRs reject it too where the noise is computed with a confusion noise model, whatever the other arguments. *)
Theorem C96_stationary_wrong_time : forall w jv gi m f ecc d tq nh sky rm rs kw s,
  wrong time_dim tq -> In (kwq_instrument kw) ["LISA"; "TianQin"; "DECIGO"]%string -> kwq_confusion kw = CNameQ s ->
  (exists e, snr_circ_stationary_q w jv gi m f d tq sky None kw = Err e) /\
  (exists e, snr_ecc_stationary_q w jv gi m f ecc d tq nh None rm rs kw = Err e).
Proof. exact stationary_wrong_time. Qed.
Print Assumptions C96_stationary_wrong_time.

(** Without confusion noise they accept it, as with an interpolated curve. *)
Theorem C96_time_without_confusion_refuted : forall w jv gi m f d x s s' kw kw' um uf ud,
  unit_for mass_dim um -> unit_for frequency_dim uf -> unit_for length_dim ud -> sky_reads s s' -> same_settings kw kw' ->
  In (kwq_instrument kw) ["LISA"; "TianQin"; "DECIGO"]%string -> kwq_confusion kw = CNoneQ ->
  let snr t := snr_circ_stationary_q w jv gi (map (in_unit um) m) (map (in_unit uf) f) (map (in_unit ud) d) t s None kw in
  let snr_ecc t e nh rm rs := snr_ecc_stationary_q w jv gi (map (in_unit um) m) (map (in_unit uf) f) e (map (in_unit ud) d) t nh None rm rs kw in
  (snr (Qy x meter) = snr (Qy x second) /\ snr (Pl x) = snr (Qy x second)) /\
  (forall e nh rm rs, snr_ecc (Qy x meter) e nh rm rs = snr_ecc (Qy x second) e nh rm rs /\ snr_ecc (Pl x) e nh rm rs = snr_ecc (Qy x second) e nh rm rs).
Proof. exact stationary_quiet_time. Qed.
Print Assumptions C96_time_without_confusion_refuted.
Example C96_quiet_satisfiable : same_settings (mkKwQ "LISA" None Auto true CNoneQ) (mkKw "LISA" None Auto true CNone).
Proof. repeat split. Qed.

(** Two stars of 1e30 kg at 1 mHz: the SNR in such units is a positive number. *)
Example C96_satisfiable :
  unit_for mass_dim msun /\ unit_for frequency_dim millihertz /\ unit_for time_dim UnitsPsdThms.month /\ unit_for length_dim kilometer /\
  same_curve (Some (source_curve_q (fun _ => Fin 1e-40))) (Some (fun _ => Fin 1e-40)) /\
  sky_reads no_sky_args no_sky /\
  same_settings (mkKwQ "LISA" None (auto_in kilometer Auto) false (CNameQ "auto")) default_kw /\
  wrong time_dim (Qy (Fin 4) kilometer) /\ (exists mc, bzip chirp_mass [Fin 1e30] [Fin 1e30] = Ok mc) /\
  (forall w, exists quad s, 0 < s /\
    snr_circ_evolving w (fun _ _ => NaN) (Some (fun n _ => Fin (IZR n))) quad [Fin 1e30] [Fin 1e30] [Fin 1e-3] [Fin 1e19] (Fin (4 * yr)) 100 None
      (Some (fun _ => Fin 1e-40)) default_kw = Ok [Fin s]).
Proof. exact snr_units_example. Qed.
