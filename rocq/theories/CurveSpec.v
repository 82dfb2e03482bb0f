(** CurveSpec.v -- specification of the sensitivity curve parameters and the interpolated curve of a Source. *)
From Coq Require Import String Reals ZArith List Bool.
From Verif Require Import Num Np Psd PsdSpec Snr Harmonics ScParams Source History.
Import ListNotations.
Open Scope R_scope.

(** The documented parameters. *)
Definition documented : list string :=
  ["instrument"; "custom_psd"; "t_obs"; "L"; "approximate_R"; "confusion_noise"]%string.
(** The documented default of a parameter. *)
Definition default_of (k : string) : pval :=
  if String.eqb k "instrument" then PStr "LISA" else if String.eqb k "custom_psd" then PNil
  else if String.eqb k "approximate_R" then PBool false else PStr "auto".
(** The curve is the one of the current parameters, or absent when interpolation is off. *)
Definition in_step (x : ext) (s : src) : Prop :=
  if s_interpolate_sc s then exists c, curve_of x (s_params s) = Ok c /\ s_sc s = Some c else s_sc s = None.
(** Whenever the current parameters define a curve, the stored curve is that one; none is stored when interpolation is
    off. *)
Definition tracks (x : ext) (s : src) : Prop :=
  if s_interpolate_sc s then forall c, curve_of x (s_params s) = Ok c -> s_sc s = Some c else s_sc s = None.
(** Operations other than dict methods inherited unchanged and direct writes to the interpolate_sc flag. *)
Definition supported (o : op) : bool :=
  match o with Ior _ | SetDefault _ _ | Toggle _ => false | _ => true end.
Definition keeps_keys (o : op) : bool := match o with Ior _ | SetDefault _ _ => false | _ => true end.

(** The j-th frequency (Hz) at which a curve is tabulated: 10000 points from 1e-7 to 2, equally spaced in log f. *)
Definition grid_f (j : nat) : R := Rpower 10 (-7 + INR j * ((ln 2 / ln 10 + 7) / 9999)).
(** The curve [c] reproduces the noise power [p] at the tabulated frequencies, interpolates linearly in f between them and
    is 1e30 outside. *)
Definition tabulates (c : num -> num) (p : R -> num) : Prop :=
  (forall j, (j < Z.to_nat 10000)%nat -> c (Fin (grid_f j)) = p (grid_f j)) /\
  (forall j f u v, (S j < Z.to_nat 10000)%nat -> grid_f j <= f <= grid_f (S j) -> p (grid_f j) = Fin u -> p (grid_f (S j)) = Fin v ->
     c (Fin f) = Fin (u + (v - u) * ((f - grid_f j) / (grid_f (S j) - grid_f j)))) /\
  (forall f, f < 1e-7 \/ 2 < f -> c (Fin f) = Fin 1e30).
(** power_spectral_density under the parameters [d] is, frequency by frequency, [p]. *)
Definition exact_curve (x : ext) (d : dict) (p : num -> num) : Prop := forall fs, psd_of x d fs = Ok (map p fs).

(** The value of a parameter. *)
Definition current (k : string) (s : src) : pval := get_or_none k (s_params s).
(** The documented default observing times (s): 4 years for LISA, 5 years otherwise. *)
Definition mission_length (instrument : pval) : R :=
  match instrument with PStr i => if String.eqb i "LISA" then 4 * year else 5 * year | _ => 5 * year end.
(** The arguments of an SNR call with the observing time given explicitly. *)
Definition with_t_obs (a : snr_args) (t : num) : snr_args :=
  mkArgs (PVal t) (a_instrument a) (a_custom a) (a_L a) (a_approximate_R a) (a_confusion a).
(** The instrument of a call: the one given, otherwise the current one. *)
Definition instrument_of (a : snr_args) (s : src) : pval := or_default (a_instrument a) (current "instrument" s).
