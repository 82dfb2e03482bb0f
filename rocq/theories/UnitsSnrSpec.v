(** UnitsSnrSpec.v -- vocabulary for the statements about units in snr.py. *)
From Coq Require Import String Reals ZArith List Bool.
From Verif Require Import Num Np Psd Snr Units UnitsSpec UnitsEvol UnitsEvolSpec UnitsPsd UnitsPsdSpec UnitsSnr.
Import ListNotations.
Open Scope list_scope.
Open Scope R_scope.

(** An array of noise powers with one unit of size [s], and the SI values. *)
Definition powers (s : R) : list val -> list num -> Prop :=
  Forall2 (fun v x => is_ time_dim x v /\ u_size (unit_of v) = s).

(** A sensitivity curve given as a function of frequency: the same curve, answering in one unit. *)
Definition same_curve (g : option (val -> val)) (g' : option (num -> num)) : Prop :=
  opt_rel (fun g g' => exists s, forall v x, is_ frequency_dim x v -> is_ time_dim (g' x) (g v) /\ u_size (unit_of (g v)) = s) g g'.

(** A custom power spectral density: the same whatever the units of its arguments, its result an array with one unit. *)
Definition same_custom (p : option psd_fun_q) (p' : option psd_fun) : Prop :=
  opt_rel (fun (p : psd_fun_q) (p' : psd_fun) => forall fq f Lq L tq t a c c',
    all_is frequency_dim fq f -> auto_is length_dim Lq L -> auto_is time_dim tq t -> same_noise c c' ->
    res_rel (fun v x => exists s, powers s v x) (p fq Lq tq a c) (p' f L t a c')) p p'.

(** The same detector settings. *)
Definition same_settings (kw : psd_kwargs_q) (kw' : psd_kwargs) : Prop :=
  kwq_instrument kw = kw_instrument kw' /\ same_custom (kwq_custom kw) (kw_custom kw') /\
  auto_is length_dim (kwq_L kw) (kw_L kw') /\ kwq_approximate_R kw = kw_approximate_R kw' /\
  same_noise (kwq_confusion kw) (kw_confusion kw').
