(** DrawsSpec.v -- vocabulary for C100: worlds in which the random draws come out differently. *)
From Coq Require Import String Reals ZArith List Bool.
From Verif Require Import Num Np Utils Psd Evol Harmonics ScParams Source.
Import ListNotations.
Open Scope R_scope.

(** The same world, except that the random numbers drawn for inclinations and polarisations are others. *)
Definition redraw (x : ext) (inc pol : nat -> list num) : ext :=
  mkExt (x_psd x) (x_jv x) (x_quad x) (x_odeint x) (x_sched x) (x_lum x) (x_g x) (x_psd_fun x) (x_conf_fun x) inc pol.
(** The constructor is told everything it would otherwise draw: there is no sky position, or both angles come with it. *)
Definition angles_given (i : init_args) : Prop := i_position i <> None -> i_inclination i <> None /\ i_polarisation i <> None.
(** A collection with other inclinations and polarisations. *)
Definition with_angles (inc pol : option (list num)) (s : src) : src :=
  mkSrc (s_class s) (s_m_1 s) (s_m_2 s) (s_dist s) (s_f_orb s) (s_ecc s) (s_weights s) (s_position s) inc pol (s_t_merge s) (s_snr s)
        (s_max_snr_harmonic s) (s_merged s) (s_stat_tol s) (s_n_proc s) (s_harm s) (s_g s) (s_interpolate_sc s) (s_sc s) (s_params s).
