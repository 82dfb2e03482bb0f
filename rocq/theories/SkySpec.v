(** SkySpec.v -- vocabulary for C93: the same sources without sky positions. *)
From Coq Require Import String Reals ZArith List Bool.
From Verif Require Import Num Np Utils Spec Strain StrainSpec Psd Snr SnrSpec Evol EvolSpec Harmonics ScParams Source Index SourceSpec CurveSpec MethodSpec.
Import ListNotations.
Open Scope R_scope.

(** The collection with the same sources and settings, but no position, inclination and polarisation. *)
Definition without_sky (s : src) : src :=
  mkSrc (s_class s) (s_m_1 s) (s_m_2 s) (s_dist s) (s_f_orb s) (s_ecc s) (s_weights s) None None None (s_t_merge s) (s_snr s)
        (s_max_snr_harmonic s) (s_merged s) (s_stat_tol s) (s_n_proc s) (s_harm s) (s_g s) (s_interpolate_sc s) (s_sc s) (s_params s).
(** Whether get_snr treats source [r] as stationary over the time [t]: by class of collection, or by its own frequency change. *)
Definition treated_stationary (s : src) (t : R) (r : row) : Prop :=
  match s_class s with KStationary => True | KEvolving => False | _ => is_stationary s t r true end.
(** The SNR [v] of a source at the angles [o] is the averaged SNR [u] times the square root of the modulation. *)
Definition modulated (o : angles) (u v : num) : Prop :=
  exists a, amplitude_modulation_elem (Fin (lat o)) (Fin (lon o)) (Fin (psi o)) (Fin (inc o)) = Fin a /\ 0 <= a < 1 /\
    forall q, u = Fin q -> v = Fin (sqrt a * q).
(** The strains [vs] of a source at the angles [o] are the averaged ones [us] times the square root of the modulation. *)
Definition strains_modulated (o : angles) (us vs : list num) : Prop :=
  exists a, amplitude_modulation_elem (Fin (lat o)) (Fin (lon o)) (Fin (psi o)) (Fin (inc o)) = Fin a /\ 0 <= a < 1 /\
    vs = map (nmul (Fin (sqrt a))) us.
(** The same sources [xs] with their sky positions. *)
Definition with_sky (xs : list row) (s : src) : src :=
  let k := pop_sky xs (Some r_sky) in
  mkSrc (s_class s) (s_m_1 s) (s_m_2 s) (s_dist s) (s_f_orb s) (s_ecc s) (s_weights s) (position k) (inclination k) (polarisation k) (s_t_merge s) (s_snr s)
        (s_max_snr_harmonic s) (s_merged s) (s_stat_tol s) (s_n_proc s) (s_harm s) (s_g s) (s_interpolate_sc s) (s_sc s) (s_params s).
(** The same sources in a collection of class [k]. *)
Definition of_class (k : klass) (s : src) : src :=
  mkSrc k (s_m_1 s) (s_m_2 s) (s_dist s) (s_f_orb s) (s_ecc s) (s_weights s) (s_position s) (s_inclination s) (s_polarisation s) (s_t_merge s) (s_snr s)
        (s_max_snr_harmonic s) (s_merged s) (s_stat_tol s) (s_n_proc s) (s_harm s) (s_g s) (s_interpolate_sc s) (s_sc s) (s_params s).
