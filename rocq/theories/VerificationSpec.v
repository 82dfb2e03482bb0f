(** VerificationSpec.v -- vocabulary for the verification binaries (C99). *)
From Coq Require Import String Reals ZArith List Bool.
From Verif Require Import Num Np Utils Psd Evol Harmonics ScParams Source Verification.
Import ListNotations.
Open Scope R_scope.

(** Every column of the table has one entry per binary. *)
Record full_table (t : vtable) (n : nat) : Prop := {
  ft_label : length (vt_label t) = n; ft_f_GW : length (vt_f_GW t) = n; ft_snr : length (vt_snr t) = n; ft_l : length (vt_l_gal t) = n; ft_b : length (vt_b_gal t) = n;
  ft_m_1 : length (vt_m_1 t) = n; ft_m_2 : length (vt_m_2 t) = n; ft_i : length (vt_i t) = n; ft_dist : length (vt_dist t) = n }.
(** The default tolerance (0.05) can be used and the packaged response file R.npy is there. *)
Definition world_ready (x : ext) : Prop :=
  (exists h, set_gw_lum_tol (x_jv x) (x_lum x) (Fin (1/20)) no_harm = (h, Ok tt)) /\ r_file (x_psd x) <> None.
(** The object holds the table, column by column: orbital frequencies are half of those of the waves, orbits are circular, nothing has been computed and nothing has merged;
    the parameters are the defaults. *)
Record holds_table (x : ext) (ecl : num -> num -> num * num) (t : vtable) (n : nat) (b : vbinaries) : Prop := {
  ht_labels : vb_labels b = vt_label t; ht_true_snr : vb_true_snr b = vt_snr t;
  ht_m_1 : s_m_1 (vb_source b) = vt_m_1 t; ht_m_2 : s_m_2 (vb_source b) = vt_m_2 t; ht_dist : s_dist (vb_source b) = vt_dist t;
  ht_f_orb : s_f_orb (vb_source b) = map (fun f => ndiv f (Fin 2)) (vt_f_GW t); ht_ecc : s_ecc (vb_source b) = repeat (Fin 0) n;
  ht_position : s_position (vb_source b) = Some (map2 ecl (vt_l_gal t) (vt_b_gal t)); ht_inclination : s_inclination (vb_source b) = Some (vt_i t);
  ht_polarisation : s_polarisation (vb_source b) = Some (x_pol x n); ht_msh : s_max_snr_harmonic (vb_source b) = Some (repeat 2%Z n);
  ht_snr : s_snr (vb_source b) = None; ht_t_merge : s_t_merge (vb_source b) = None; ht_merged : s_merged (vb_source b) = repeat false n;
  ht_params : s_params (vb_source b) = default_params; ht_stat_tol : s_stat_tol (vb_source b) = Fin (1/100); ht_class : s_class (vb_source b) = KVerification }.
(** The same binaries in the same order: class, masses, distances, weights and sky. *)
Record same_binaries (s s2 : src) : Prop := {
  sb_class : s_class s2 = s_class s; sb_m_1 : s_m_1 s2 = s_m_1 s; sb_m_2 : s_m_2 s2 = s_m_2 s; sb_dist : s_dist s2 = s_dist s; sb_weights : s_weights s2 = s_weights s;
  sb_position : s_position s2 = s_position s; sb_inclination : s_inclination s2 = s_inclination s; sb_polarisation : s_polarisation s2 = s_polarisation s }.
