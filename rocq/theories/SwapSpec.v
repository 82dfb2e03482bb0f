(** SwapSpec.v -- vocabulary for exchanging the two members of every binary (C120). *)
From Coq Require Import Reals ZArith List.
From Verif Require Import Num Np Utils Harmonics ScParams Source.

(** The same collection, with the masses of the two members of each binary exchanged. *)
Definition exchanged (s : src) : src :=
  mkSrc (s_class s) (s_m_2 s) (s_m_1 s) (s_dist s) (s_f_orb s) (s_ecc s) (s_weights s) (s_position s) (s_inclination s)
        (s_polarisation s) (s_t_merge s) (s_snr s) (s_max_snr_harmonic s) (s_merged s) (s_stat_tol s) (s_n_proc s) (s_harm s) (s_g s)
        (s_interpolate_sc s) (s_sc s) (s_params s).
(** One primary mass per secondary mass. *)
Definition paired (s : src) : Prop := length (s_m_1 s) = length (s_m_2 s).
(** The same arguments of the constructor, with the two masses exchanged. *)
Definition exchanged_args (i : init_args) : init_args :=
  mkInit (i_m_2 i) (i_m_1 i) (i_ecc i) (i_dist i) (i_n_proc i) (i_f_orb i) (i_a i) (i_position i) (i_polarisation i)
         (i_inclination i) (i_weights i) (i_gw_lum_tol i) (i_stat_tol i) (i_interpolate_g i) (i_interpolate_sc i) (i_sc_params i).
