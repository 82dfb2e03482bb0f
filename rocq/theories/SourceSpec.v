(** SourceSpec.v -- vocabulary for the properties of Source objects: a collection as a list of sources. *)
From Coq Require Import String Reals ZArith List Bool.
From Verif Require Import Num Np Utils Spec Strain StrainSpec Psd Snr SnrSpec Evol EvolSpec Harmonics ScParams Source Index.
Import ListNotations.
Open Scope R_scope.

(** One source of a collection: masses, distance, frequency, eccentricity, sky angles, weight, merger time, stored SNR
    and loudest harmonic, and whether it has merged. *)
Record row := mkRow { r_m1 : num; r_m2 : num; r_d : num; r_f : num; r_e : num; r_sky : angles; r_w : num; r_tm : num;
                      r_snr : num; r_msh : Z; r_merged : bool }.
(** An optional array is absent, or has one entry per source. *)
Definition optional {A B} (o : option (list B)) (f : A -> B) (xs : list A) : Prop := o = None \/ o = Some (map f xs).
(** The object [s] holds the sources [xs], in this order: every array has one entry per source. *)
Record collection (s : src) (xs : list row) : Prop := {
  col_m1 : s_m_1 s = map r_m1 xs;
  col_m2 : s_m_2 s = map r_m2 xs;
  col_d : s_dist s = map r_d xs;
  col_f : s_f_orb s = map r_f xs;
  col_e : s_ecc s = map r_e xs;
  col_merged : s_merged s = map r_merged xs;
  col_w : optional (s_weights s) r_w xs;
  col_tm : optional (s_t_merge s) r_tm xs;
  col_snr : optional (s_snr s) r_snr xs;
  col_msh : optional (s_max_snr_harmonic s) r_msh xs;
  col_sky : mkSky (s_position s) (s_polarisation s) (s_inclination s) = pop_sky xs None \/
            mkSky (s_position s) (s_polarisation s) (s_inclination s) = pop_sky xs (Some r_sky) }.
(** Everything that is not one entry per source. *)
Definition same_settings (s s' : src) : Prop :=
  s_class s' = s_class s /\ s_stat_tol s' = s_stat_tol s /\ s_n_proc s' = s_n_proc s /\ s_harm s' = s_harm s /\
  s_g s' = s_g s /\ s_interpolate_sc s' = s_interpolate_sc s /\ s_sc s' = s_sc s /\ s_params s' = s_params s.
