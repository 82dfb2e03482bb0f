(** PropUnitsWrong.v -- C98: quantities of the wrong dimension handed to a Source are rejected, and change nothing.
    Vocabulary: UnitsSpec.v ([wrong d v]: [v] has not the dimension [d]) and UnitsSourceSpec.v. *)
From Coq Require Import String Reals ZArith List Bool Lra Lia.
From Verif Require Import Num NumFacts Np NpFacts Utils Strain Psd Evol Snr Interp Harmonics ScParams Source History Toy Units UnitsSpec UnitsFacts
  UnitsThms UnitsStrain UnitsEvol UnitsEvolSpec UnitsEvolFacts UnitsPsd UnitsPsdSpec UnitsPsdFacts UnitsPsdWrong UnitsPsdThms UnitsSnr UnitsSource
  UnitsSourceSpec UnitsSourceParams UnitsSourceFacts UnitsSourceSnr UnitsSourceEvol UnitsSourceThms UnitsSourceKeep UnitsSourceToy UnitsSourceWrong.
Import ListNotations.
Open Scope list_scope.
Open Scope R_scope.

(** An evolution time that is not a time: an error (a unit error once merger times are known), and nothing but the stored
    merger times may have changed. *)
Theorem C98_evolution_time : forall X y q s t, same_world X y -> same_source q s -> (0 < n_sources_q q)%nat ->
  (forall l, q_t_merge q = Some l -> length l = n_sources_q q) -> wrong_times (n_sources_q q) t ->
  exists tm e, evolve_sources_q X t q = (setq_t_merge tm q, Err e) /\
    ((exists l, q_t_merge q = Some l) \/ (exists l, snd (get_merger_time_q X true None true q) = Ok l) -> e = UnitError).
Proof. exact evolve_wrong. Qed.
Print Assumptions C98_evolution_time.

(** An evolution time without a unit is rejected whatever its value and whatever the collection, 0 and infinity included. *)
Theorem C98_evolution_time_without_unit : forall X q t, without_unit t -> exists tm e, evolve_sources_q X t q = (setq_t_merge tm q, Err e).
Proof. exact evolve_plain. Qed.
Print Assumptions C98_evolution_time_without_unit.
Example C98_without_unit_example : without_unit (TScalarQ (Pl PInf)) /\ without_unit (TArrQ [Qy (Fin 1) second; Pl (Fin 0)]).
Proof. split; [exact Logic.I|]. exists (Fin 0). right. now left. Qed.

(** Separations that are not lengths are rejected, by the setter and by the constructor. *)
Theorem C98_separations : forall q s v l, same_source q s -> n_sources_q q = length (v :: l) -> length (q_m_2 q) = length (v :: l) ->
  dim_of v <> length_dim -> a_setter_q (PQArr (v :: l) tt) q = (q, Err UnitError).
Proof. exact setter_wrong. Qed.
Print Assumptions C98_separations.
Theorem C98_separations_given : forall X k m1 m2 e d np v l w tol st ig isc p u1 u2, unit_for mass_dim u1 -> unit_for mass_dim u2 ->
  length m1 = length (v :: l) -> length m2 = length (v :: l) -> dim_of v <> length_dim ->
  init_q X k (mkInitQ (PQArr (map (in_unit u1) m1) tt) (PQArr (map (in_unit u2) m2) tt) e d np PNone (PQArr (v :: l) tt) None None None w tol st ig isc p)
  = Err UnitError.
Proof. exact init_wrong_a. Qed.
Print Assumptions C98_separations_given.

(** An observation time that is not a time: no mask of stationary sources and no SNR; orbits and stored SNRs stay. *)
Theorem C98_observation_time_mask : forall q s st v, same_source q s -> sized q -> dim_of v <> time_dim -> st = TriTrue \/ st = TriFalse ->
  get_source_mask_q TriNone st (PValQ v) q = Err UnitError.
Proof. exact (fun q s st v S Z => mask_wrong q s q st v S Z (curve_refl q)). Qed.
Print Assumptions C98_observation_time_mask.
Theorem C98_observation_time : forall X q s v a n w, same_source q s -> sized q -> dim_of v <> time_dim -> aq_t_obs a = PValQ v ->
  q_class q <> KStationary -> q_class q <> KEvolving ->
  exists e q', get_snr_q X a n w q = (q', Err e) /\ same_but_curve q q'.
Proof. exact snr_wrong. Qed.
Print Assumptions C98_observation_time.

(** The constructor does not look at the dimensions of masses, distances and frequencies: once it accepts some, it accepts
    arrays of the same lengths in any units whatever. *)
Theorem C98_construction_refuted : forall X k m1 m2 d f e np a w tol st ig isc p q m1' m2' d' f',
  init_q X k (mkInitQ (PQArr m1 tt) (PQArr m2 tt) e (PQArr d tt) np (PQArr f tt) a None None None w tol st ig isc p) = Ok q ->
  length m1' = length m1 -> length m2' = length m2 -> length d' = length d -> length f' = length f ->
  init_q X k (mkInitQ (PQArr m1' tt) (PQArr m2' tt) e (PQArr d' tt) np (PQArr f' tt) a None None None w tol st ig isc p)
  = Ok (with_arrays m1' m2' d' f' q).
Proof. exact init_any_unit. Qed.
Print Assumptions C98_construction_refuted.

(** Masses that are no masses are noticed when a chirp mass is needed (by strains, masks and stationary SNRs). *)
Theorem C98_masses_later : forall q x l u u2 m2, q_m_1 q = map (fun y => Qy y u) (x :: l) -> q_m_2 q = map (in_unit u2) m2 ->
  length m2 = length (x :: l) -> unit_for mass_dim u2 -> u_dim u <> mass_dim -> m_c_q q = Err UnitError.
Proof. exact late_masses. Qed.
Print Assumptions C98_masses_later.

(** Distances that are no distances are not: a distance of [x] seconds gives the strains of [x] metres. *)
Theorem C98_distances_refuted : forall X h w q s l, same_source q s ->
  get_h_0_n_q X h w (with_dist (map (fun x => Qy x second) l) q) = get_h_0_n_q X h w (with_dist (map (fun x => Qy x meter) l) q) /\
  get_h_c_n_q X h w (with_dist (map (fun x => Qy x second) l) q) = get_h_c_n_q X h w (with_dist (map (fun x => Qy x meter) l) q).
Proof. exact distance_unit. Qed.
Print Assumptions C98_distances_refuted.

(** The interpolated curve drops the unit in which a custom sensitivity curve answers: noises of [x] in any two units (even of
    different dimensions) give one and the same interpolated curve. *)
Theorem C98_custom_curve_refuted : forall y x u u' i,
  (forall f, psd_of_q (constant_curve y x u) (custom_q i) f = Ok (map (fun _ => Qy (Fin x) u) f)) /\
  curve_of_q (constant_curve y x u) (custom_q i) = curve_of_q (constant_curve y x u') (custom_q i) /\
  exists c, curve_of_q (constant_curve y x u) (custom_q i) = Ok c.
Proof. exact curve_unit. Qed.
Print Assumptions C98_custom_curve_refuted.

(** The two binaries of C97_satisfiable: the hypotheses above hold for them, and a constructor given kilometres for masses accepts. *)
Example C98_satisfiable : exists q s,
  same_world x_toy_q x_toy /\ same_source q s /\ sized q /\ n_sources_q q = 2%nat /\ q_t_merge q = None /\ q_class q = KSource /\
  init_q x_toy_q KSource (pair_in msun kilometer millihertz) = Ok q /\
  wrong_times 2 (TScalarQ (Qy (Fin 3) kilometer)) /\ wrong_times 2 (TScalarQ (Pl (Fin 3))) /\ dim_of (Qy (Fin 3) kilometer) <> time_dim /\
  dim_of (Qy (Fin 3) second) <> length_dim /\
  exists q', init_q x_toy_q KSource (toy_in kilometer msun kilometer millihertz [Fin 2e30; Fin 3e30] [Fin 1e30; Fin 1e30] [Fin 0; Fin (1/10)]
               [Fin 1e20; Fin 2e20] [Fin 1e-3; Fin 2e-3] false []) = Ok q' /\ m_c_q q' = Err UnitError.
Proof. exact wrong_example. Qed.
