(** PropUnitsSource.v -- C97: a Source behaves the same whatever the units it is described in.

    UnitsSource.v is the Source class on astropy quantities (suffix [_q]); Source.v and History.v are the same class on SI
    numbers, which the other property files speak about.  [same_source q s]: the object [q], with quantities, has the physical
    content of [s]; [same_init], [same_op]: the same arguments of the constructor, the same call (UnitsSourceSpec.v). *)
From Coq Require Import String Reals ZArith List Bool Lra Lia.
From Verif Require Import Num NumFacts Np NpFacts Utils Strain Psd Evol Snr Interp Harmonics ScParams Source History Toy Units UnitsSpec UnitsFacts
  UnitsThms UnitsStrain UnitsEvol UnitsEvolSpec UnitsEvolFacts UnitsPsd UnitsPsdSpec UnitsPsdFacts UnitsPsdWrong UnitsPsdThms UnitsSnr UnitsSource
  UnitsSourceSpec UnitsSourceParams UnitsSourceFacts UnitsSourceSnr UnitsSourceEvol UnitsSourceThms UnitsSourceKeep UnitsSourceToy.
Import ListNotations.
Open Scope list_scope.
Open Scope R_scope.

(** Construction succeeds with the same content, or fails with the same error. *)
Theorem C97_construction : forall X y k i j, same_world X y -> same_init i j -> res_rel same_source (init_q X k i) (init y k j).
Proof. exact init_si. Qed.
Print Assumptions C97_construction.

(** Every sequence of calls: the same errors, and the same content afterwards. *)
Theorem C97_histories : forall X y os ps, same_world X y -> Forall2 same_op os ps -> forall q s, same_source q s ->
  snd (run_q X os q) = snd (run y ps s) /\ same_source (fst (run_q X os q)) (fst (run y ps s)).
Proof. exact run_si. Qed.
Print Assumptions C97_histories.

(** Hence two users who describe the same binaries in different units, and make the same calls with times and lengths in
    different units, end with objects of the same content, having seen the same errors. *)
Theorem C97_two_users : forall X y k i i' j os os' ps, same_world X y -> same_init i j -> same_init i' j ->
  Forall2 same_op os ps -> Forall2 same_op os' ps ->
  match init_q X k i, init_q X k i' with
  | Ok q, Ok q' => snd (run_q X os q) = snd (run_q X os' q') /\
      exists s, same_source (fst (run_q X os q)) s /\ same_source (fst (run_q X os' q')) s
  | Err e, Err e' => e = e'
  | _, _ => False
  end.
Proof. exact two_users. Qed.
Print Assumptions C97_two_users.

(** What such objects show: chirp masses in solar masses, separations in AU, the same masks and the same strains. *)
Theorem C97_readings : forall q s, same_source q s ->
  m_c_q q = rmap (map (in_unit msun)) (m_c s) /\ a_getter_q q = rmap (map (in_unit au)) (a_getter s) /\
  (forall c st t t', same_pval "t_obs" t t' -> get_source_mask_q c st t q = get_source_mask c st t' s) /\
  (forall X y h w, same_world X y -> get_h_0_n_q X h w q = get_h_0_n y h w s /\ get_h_c_n_q X h w q = get_h_c_n y h w s).
Proof. exact readings. Qed.
Print Assumptions C97_readings.

(** What the methods return: the same SNRs, merger times in Gyr, and (with create_new_class) a new object of the same content. *)
Theorem C97_methods : forall X y, same_world X y ->
  (forall a b n w, same_args a b -> agree eq (get_snr_q X a n w) (get_snr y b n w)) /\
  (forall a b w, same_args a b -> agree eq (get_snr_stationary_q X a w) (get_snr_stationary y b w)) /\
  (forall a b n w, same_args a b -> agree eq (get_snr_evolving_q X a n w) (get_snr_evolving y b n w)) /\
  (forall save w exact, agree (fun v x => v = map (in_unit gigayear) x) (get_merger_time_q X save w exact) (get_merger_time y save w exact)) /\
  (forall t t', same_time t t' -> agree same_source (evolve_new_q X t) (evolve_new y t')).
Proof. exact methods. Qed.
Print Assumptions C97_methods.

(** No call changes the units of the masses, distances or sky positions; the frequencies keep theirs or are in Hz. *)
Theorem C97_units_kept : forall X os q, kept q (fst (run_q X os q)).
Proof. exact keeps_run. Qed.
Print Assumptions C97_units_kept.

(** Two binaries, first in solar masses, kilometres and mHz, then in kg, metres and Hz; the observation time is set in months or in
    seconds and the orbits are evolved by an hour. *)
Example C97_satisfiable : exists y j s q q',
  same_world x_toy_q y /\ unit_for mass_dim msun /\
  same_init (toy_in msun msun kilometer millihertz [Fin 2e30; Fin 3e30] [Fin 1e30; Fin 1e30] [Fin 0; Fin (1/10)] [Fin 1e20; Fin 2e20] [Fin 1e-3; Fin 2e-3] false []) j /\
  same_init (toy_in (mkUnit 1 mass_dim) msun meter hertz [Fin 2e30; Fin 3e30] [Fin 1e30; Fin 1e30] [Fin 0; Fin (1/10)] [Fin 1e20; Fin 2e20] [Fin 1e-3; Fin 2e-3] false []) j /\
  init y KSource j = Ok s /\ n_sources s = 2%nat /\
  init_q x_toy_q KSource (toy_in msun msun kilometer millihertz [Fin 2e30; Fin 3e30] [Fin 1e30; Fin 1e30] [Fin 0; Fin (1/10)] [Fin 1e20; Fin 2e20] [Fin 1e-3; Fin 2e-3] false []) = Ok q /\
  init_q x_toy_q KSource (toy_in (mkUnit 1 mass_dim) msun meter hertz [Fin 2e30; Fin 3e30] [Fin 1e30; Fin 1e30] [Fin 0; Fin (1/10)] [Fin 1e20; Fin 2e20] [Fin 1e-3; Fin 2e-3] false []) = Ok q' /\
  q_dist q <> q_dist q' /\
  Forall2 same_op [SetItemQ "t_obs" (PValQ (in_unit month (Fin 1e8))); EvolveQ (TScalarQ (in_unit month (Fin 3600)))]
                  [SetItem "t_obs" (PVal (Fin 1e8)); Evolve (TScalar (Fin 3600))] /\
  Forall2 same_op [SetItemQ "t_obs" (PValQ (in_unit second (Fin 1e8))); EvolveQ (TScalarQ (in_unit second (Fin 3600)))]
                  [SetItem "t_obs" (PVal (Fin 1e8)); Evolve (TScalar (Fin 3600))].
Proof. exact units_source_example. Qed.
