(** PropUnitsEvol.v -- C94: evolution and merger times do not depend on the units of the inputs.

    A quantity is a magnitude with a unit (Units.v); [in_unit u x] is the physical value [x] (SI) written in the unit [u].
    The functions ending in [_q] are evol.py on such quantities; the ones without are the same functions on SI numbers,
    which the other property files speak about.  Each theorem says: with the inputs written in any units of the right
    dimension, the function returns the SI result in its documented unit, with the same errors. *)
From Coq Require Import String Reals ZArith List Bool Lra Lia.
From Verif Require Import Num NumFacts Np NpFacts Utils Strain Evol EvolFacts Units UnitsSpec UnitsFacts UnitsEvol UnitsEvolSpec UnitsEvolFacts
  UnitsEvolThms UnitsEvolRuns UnitsEccRuns UnitsMarker UnitsTimes UnitsEvolWrong.
Import ListNotations.
Open Scope list_scope.
Open Scope R_scope.
Open Scope res_scope.

(** Merger times: always in Gyr, whatever the units of the inputs (circular, eccentric arrays, one eccentric binary). *)
Theorem C94_merger_times : forall quad ub u1 u2 ua uf,
  unit_for beta_dim ub -> unit_for mass_dim u1 -> unit_for mass_dim u2 -> unit_for length_dim ua -> unit_for frequency_dim uf ->
  (forall b m_1 m_2 a f,
     get_t_merge_circ_arr_q (list_in ub b) (list_in u1 m_1) (list_in u2 m_2) (list_in ua a) (list_in uf f) =
     rmap (map (in_unit gigayear)) (get_t_merge_circ b m_1 m_2 a f)) /\
  (forall ecc b m_1 m_2 a f small large exact,
     get_t_merge_ecc_q quad ecc (list_in ua a) (list_in uf f) (list_in ub b) (list_in u1 m_1) (list_in u2 m_2) small large exact =
     rmap (map (in_unit gigayear)) (get_t_merge_ecc quad ecc a f b m_1 m_2 small large exact)) /\
  (forall e b m_1 m_2 a f small large exact,
     get_t_merge_ecc_sc_q quad e (val_in ua a) (val_in uf f) (val_in ub b) (val_in u1 m_1) (val_in u2 m_2) small large exact =
     rmap (in_unit gigayear) (get_t_merge_ecc_sc quad e a f b m_1 m_2 small large exact)).
Proof.
  exact (fun quad ub u1 u2 ua uf UB U1 U2 UA UF =>
    conj (fun b m_1 m_2 a f => t_merge_circ_arr_si b m_1 m_2 a f ub u1 u2 ua uf UB U1 U2 UA UF)
   (conj (fun ecc b m_1 m_2 a f s l x => t_merge_ecc_si quad ecc b m_1 m_2 a f s l x ub u1 u2 ua uf UB U1 U2 UA UF)
         (fun e b m_1 m_2 a f s l x => t_merge_ecc_sc_si quad e b m_1 m_2 a f s l x ub u1 u2 ua uf UB U1 U2 UA UF))).
Qed.
Print Assumptions C94_merger_times.

(** Circular evolution: timesteps in years, separations in AU, frequencies in Hz.  For the frequencies, the separations must
    have been given in AU (or not at all), or never meet the marker. *)
Theorem C94_circular_evolution : forall quad te n ts b m1 m2 a f vars ut us ub u1 u2 ua uf,
  unit_for time_dim ut -> unit_for time_dim us ->
  unit_for beta_dim ub -> unit_for mass_dim u1 -> unit_for mass_dim u2 -> unit_for length_dim ua -> unit_for frequency_dim uf ->
  any_in ["f_orb"%string; "f_GW"%string] vars = false \/ a = Absent \/ u_size ua = AU \/
    off_marker ua (evol_circ quad te n ts (si_arg b) (si_arg m1) (si_arg m2) (si_arg a) (si_arg f) ["a"%string]) ->
  evol_circ_q quad (t_evol_in ut te) n (timesteps_in us ts) (arg_in ub b) (arg_in u1 m1) (arg_in u2 m2) (arg_in ua a)
    (arg_in uf f) vars
  = rmap (dress (circ_units vars))
      (evol_circ quad te n ts (si_arg b) (si_arg m1) (si_arg m2) (si_arg a) (si_arg f) vars).
Proof. exact evol_circ_si. Qed.
Print Assumptions C94_circular_evolution.

(** Without the last hypothesis it fails.  Two masses of 1 kg at 1e-30 m: written in metres, the initial frequency is
    reported as 100 Hz (that of a merged binary); written in AU, as the Kepler frequency. *)
Theorem C94_marker_refuted : forall quad,
  start_frequency quad meter (Fin marker) = Ok (SingleQ (E1Q [in_unit hertz (Fin 100)])) /\
  start_frequency quad au (Fin marker) = Ok (SingleQ (E1Q [in_unit hertz (get_f_orb_from_a (Fin marker) (Fin 1) (Fin 1))])) /\
  start_frequency quad meter (Fin marker) <> start_frequency quad au (Fin marker).
Proof. exact marker_unit. Qed.
Print Assumptions C94_marker_refuted.

(** Eccentric evolution: eccentricities without unit, the others as above; the caller's array of timesteps keeps its unit. *)
Theorem C94_eccentric_evolution :
  forall quad odeint sched ecc te n ts b m1 m2 a f vars n_proc am ex tb tm ut us ub u1 u2 ua uf utb um,
  unit_for time_dim ut -> unit_for time_dim us ->
  unit_for beta_dim ub -> unit_for mass_dim u1 -> unit_for mass_dim u2 -> unit_for length_dim ua -> unit_for frequency_dim uf ->
  unit_for time_dim utb -> unit_for time_dim um ->
  evol_ecc_q quad odeint sched ecc (t_evol_in ut te) n (timesteps_in us ts) (arg_in ub b) (arg_in u1 m1) (arg_in u2 m2)
    (arg_in ua a) (arg_in uf f) vars n_proc am ex (in_unit utb tb) (list_in um tm)
  = rmap (fun r => (dress (ecc_units vars) (fst r), timesteps_in us (snd r)))
      (evol_ecc quad odeint sched ecc te n ts (si_arg b) (si_arg m1) (si_arg m2) (si_arg a) (si_arg f) vars n_proc am ex tb tm).
Proof. exact evol_ecc_si. Qed.
Print Assumptions C94_eccentric_evolution.

(** Frequencies after a time, in the unit of [merge_f]; and whether sources are stationary. *)
Theorem C94_frequency_and_stationarity :
  (forall f m t ecc mf uf um ut umf,
     unit_for frequency_dim uf -> unit_for mass_dim um -> unit_for time_dim ut -> unit_for frequency_dim umf ->
     evolve_f_orb_circ_q (map (in_unit uf) f) (map (in_unit um) m) (map (in_unit ut) t) ecc (in_unit umf mf)
     = rmap (map (in_unit umf)) (evolve_f_orb_circ f m t ecc mf)) /\
  (forall f t ecc m1 m2 mc tol uf ut u1 u2 uc,
     unit_for frequency_dim uf -> unit_for time_dim ut -> unit_for mass_dim u1 -> unit_for mass_dim u2 -> unit_for mass_dim uc ->
     determine_stationarity_q (map (in_unit uf) f) (map (in_unit ut) t) ecc (list_in u1 m1) (list_in u2 m2) (list_in uc mc) tol
     = determine_stationarity f t ecc m1 m2 mc tol).
Proof. exact (conj evolve_f_si stationarity_si). Qed.
Print Assumptions C94_frequency_and_stationarity.

(** The same physical inputs in two choices of units give the very same outcome. *)
Theorem C94_same_outcome : forall quad odeint sched ecc te n ts b m1 m2 a f vars n_proc am ex tb tm
    ut us ub u1 u2 ua uf utb um vt vs vb v1 v2 va vf vtb vm,
  unit_for time_dim ut -> unit_for time_dim us ->
  unit_for beta_dim ub -> unit_for mass_dim u1 -> unit_for mass_dim u2 -> unit_for length_dim ua -> unit_for frequency_dim uf ->
  unit_for time_dim utb -> unit_for time_dim um ->
  unit_for time_dim vt -> unit_for time_dim vs ->
  unit_for beta_dim vb -> unit_for mass_dim v1 -> unit_for mass_dim v2 -> unit_for length_dim va -> unit_for frequency_dim vf ->
  unit_for time_dim vtb -> unit_for time_dim vm ->
  rmap fst (evol_ecc_q quad odeint sched ecc (t_evol_in ut te) n (timesteps_in us ts) (arg_in ub b) (arg_in u1 m1) (arg_in u2 m2)
    (arg_in ua a) (arg_in uf f) vars n_proc am ex (in_unit utb tb) (list_in um tm))
  = rmap fst (evol_ecc_q quad odeint sched ecc (t_evol_in vt te) n (timesteps_in vs ts) (arg_in vb b) (arg_in v1 m1) (arg_in v2 m2)
    (arg_in va a) (arg_in vf f) vars n_proc am ex (in_unit vtb tb) (list_in vm tm)).
Proof. exact ecc_same_outcome. Qed.
Print Assumptions C94_same_outcome.

(** Times (evolution time or time steps) given as plain numbers raise AttributeError, where a time in the right unit would
    have been accepted. *)
Theorem C94_time_without_unit : forall quad n b m1 m2 a f vars ub u1 u2 ua uf te ts te' ts',
  unit_for beta_dim ub -> unit_for mass_dim u1 -> unit_for mass_dim u2 -> unit_for length_dim ua -> unit_for frequency_dim uf ->
  no_unit te' ts' ->
  (forall o, evol_circ quad te n ts (si_arg b) (si_arg m1) (si_arg m2) (si_arg a) (si_arg f) vars = Ok o ->
   evol_circ_q quad te' n ts' (arg_in ub b) (arg_in u1 m1) (arg_in u2 m2) (arg_in ua a) (arg_in uf f) vars = Err AttributeError) /\
  (forall odeint sched ecc n_proc am ex tb tm tbq tmq o,
   evol_ecc quad odeint sched ecc te n ts (si_arg b) (si_arg m1) (si_arg m2) (si_arg a) (si_arg f) vars n_proc am ex tb tm = Ok o ->
   evol_ecc_q quad odeint sched ecc te' n ts' (arg_in ub b) (arg_in u1 m1) (arg_in u2 m2) (arg_in ua a) (arg_in uf f) vars
     n_proc am ex tbq tmq = Err AttributeError).
Proof.
  exact (fun quad n b m1 m2 a f vars ub u1 u2 ua uf te ts te' ts' UB U1 U2 UA UF N =>
    conj (fun o => circ_no_unit quad n b m1 m2 a f vars ub u1 u2 ua uf UB U1 U2 UA UF te ts te' ts' o N)
      (fun odeint sched ecc n_proc am ex tb tm tbq tmq o =>
         ecc_no_unit quad odeint sched n b m1 m2 a f vars ub u1 u2 ua uf UB U1 U2 UA UF ecc n_proc am ex tb tm tbq tmq te ts te' ts' o N)).
Qed.
Print Assumptions C94_time_without_unit.

(** An evolution time or a time step that is no time ([wrong]: another dimension, or a plain number) is rejected with a unit
    error or AttributeError, in every call with at least one source that would have worked if the numbers had been times. *)
Theorem C94_time_of_wrong_dimension : forall quad odeint sched n b m1 m2 a f vars ub u1 u2 ua uf te ts,
  unit_for beta_dim ub -> unit_for mass_dim u1 -> unit_for mass_dim u2 -> unit_for length_dim ua -> unit_for frequency_dim uf ->
  some_source b -> some_source m1 -> some_source m2 -> some_source a -> some_source f ->
  (exists v, List.In v (times_given te ts) /\ wrong time_dim v) ->
  (forall o, evol_circ quad (si_t_evol te) n (si_timesteps ts) (si_arg b) (si_arg m1) (si_arg m2) (si_arg a) (si_arg f) vars = Ok o ->
   rejects (evol_circ_q quad te n ts (arg_in ub b) (arg_in u1 m1) (arg_in u2 m2) (arg_in ua a) (arg_in uf f) vars)) /\
  (forall ecc n_proc am ex tb tm utb um o, unit_for time_dim utb -> unit_for time_dim um ->
   evol_ecc quad odeint sched ecc (si_t_evol te) n (si_timesteps ts) (si_arg b) (si_arg m1) (si_arg m2) (si_arg a) (si_arg f) vars
     n_proc am ex tb tm = Ok o ->
   rejects (evol_ecc_q quad odeint sched ecc te n ts (arg_in ub b) (arg_in u1 m1) (arg_in u2 m2) (arg_in ua a) (arg_in uf f) vars
     n_proc am ex (in_unit utb tb) (list_in um tm))).
Proof.
  exact (fun quad odeint sched n b m1 m2 a f vars ub u1 u2 ua uf te ts UB U1 U2 UA UF SB S1 S2 SA SF W =>
    conj (fun o => circ_times quad n b m1 m2 a f vars ub u1 u2 ua uf UB U1 U2 UA UF SB S1 S2 SA SF te ts o W)
      (fun ecc n_proc am ex tb tm utb um o UTB UM =>
         ecc_times quad odeint sched n b m1 m2 a f vars ub u1 u2 ua uf UB U1 U2 UA UF SB S1 S2 SA SF ecc n_proc am ex tb tm utb um te ts o UTB UM W)).
Qed.
Print Assumptions C94_time_of_wrong_dimension.

(** The same for evolving a frequency and for deciding stationarity: always a unit error. *)
Theorem C94_wrong_time_of_frequency :
  (forall f m t ecc mf uf um umf o,
     unit_for frequency_dim uf -> unit_for mass_dim um -> unit_for frequency_dim umf -> f <> [] -> m <> [] -> ecc <> [] ->
     (exists v, List.In v t /\ dim_of v <> time_dim) ->
     evolve_f_orb_circ f m (map si t) ecc mf = Ok o ->
     evolve_f_orb_circ_q (map (in_unit uf) f) (map (in_unit um) m) t ecc (in_unit umf mf) = Err UnitError) /\
  (forall f t ecc m1 m2 mc tol uf u1 u2 uc o,
     unit_for frequency_dim uf -> unit_for mass_dim u1 -> unit_for mass_dim u2 -> unit_for mass_dim uc ->
     f <> [] -> ecc <> [] -> m1 <> Some [] -> m2 <> Some [] -> mc <> Some [] -> (exists v, List.In v t /\ dim_of v <> time_dim) ->
     determine_stationarity f (map si t) ecc m1 m2 mc tol = Ok o ->
     determine_stationarity_q (map (in_unit uf) f) t ecc (list_in u1 m1) (list_in u2 m2) (list_in uc mc) tol = Err UnitError).
Proof. exact (conj evolve_f_times stationarity_times). Qed.
Print Assumptions C94_wrong_time_of_frequency.

(** Two stars of 2e30 kg one AU apart, evolved for a day: the call succeeds, and in kilometres (or any other of these units)
    the separation does not meet the marker; time steps in kilometres with the same SI value are wrong. *)
Example C94_satisfiable :
  unit_for length_dim kilometre /\ unit_for time_dim hour /\ unit_for mass_dim msun /\ unit_for mass_dim (mkUnit 1 mass_dim) /\
  unit_for frequency_dim (mkUnit (1/1000) frequency_dim) /\ unit_for beta_dim (mkUnit 1 beta_dim) /\
  (forall quad, off_marker kilometre (day_run quad) /\ (exists o, day_run quad = Ok o)) /\
  no_unit (TScalarQ (Pl (Fin 5))) SNoneQ /\
  (exists v, List.In v (times_given TNoneQ day_in_kilometres) /\ wrong time_dim v) /\ si_timesteps day_in_kilometres = S1 [Fin 86400] /\
  some_source Absent /\ some_source (Scalar star).
Proof. exact units_example. Qed.
