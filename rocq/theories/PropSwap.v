(** PropSwap.v -- property C120: it does not matter which member of a binary is called the first. *)
From Coq Require Import String Reals ZArith List Bool Lra Lia.
From Verif Require Import Num NumFacts Np Utils Strain Psd Snr Evol Harmonics HarmThms ScParams Source Index SourceSpec IndexSpec History CurveSpec InitSpec MethodSpec
  FileIO FileSpec FileFacts ReachFacts Toy ToyFile SwapSpec SwapFacts SwapThms SwapIndex.
Import ListNotations.
Open Scope R_scope.

(** ** C120 *)
(** Functions of the two masses, for all numbers, infinite and invalid ones too; *)
Theorem C120_masses : forall m1 m2 x, chirp_mass m1 m2 = chirp_mass m2 m1 /\ beta m1 m2 = beta m2 m1 /\
  get_a_from_f_orb x m1 m2 = get_a_from_f_orb x m2 m1 /\ get_f_orb_from_a x m1 m2 = get_f_orb_from_a x m2 m1.
Proof. exact (fun m1 m2 x => conj (chirp_swap m1 m2) (conj (beta_swap m1 m2) (conj (get_a_swap x m1 m2) (get_f_swap x m1 m2)))). Qed.
Print Assumptions C120_masses.
(** merger times and labels, for all arguments given or left out, scalars or arrays of any lengths, exceptions included; *)
Theorem C120_merger_times : forall quad e a f b m1 m2 small large exact,
  get_t_merge_circ b m1 m2 a f = get_t_merge_circ b m2 m1 a f /\
  get_t_merge_ecc quad e a f b m1 m2 small large exact = get_t_merge_ecc quad e a f b m2 m1 small large exact.
Proof. exact (fun quad e a f b m1 m2 small large exact => conj (t_merge_circ_swap b m1 m2 a f) (t_merge_ecc_swap quad e a f b m1 m2 small large exact)). Qed.
Print Assumptions C120_merger_times.
Theorem C120_merger_times_of_one : forall quad e a f b m1 m2 small large exact,
  get_t_merge_circ_sc b m1 m2 a f = get_t_merge_circ_sc b m2 m1 a f /\
  get_t_merge_ecc_sc quad e a f b m1 m2 small large exact = get_t_merge_ecc_sc quad e a f b m2 m1 small large exact.
Proof. exact (fun quad e a f b m1 m2 small large exact => conj (t_merge_circ_sc_swap b m1 m2 a f) (t_merge_ecc_sc_swap quad e a f b m1 m2 small large exact)). Qed.
Print Assumptions C120_merger_times_of_one.
Theorem C120_stationarity : forall f t e m1 m2 mc tol, determine_stationarity f t e m1 m2 mc tol = determine_stationarity f t e m2 m1 mc tol.
Proof. exact stationarity_swap. Qed.
Print Assumptions C120_stationarity.
(** evolution, for every integrator, schedule and output; *)
Theorem C120_evol_circ : forall quad t n ts b m1 m2 a f vars, evol_circ quad t n ts b m1 m2 a f vars = evol_circ quad t n ts b m2 m1 a f vars.
Proof. exact evol_circ_swap. Qed.
Print Assumptions C120_evol_circ.
Theorem C120_evol_ecc : forall quad ode sched e t n ts b m1 m2 a f vars np avoid exact tb tm,
  evol_ecc quad ode sched e t n ts b m1 m2 a f vars np avoid exact tb tm = evol_ecc quad ode sched e t n ts b m2 m1 a f vars np avoid exact tb tm.
Proof. exact evol_ecc_swap. Qed.
Print Assumptions C120_evol_ecc.
(** signal-to-noise ratios of evolving binaries. (The others are given the chirp mass.) *)
Theorem C120_snr_circ : forall w jv gi quad m1 m2 f d t n tm sc kw,
  snr_circ_evolving w jv gi quad m1 m2 f d t n tm sc kw = snr_circ_evolving w jv gi quad m2 m1 f d t n tm sc kw.
Proof. exact snr_circ_swap. Qed.
Print Assumptions C120_snr_circ.
Theorem C120_snr_ecc : forall w jv gi quad ode sched m1 m2 f d e h t n tm sc np rm r2 kw,
  snr_ecc_evolving w jv gi quad ode sched m1 m2 f d e h t n tm sc np rm r2 kw = snr_ecc_evolving w jv gi quad ode sched m2 m1 f d e h t n tm sc np rm r2 kw.
Proof. exact snr_ecc_swap. Qed.
Print Assumptions C120_snr_ecc.
(** A collection made from exchanged masses is the exchanged collection, and the same arguments are refused. *)
Theorem C120_construction : forall x k i m1 m2, i_m_1 i = PQArr m1 tt -> i_m_2 i = PQArr m2 tt -> length m1 = length m2 ->
  init x k (exchanged_args i) = match init x k i with Ok s => Ok (exchanged s) | Err e => Err e end.
Proof. exact init_swap. Qed.
Print Assumptions C120_construction.
(** Everything computed from it is the same, *)
Theorem C120_results : forall x s, paired s ->
  m_c (exchanged s) = m_c s /\ a_getter (exchanged s) = a_getter s /\
  (forall c st t, get_source_mask c st t (exchanged s) = get_source_mask c st t s) /\
  (forall h w, get_h_0_n x h w (exchanged s) = get_h_0_n x h w s /\ get_h_c_n x h w (exchanged s) = get_h_c_n x h w s) /\
  (forall a n w, snd (get_snr x a n w (exchanged s)) = snd (get_snr x a n w s)) /\
  (forall a w, snd (get_snr_stationary x a w (exchanged s)) = snd (get_snr_stationary x a w s)) /\
  (forall a n w, snd (get_snr_evolving x a n w (exchanged s)) = snd (get_snr_evolving x a n w s)) /\
  (forall save w exact, snd (get_merger_time x save w exact (exchanged s)) = snd (get_merger_time x save w exact s)).
Proof. exact results_swap. Qed.
Print Assumptions C120_results.
(** whatever was done to it before: a history leads to the exchanged collection, raising the same exceptions on the way. *)
Theorem C120_history : forall x ops s, paired s ->
  run x ops (exchanged s) = (exchanged (fst (run x ops s)), snd (run x ops s)) /\ paired (fst (run x ops s)).
Proof. exact run_swap. Qed.
Print Assumptions C120_history.
(** So does evolve_sources(create_new_class=True), for the original and the new collection. *)
Theorem C120_evolve_new : forall x t s, paired s -> exists s' r, evolve_new x t s = (s', r) /\
  evolve_new x t (exchanged s) = (exchanged s', match r with Ok new => Ok (exchanged new) | Err e => Err e end).
Proof. exact evolve_new_swap. Qed.
Print Assumptions C120_evolve_new.
(** So do indexing and copying. *)
Theorem C120_indexing : forall ind s, paired s ->
  getitem ind (exchanged s) = match getitem ind s with Ok s' => Ok (exchanged s') | Err e => Err e end /\
  forall s', getitem ind s = Ok s' -> paired s'.
Proof. exact getitem_swap. Qed.
Print Assumptions C120_indexing.
Theorem C120_copy : forall s, paired s -> copy (exchanged s) = match copy s with Ok s' => Ok (exchanged s') | Err e => Err e end.
Proof. exact copy_swap. Qed.
Print Assumptions C120_copy.
(** Every collection has as many first as second masses. *)
Theorem C120_every_collection : forall x s n, reachable false x s n -> paired s.
Proof. exact reachable_paired. Qed.
Print Assumptions C120_every_collection.
(** A collection of two. *)
Example C120_satisfiable : reachable false x_toy (two KSource false None default_params) 2.
Proof. now apply (two_reachable false KSource false None []). Qed.
