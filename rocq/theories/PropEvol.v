(** PropEvol.v -- properties C07, C13-C27, C74, C75 (orbital evolution, merger times, stationarity). *)
From Coq Require Import String Reals ZArith List Bool Lra Lia.
From Coquelicot Require Import Coquelicot.
From Verif Require Import Num NumFacts Np Utils Spec UtilsFacts Evol EvolSpec EvolFacts MergeFacts OdeFacts ArrEvolFacts CircFacts EccEvolFacts LocalFacts EvolThms OdeintFacts.
Import ListNotations.
Open Scope R_scope.

(** ** C07: de_dt and get_a_from_ecc describe one Peters inspiral *)
Theorem C07_trajectory_rates : forall m1 m2 b T c0 e, 0 < m1 -> 0 < m2 -> 0 < c0 -> beta (Fin m1) (Fin m2) = Fin b ->
  follows_de_dt b c0 T e ->
  exists a : R -> R,
    (forall t, 0 <= t <= T -> get_a_from_ecc (Fin (e t)) (Fin c0) = Fin (a t)) /\
    peters_inspiral m1 m2 T a e /\
    (forall s t, 0 <= s -> s < t -> t <= T -> e t < e s /\ a t < a s).
Proof. exact trajectory_rates_thm. Qed.
Print Assumptions C07_trajectory_rates.
(** Such trajectories exist for every initial condition, up to the merger time the code reports. *)
Theorem C07_trajectories_exist : forall quad m1 m2 b a e0 T tm,
  quad_exact quad -> 0 < m1 -> 0 < m2 -> 0 < a -> 0 < e0 < 1 -> 0 <= T -> beta (Fin m1) (Fin m2) = Fin b ->
  get_t_merge_ecc_sc quad (Fin e0) (Some (Fin a)) None (Some (Fin b)) None None (Fin 0) (Fin 1) true = Ok (Fin tm) ->
  T < tm ->
  exists c0 e, c_0 (Fin a) (Fin e0) = Fin c0 /\ e 0 = e0 /\ follows_de_dt b c0 T e.
Proof. exact trajectory_exists_thm. Qed.
Print Assumptions C07_trajectories_exist.
Example C07_satisfiable : exists T e, 0 < T /\ follows_de_dt 1 1 T e /\ e 0 = 1/2.
Proof.
  pose proof (I514_pos (1/2) ltac:(lra)) as P. exists (12/19 * 1 ^ 4 / 1 * I514 (1/2) / 2).
  destruct (trajectory_exists 1 1 (1/2) (12/19 * 1 ^ 4 / 1 * I514 (1/2) / 2)) as [e [A B]]; try lra.
  exists e. split; [lra|auto].
Qed.
Example quad_exact_satisfiable : quad_exact quad_model.
Proof. exact quad_model_exact. Qed.

(** ** C13: circular evolution solves Peters' equation *)
Theorem C13_separation : forall quad m1 m2 a0, 0 < m1 -> 0 < m2 -> 0 < a0 ->
  exists (a : R -> R) (tm : R),
    get_t_merge_circ_sc None (Some (Fin m1)) (Some (Fin m2)) (Some (Fin a0)) None = Ok (Fin tm) /\ 0 < tm /\
    (forall n ts, circ_call quad m1 m2 a0 n (map Fin ts) ["a"%string] = Ok (Single (E1 (map (fun t => Fin (a t)) ts)))) /\
    a 0 = a0 /\
    (forall t, t < tm -> 0 < a t /\ is_derive a t (peters_da_dt m1 m2 (a t) 0)) /\
    (forall s t, s < t -> t <= tm -> a t < a s) /\
    (forall t, tm <= t -> a t = 0).
Proof. exact circ_separation. Qed.
Print Assumptions C13_separation.
(** [tiny] (1e-30 AU) is the placeholder separation the code uses for merged binaries. *)
Theorem C13_frequency : forall quad m1 m2 a0, 0 < m1 -> 0 < m2 -> 0 < a0 ->
  exists (a f : R -> R) (tm : R),
    get_t_merge_circ_sc None (Some (Fin m1)) (Some (Fin m2)) (Some (Fin a0)) None = Ok (Fin tm) /\
    (forall n ts, circ_call quad m1 m2 a0 n (map Fin ts) ["a"%string] = Ok (Single (E1 (map (fun t => Fin (a t)) ts)))) /\
    (forall n ts, circ_call quad m1 m2 a0 n (map Fin ts) ["f_orb"%string] = Ok (Single (E1 (map (fun t => Fin (f t)) ts)))) /\
    (forall t, t < tm -> a t <> tiny -> 0 < f t /\ kepler_third_law m1 m2 (a t) (f t)) /\
    (forall s t, s < t -> t < tm -> a s <> tiny -> a t <> tiny -> f s < f t) /\
    (forall t, tm <= t -> f t = 100).
Proof. exact circ_frequency. Qed.
Print Assumptions C13_frequency.
Example C13_satisfiable : 0 < 2e30 /\ 0 < 1e30 /\ 0 < 1e8.
Proof. lra. Qed.

(** ** C14: splitting a history does not matter *)
Theorem C14_two_steps : forall quad m1 m2 a0 t1 t2 a1 tm n var, 0 < m1 -> 0 < m2 -> 0 < a0 ->
  get_t_merge_circ_sc None (Some (Fin m1)) (Some (Fin m2)) (Some (Fin a0)) None = Ok (Fin tm) -> t1 < tm ->
  circ_call quad m1 m2 a0 n [Fin t1] ["a"%string] = Ok (Single (E1 [Fin a1])) ->
  In var ["a"; "f_orb"; "f_GW"]%string ->
  circ_call quad m1 m2 a1 n [Fin t2] [var] = circ_call quad m1 m2 a0 n [Fin (t1 + t2)] [var].
Proof. exact circ_two_steps. Qed.
Print Assumptions C14_two_steps.
Theorem C14_history : forall quad m1 m2 a0 n dts tm, 0 < m1 -> 0 < m2 -> 0 < a0 -> List.Forall (fun t => 0 <= t) dts ->
  get_t_merge_circ_sc None (Some (Fin m1)) (Some (Fin m2)) (Some (Fin a0)) None = Ok (Fin tm) -> Rsum dts < tm ->
  exists a, circ_run quad m1 m2 a0 n dts = Ok (Fin a) /\
            circ_call quad m1 m2 a0 n [Fin (Rsum dts)] ["a"%string] = Ok (Single (E1 [Fin a])).
Proof. exact circ_history. Qed.
Print Assumptions C14_history.
(** A history of two non-zero steps that fits before the merger. *)
Example C14_satisfiable : exists tm, 0 < tm /\
  get_t_merge_circ_sc None (Some (Fin 1)) (Some (Fin 1)) (Some (Fin 1)) None = Ok (Fin tm) /\
  Rsum [tm / 4; tm / 4] < tm /\ List.Forall (fun t => 0 <= t) [tm / 4; tm / 4].
Proof.
  pose proof (betaR_pos 1 1 ltac:(lra) ltac:(lra)) as Hb. pose proof (tmR_pos (betaR 1 1) 1 Hb ltac:(lra)) as P.
  exists (tmR (betaR 1 1) 1). split; auto. split; [apply merge_circ_sc; lra|].
  split; [unfold Rsum; simpl; lra|]. repeat constructor; lra.
Qed.

(** ** C15: merged exactly from get_t_merge_circ on; countdown *)
Theorem C15_merged_iff : forall quad m1 m2 a0 n t tm, 0 < m1 -> 0 < m2 -> 0 < a0 ->
  get_t_merge_circ_sc None (Some (Fin m1)) (Some (Fin m2)) (Some (Fin a0)) None = Ok (Fin tm) ->
  (circ_call quad m1 m2 a0 n [Fin t] ["a"%string] = Ok (Single (E1 [Fin 0])) <-> tm <= t).
Proof. exact circ_merged_iff. Qed.
Print Assumptions C15_merged_iff.
Theorem C15_countdown : forall quad m1 m2 a0 n t tm, 0 < m1 -> 0 < m2 -> 0 < a0 ->
  get_t_merge_circ_sc None (Some (Fin m1)) (Some (Fin m2)) (Some (Fin a0)) None = Ok (Fin tm) -> t < tm ->
  exists a, circ_call quad m1 m2 a0 n [Fin t] ["a"%string] = Ok (Single (E1 [Fin a])) /\
    get_t_merge_circ_sc None (Some (Fin m1)) (Some (Fin m2)) (Some (Fin a)) None = Ok (Fin (tm - t)).
Proof. exact circ_countdown. Qed.
Print Assumptions C15_countdown.
Example C15_satisfiable : exists tm, 0 < tm /\
  get_t_merge_circ_sc None (Some (Fin 1)) (Some (Fin 1)) (Some (Fin 1)) None = Ok (Fin tm) /\ tm / 2 < tm.
Proof. destruct C14_satisfiable as [tm [A [B _]]]. exists tm. split; auto. split; auto. lra. Qed.

(** ** C16: the two circular frequency evolutions agree *)
Theorem C16_same_frequency : forall quad m1 m2 f t n mf mc tm a, 0 < m1 -> 0 < m2 -> 0 < f ->
  chirp_mass (Fin m1) (Fin m2) = Fin mc ->
  get_t_merge_circ_sc None (Some (Fin m1)) (Some (Fin m2)) None (Some (Fin f)) = Ok (Fin tm) ->
  circ_call_freq quad m1 m2 f n [Fin t] ["a"%string] = Ok (Single (E1 [Fin a])) -> a <> tiny ->
  (t < tm -> exists x, evolve_f_orb_circ [Fin f] [Fin mc] [Fin t] [Fin 0] mf = Ok [Fin x] /\
                       circ_call_freq quad m1 m2 f n [Fin t] ["f_orb"%string] = Ok (Single (E1 [Fin x]))) /\
  (tm < t -> evolve_f_orb_circ [Fin f] [Fin mc] [Fin t] [Fin 0] mf = Ok [mf] /\ a = 0) /\
  (t = tm -> evolve_f_orb_circ [Fin f] [Fin mc] [Fin t] [Fin 0] mf = Ok [PInf] /\ a = 0).
Proof. exact circ_agree. Qed.
Print Assumptions C16_same_frequency.
Example C16_satisfiable : exists mc tm, chirp_mass (Fin 3) (Fin 2) = Fin mc /\
  get_t_merge_circ_sc None (Some (Fin 3)) (Some (Fin 2)) None (Some (Fin 1)) = Ok (Fin tm).
Proof. do 2 eexists. split; [apply chirp_mass_fin; lra|]. apply merge_circ_sc_f; lra. Qed.

(** ** C17: the stationarity estimate is conservative *)
Theorem C17_estimate_is_upper_bound : forall m1 m2 T a e merge_f f0 fT mc est,
  0 < m1 -> 0 < m2 -> 0 <= T -> peters_inspiral m1 m2 T a e ->
  get_f_orb_from_a (Fin (a 0)) (Fin m1) (Fin m2) = Fin f0 ->
  get_f_orb_from_a (Fin (a T)) (Fin m1) (Fin m2) = Fin fT ->
  chirp_mass (Fin m1) (Fin m2) = Fin mc ->
  evolve_f_orb_circ [Fin f0] [Fin mc] [Fin T] [Fin (e 0)] merge_f = Ok [est] ->
  f0 <= fT /\ (est = merge_f \/ nle (Fin fT) est = true).
Proof. exact estimate_sound. Qed.
Print Assumptions C17_estimate_is_upper_bound.
(** In any population: a source labelled stationary changes its frequency by at most the tolerance. 1e9 Hz is the
    frequency the code assigns to binaries it considers merged. *)
Theorem C17_stationary_sources_barely_change :
  forall X (xs : list X) (f mc T : X -> R) (e0 : X -> R) tol labels i x,
  determine_stationarity (map (fun x => Fin (f x)) xs) (map (fun x => Fin (T x)) xs) (map (fun x => Fin (e0 x)) xs)
     None None (Some (map (fun x => Fin (mc x)) xs)) (Fin tol) = Ok labels ->
  nth_error xs i = Some x -> nth_error labels i = Some true -> f x * (1 + tol) < 1000000000 -> 0 <= T x ->
  forall m1 m2 a e fT, 0 < m1 -> 0 < m2 -> chirp_mass (Fin m1) (Fin m2) = Fin (mc x) ->
  peters_inspiral m1 m2 (T x) a e -> e 0 = e0 x ->
  get_f_orb_from_a (Fin (a 0)) (Fin m1) (Fin m2) = Fin (f x) ->
  get_f_orb_from_a (Fin (a (T x))) (Fin m1) (Fin m2) = Fin fT ->
  0 <= (fT - f x) / f x <= tol.
Proof. exact stationarity_sound. Qed.
Print Assumptions C17_stationary_sources_barely_change.
(** A Peters inspiral: the one of C07 with a = aeR e (m1 = m2 = 1, c0 = 1). *)
Example C17_satisfiable : exists T a e, 0 < T /\ peters_inspiral 1 1 T a e /\ e 0 = 1/2.
Proof.
  pose proof (betaR_pos 1 1 ltac:(lra) ltac:(lra)) as Hb. pose proof (I514_pos (1/2) ltac:(lra)) as P.
  assert (K : 0 < 12/19 * 1 ^ 4 / betaR 1 1 * I514 (1/2)) by (apply Rmult_lt_0_compat; auto; apply Rdiv_lt_0_compat; lra).
  destruct (trajectory_exists (betaR 1 1) 1 (1/2) (12/19 * 1 ^ 4 / betaR 1 1 * I514 (1/2) / 2)) as [e [A B]]; try lra.
  exists (12/19 * 1 ^ 4 / betaR 1 1 * I514 (1/2) / 2), (fun t => aeR (e t) 1), e.
  split; [lra|]. split; auto. apply follows_inspiral; auto; lra.
Qed.

(** ** C18: stationarity is monotone; merged binaries are not stationary *)
Theorem C18_monotone : forall X (xs : list X) (f mc mc' t t' e e' : X -> R) tol tol',
  (forall x, In x xs -> 0 < f x /\ 0 < mc x <= mc' x /\ 0 <= t x <= t' x /\ 0 <= e x <= e' x /\ e' x < 1
                        /\ f x * (1 + tol) < 1000000000) -> -1 < tol' <= tol ->
  let run mc t e tol := determine_stationarity (map (fun x => Fin (f x)) xs) (map (fun x => Fin (t x)) xs)
     (map (fun x => Fin (e x)) xs) None None (Some (map (fun x => Fin (mc x)) xs)) (Fin tol) in
  exists l l', run mc t e tol = Ok l /\ run mc' t' e' tol' = Ok l' /\ length l = length xs /\ length l' = length xs /\
    forall i, nth_error l' i = Some true -> nth_error l i = Some true.
Proof. exact stationarity_mono. Qed.
Print Assumptions C18_monotone.
Theorem C18_merged_not_stationary : forall quad m1 m2 a e f mc T t tol,
  quad_exact quad -> 0 < m1 -> 0 < m2 -> 0 < a -> 0 <= e < 1 ->
  get_f_orb_from_a (Fin a) (Fin m1) (Fin m2) = Fin f -> chirp_mass (Fin m1) (Fin m2) = Fin mc ->
  get_t_merge_ecc_sc quad (Fin e) (Some (Fin a)) None None (Some (Fin m1)) (Some (Fin m2))
                    small_e_tol_default large_e_tol_default true = Ok (Fin t) ->
  t <= T -> f * (1 + tol) < 1000000000 ->
  determine_stationarity [Fin f] [Fin T] [Fin e] None None (Some [Fin mc]) (Fin tol) = Ok [false].
Proof. exact merged_not_stationary_thm. Qed.
Print Assumptions C18_merged_not_stationary.
Theorem C18_component_masses : forall X (xs : list X) (f t e m1 m2 : X -> num) tol,
  determine_stationarity (map f xs) (map t xs) (map e xs) (Some (map m1 xs)) (Some (map m2 xs)) None tol =
  determine_stationarity (map f xs) (map t xs) (map e xs) None None
                         (Some (map (fun x => chirp_mass (m1 x) (m2 x)) xs)) tol.
Proof. exact stationarity_masses_thm. Qed.
Print Assumptions C18_component_masses.
Theorem C18_missing_masses : forall f t e m1 m2 tol, m1 = None \/ m2 = None ->
  determine_stationarity f t e m1 m2 None tol = Err ValueError.
Proof. exact stationarity_no_masses. Qed.
Print Assumptions C18_missing_masses.
Example C18_satisfiable : forall x, In x [1; 2] -> 0 < x / 1000 /\ 0 < 1 <= 2 /\ 0 <= 1 <= 3 /\ 0 <= x / 10 <= x / 5
  /\ x / 5 < 1 /\ x / 1000 * (1 + 1/100) < 1000000000.
Proof. intros x [<-|[<-|[]]]; lra. Qed.

(** ** C19: eccentric merger times are bounded by circular ones *)
Theorem C19_merger_time_bounds : forall quad m1 m2 a e, quad_exact quad -> 0 < m1 -> 0 < m2 -> 0 < a -> 0 <= e < 1 ->
  exists t tc, get_t_merge_ecc_sc quad (Fin e) (Some (Fin a)) None None (Some (Fin m1)) (Some (Fin m2))
                    small_e_tol_default large_e_tol_default true = Ok (Fin t) /\
    get_t_merge_circ_sc None (Some (Fin m1)) (Some (Fin m2)) (Some (Fin a)) None = Ok (Fin tc) /\
    0 < t <= tc /\ tc / enhancement e <= t /\ (e = 0 -> t = tc).
Proof. exact merge_bounds_thm. Qed.
Print Assumptions C19_merger_time_bounds.
Example C19_satisfiable : quad_exact quad_model /\ 0 < 1 /\ 0 <= 1/2 < 1.
Proof. split; [exact quad_model_exact|lra]. Qed.

(** ** C20: the merger time counts down along the inspiral *)
Theorem C20_countdown : forall quad b c0 T e small large t,
  quad_exact quad -> 0 < b -> 0 < c0 -> follows_de_dt b c0 T e ->
  (forall s, 0 <= s <= T -> small <= e s <= large) -> 0 <= t <= T ->
  exists tm : R -> R,
    (forall s, 0 <= s <= T -> exists a, get_a_from_ecc (Fin (e s)) (Fin c0) = Fin a /\
       get_t_merge_ecc_sc quad (Fin (e s)) (Some (Fin a)) None (Some (Fin b)) None None (Fin small) (Fin large) true
       = Ok (Fin (tm s))) /\
    is_derive tm t (-1) /\ tm t = tm 0 - t.
Proof. exact countdown_thm. Qed.
Print Assumptions C20_countdown.
Example C20_satisfiable : exists T e, 0 < T /\ follows_de_dt 1 1 T e /\ forall s, 0 <= s <= T -> 0 <= e s <= 1.
Proof.
  destruct C07_satisfiable as [T [e [HT [HF _]]]]. exists T, e. split; auto. split; auto.
  intros s Hs. destruct (HF s Hs) as [H _]. lra.
Qed.

(** ** C21: array calls = scalar calls *)
Theorem C21_array_is_scalar : forall quad X (e : X -> num) a f beta m1 m2 (xs : list X) small large exact,
  xs <> [] -> 0 < small <= large -> (forall x, In x xs -> exists r, e x = Fin r /\ 0 <= r <= 1) ->
  get_t_merge_ecc quad (map e xs) (omap xs a) (omap xs f) (omap xs beta) (omap xs m1) (omap xs m2)
                  (Fin small) (Fin large) exact
  = mapM (fun x => get_t_merge_ecc_sc quad (e x) (oget x a) (oget x f) (oget x beta) (oget x m1) (oget x m2)
                  (Fin small) (Fin large) exact) xs.
Proof. exact (fun quad X => @merge_array_scalar quad X). Qed.
Print Assumptions C21_array_is_scalar.
(** The hypothesis on the tolerances is needed: with small_e_tol > large_e_tol the two calls disagree. *)
Theorem C21_crossed_tolerances_refuted : forall quad, exists t t',
  get_t_merge_ecc quad [Fin (3/10)] (Some [Fin 1]) None (Some [Fin 1]) None None (Fin (1/2)) (Fin (1/10)) true = Ok [Fin t] /\
  get_t_merge_ecc_sc quad (Fin (3/10)) (Some (Fin 1)) None (Some (Fin 1)) None None (Fin (1/2)) (Fin (1/10)) true = Ok (Fin t') /\
  t' < t.
Proof. exact crossed_tolerances. Qed.
Print Assumptions C21_crossed_tolerances_refuted.
Example C21_satisfiable : forall x, In x [0; 1/2; 1] -> exists r, Fin x = Fin r /\ 0 <= r <= 1.
Proof. intros x [<-|[<-|[<-|[]]]]; eexists; (split; [reflexivity|lra]). Qed.

(** ** C22: input checking *)
Theorem C22_accepts_iff : forall beta m1 m2 a f,
  (exists r, check_sc beta m1 m2 a f = Ok r) <->
  ((beta <> None \/ (m1 <> None /\ m2 <> None)) /\ (a <> None \/ (f <> None /\ m1 <> None /\ m2 <> None))).
Proof. exact check_accepts. Qed.
Print Assumptions C22_accepts_iff.
Theorem C22_rejects_with_ValueError : forall beta m1 m2 a f,
  (forall r, check_sc beta m1 m2 a f <> Ok r) -> check_sc beta m1 m2 a f = Err ValueError.
Proof. exact check_rejects. Qed.
Print Assumptions C22_rejects_with_ValueError.
Theorem C22_values : forall b m1 m2 a f r, check_sc b m1 m2 a f = Ok r ->
  (forall x, b = Some x -> fst r = x) /\ (forall x, a = Some x -> snd r = x) /\
  (forall x y, b = None -> m1 = Some x -> m2 = Some y -> fst r = beta x y) /\
  (forall g x y, a = None -> f = Some g -> m1 = Some x -> m2 = Some y -> snd r = get_a_from_f_orb g x y).
Proof. exact check_values. Qed.
Print Assumptions C22_values.
Theorem C22_population : forall X (xs : list X) beta m1 m2 a f, xs <> [] ->
  check_arr (omap xs beta) (omap xs m1) (omap xs m2) (omap xs a) (omap xs f) =
  match mapM (fun x => check_sc (oget x beta) (oget x m1) (oget x m2) (oget x a) (oget x f)) xs with
  | Ok l => Ok (map fst l, map snd l)
  | Err er => Err er
  end.
Proof. exact check_population. Qed.
Print Assumptions C22_population.
Example C22_satisfiable : exists r, check_sc None (Some (Fin 1)) (Some (Fin 1)) None (Some (Fin 1)) = Ok r.
Proof. apply check_accepts. split; right; repeat split; discriminate. Qed.

(** ** C23: timestep arrays *)
Theorem C23_rows : forall quad a b e n (T : list R), (2 <= n)%nat ->
  exists rows, create_timesteps_array quad a b e (TArr (map Fin T)) n SNone = Ok rows /\
    Forall2 (equally_spaced n) T rows.
Proof. exact steps_rows. Qed.
Print Assumptions C23_rows.
Theorem C23_row_shape : forall n T row, (2 <= n)%nat -> equally_spaced n T row ->
  nth_error row 0 = Some (Fin 0) /\ nth_error row (n - 1) = Some (Fin T) /\
  (0 <= T -> forall i j x y, (i <= j)%nat -> nth_error row i = Some (Fin x) -> nth_error row j = Some (Fin y) -> x <= y).
Proof. exact spaced_facts. Qed.
Print Assumptions C23_row_shape.
Theorem C23_scalar_t_evol : forall quad a b e n t,
  create_timesteps_array quad a b e (TScalar t) n SNone
  = create_timesteps_array quad a b e (TArr (repeat t (length a))) n SNone.
Proof. exact steps_scalar. Qed.
Print Assumptions C23_scalar_t_evol.
Theorem C23_default_is_merger_time : forall quad a b e n tm,
  get_t_merge_ecc quad e (Some a) None (Some b) None None small_e_tol_default large_e_tol_default true = Ok tm ->
  create_timesteps_array quad a b e TNone n SNone = create_timesteps_array quad a b e (TArr tm) n SNone.
Proof. exact steps_default. Qed.
Print Assumptions C23_default_is_merger_time.
Theorem C23_given_steps : forall quad a b e te n l1 l2,
  create_timesteps_array quad a b e te n (S1 l1) = Ok (repeat l1 (length a)) /\
  create_timesteps_array quad a b e te n (S2 l2) = Ok l2.
Proof. exact steps_given. Qed.
Print Assumptions C23_given_steps.
Example C23_satisfiable : equally_spaced 3 4 [Fin (0 / 2 * 4); Fin (1 / 2 * 4); Fin (2 / 2 * 4)].
Proof.
  split; auto. intros [|[|[|k]]] H; try lia; simpl; do 2 f_equal; lra.
Qed.

(** ** C24: avoid_merger *)
Theorem C24_avoid_merger : forall quad odeint sched n_proc n X (xs : list X) (e a b : X -> num) (tm : X -> R) tb (r : X -> list R) ex,
  complete_schedule (length xs) sched -> (forall x, In x xs -> sorted (0 :: r x)) ->
  exists r' : X -> list R,
    (exists caller, evol_ecc quad odeint sched (PArr (map e xs)) TNone n (S2 (map (fun x => map Fin (0 :: r x)) xs))
      (PQArr (map b xs) tt) PNone PNone (PQArr (map a xs) tt) PNone ["timesteps"%string] n_proc true ex (Fin tb)
      (Some (map (fun x => Fin (tm x)) xs))
    = Ok (Single (E2 (map (fun x => map Fin (r' x)) xs)), caller)) /\
    forall x, In x xs -> kept_before (tm x - tb) (0 :: r x) (r' x).
Proof. exact avoid_merger_thm. Qed.
Print Assumptions C24_avoid_merger.
Example C24_satisfiable : complete_schedule 2 [1%nat; 0%nat] /\ sorted (0 :: [1; 2]).
Proof.
  split. { intros [|[|i]] H; simpl; auto; lia. }
  intros [|[|[|i]]] [|[|[|j]]] Hij Hj; simpl in *; try lia; lra.
Qed.

(** ** C25: the number of processes and the pool's schedule do not matter *)
Theorem C25_pool : forall quad odeint sched sched1 ecc_i t_evol n ts b m1 m2 a f vars n_proc am ex tb tm r,
  evol_ecc quad odeint sched1 ecc_i t_evol n ts b m1 m2 a f vars 1 am ex tb tm = Ok r ->
  (forall k, arr_of (fst (ensure_array_one ecc_i)) = Some k -> complete_schedule (length k) sched) ->
  evol_ecc quad odeint sched ecc_i t_evol n ts b m1 m2 a f vars n_proc am ex tb tm = Ok r.
Proof. exact evol_ecc_pool. Qed.
Print Assumptions C25_pool.
(** Where the single-process call fails the parallel one may succeed: a length-one separation with two eccentricities
    raises IndexError with one process, and with two processes silently returns one row. *)
Theorem C25_broadcast_refuted : forall quad odeint,
  evol_ecc quad odeint [0%nat] (PArr [Fin (1/2); Fin (1/4)]) TNone 3 (S1 [Fin 0; Fin 1])
      (PQArr [Fin 1] tt) PNone PNone (PQArr [Fin 1] tt) PNone ["ecc"%string] 1 false true (Fin 0) None
    = Err IndexError /\
  evol_ecc quad odeint [0%nat] (PArr [Fin (1/2); Fin (1/4)]) TNone 3 (S1 [Fin 0; Fin 1])
      (PQArr [Fin 1] tt) PNone PNone (PQArr [Fin 1] tt) PNone ["ecc"%string] 2 false true (Fin 0) None
    = Ok (Single (E2 [ecc_row odeint (Fin (1/2)) (Fin 1) (Fin 1) [Fin 0; Fin 1]]), S1 [Fin 0; Fin 1]).
Proof. exact evol_ecc_pool_truncates. Qed.
Print Assumptions C25_broadcast_refuted.
Example C25_satisfiable : forall quad odeint,
  exists r, evol_ecc quad odeint [] (PArr [Fin (1/2); Fin (1/4)]) TNone 3 (S1 [Fin 0; Fin 1])
      (PQArr [Fin 1; Fin 2] tt) PNone PNone (PQArr [Fin 1; Fin 2] tt) PNone ["ecc"%string] 1 false true (Fin 0) None = Ok r.
Proof. intros. eexists. reflexivity. Qed.

(** ** C26: the caller's arrays *)
(** The second component of evol_ecc's result is the caller's timesteps argument after the call. *)
Theorem C26_caller_arrays_refuted : forall quad odeint,
  exists out, evol_ecc quad odeint [] (PArr [Fin (1/2)]) TNone 3 (S2 [map Fin (0 :: [1; 2])])
      (PQArr [Fin 1] tt) PNone PNone (PQArr [Fin 1] tt) PNone ["timesteps"%string] 1 true true (Fin 0) (Some [Fin 1])
    = Ok (out, S2 [map Fin [0; 0; 0]]).
Proof. exact evol_ecc_overwrites. Qed.
Print Assumptions C26_caller_arrays_refuted.
Theorem C26_shared_steps_kept_partial : forall quad odeint sched ec t_evol n ts b m1 m2 a f vars n_proc am ex tb tm out ts',
  (forall l, ts <> S2 l) ->
  evol_ecc quad odeint sched ec t_evol n ts b m1 m2 a f vars n_proc am ex tb tm = Ok (out, ts') -> ts' = ts.
Proof. exact evol_ecc_frame. Qed.
Print Assumptions C26_shared_steps_kept_partial.
Theorem C26_no_avoid_merger_kept_partial : forall quad odeint sched ec t_evol n ts b m1 m2 a f vars n_proc ex tb tm out ts',
  evol_ecc quad odeint sched ec t_evol n ts b m1 m2 a f vars n_proc false ex tb tm = Ok (out, ts') -> ts' = ts.
Proof. exact evol_ecc_frame_no_avoid. Qed.
Print Assumptions C26_no_avoid_merger_kept_partial.
Example C26_satisfiable : forall quad odeint,
  exists out, evol_ecc quad odeint [] (PArr [Fin (1/2); Fin (1/4)]) TNone 3 (S1 [Fin 0; Fin 1])
      (PQArr [Fin 1; Fin 2] tt) PNone PNone (PQArr [Fin 1; Fin 2] tt) PNone ["ecc"%string] 1 false true (Fin 0) None
      = Ok (out, S1 [Fin 0; Fin 1]).
Proof. intros. eexists. reflexivity. Qed.

(** ** C27: output_vars *)
Theorem C27_circ_arrays : forall quad t_evol n ts X (m1 m2 a : X -> num) (xs : list X), shared_steps t_evol ts ->
  exists (value : string -> option evo) (steps seps freqs : list (list num)),
    (forall vars, evol_circ quad t_evol n ts PNone (PQArr (map m1 xs) tt) (PQArr (map m2 xs) tt) (PQArr (map a xs) tt) PNone vars
                  = collect value vars) /\
    value "timesteps"%string = Some (E2 steps) /\ value "a"%string = Some (E2 seps) /\
    value "f_orb"%string = Some (E2 freqs) /\ value "f_GW"%string = Some (double_evo (E2 freqs)) /\
    (forall v, ~ In v ["timesteps"; "a"; "f_orb"; "f_GW"]%string -> value v = None).
Proof. exact circ_outputs_arr. Qed.
Print Assumptions C27_circ_arrays.
Theorem C27_circ_scalars : forall quad t_evol n ts (m1 m2 a : num), shared_steps t_evol ts ->
  exists (value : string -> option evo) (steps seps freqs : list num),
    (forall vars, evol_circ quad t_evol n ts PNone (PQScalar m1 tt) (PQScalar m2 tt) (PQScalar a tt) PNone vars
                  = collect value vars) /\
    value "timesteps"%string = Some (E1 steps) /\ value "a"%string = Some (E1 seps) /\
    value "f_orb"%string = Some (E1 freqs) /\ value "f_GW"%string = Some (double_evo (E1 freqs)) /\
    (forall v, ~ In v ["timesteps"; "a"; "f_orb"; "f_GW"]%string -> value v = None).
Proof. exact circ_outputs_sc. Qed.
Print Assumptions C27_circ_scalars.
Theorem C27_ecc_arrays : forall quad odeint sched n_proc t_evol n ts am ex tb X (ec m1 m2 a : X -> num) (xs : list X),
  shared_steps t_evol ts -> (1 <= n)%nat -> ts <> S1 [] -> (forall x, exists r, ec x = Fin r /\ 0 <= r <= 1) ->
  complete_schedule (length xs) sched ->
  exists (value : string -> option evo) (steps eccs seps freqs : list (list num)),
    (forall vars, (r <- evol_ecc quad odeint sched (PArr (map ec xs)) t_evol n ts PNone (PQArr (map m1 xs) tt)
                    (PQArr (map m2 xs) tt) (PQArr (map a xs) tt) PNone vars n_proc am ex tb None ;; Ok (fst r))%res
                  = collect value vars) /\
    value "timesteps"%string = Some (E2 steps) /\ value "ecc"%string = Some (E2 eccs) /\
    value "a"%string = Some (E2 seps) /\
    value "f_orb"%string = Some (E2 freqs) /\ value "f_GW"%string = Some (double_evo (E2 freqs)) /\
    (forall v, ~ In v ["timesteps"; "ecc"; "a"; "f_orb"; "f_GW"]%string -> value v = None).
Proof. exact ecc_outputs_arr. Qed.
Print Assumptions C27_ecc_arrays.
Theorem C27_circ_needs_masses : forall quad t_evol n ts b m1 m2 a f vars,
  (In "f_orb"%string vars \/ In "f_GW"%string vars) -> (m1 = PNone \/ m2 = PNone) ->
  evol_circ quad t_evol n ts b m1 m2 a f vars = Err ValueError.
Proof. exact circ_no_masses'. Qed.
Print Assumptions C27_circ_needs_masses.
Theorem C27_ecc_needs_masses : forall quad odeint sched ec t_evol n ts b m1 m2 a f vars n_proc am ex tb tm,
  (In "f_orb"%string vars \/ In "f_GW"%string vars) -> (m1 = PNone \/ m2 = PNone) ->
  evol_ecc quad odeint sched ec t_evol n ts b m1 m2 a f vars n_proc am ex tb tm = Err ValueError.
Proof. exact ecc_no_masses. Qed.
Print Assumptions C27_ecc_needs_masses.
Example C27_satisfiable : shared_steps (TScalar (Fin 1)) SNone /\ shared_steps TNone (S1 [Fin 0; Fin 1]).
Proof. repeat split; intros l; discriminate. Qed.

(** ** C74: sources are evolved independently; arrays and scalars agree *)
Theorem C74_circ_rows_are_scalar_calls : forall quad t_evol n ts (X : Type) (m1 m2 a : X -> num) (xs : list X) var,
  shared_steps t_evol ts -> In var ["timesteps"; "a"; "f_orb"; "f_GW"]%string ->
  exists row : X -> list num,
    evol_circ quad t_evol n ts PNone (PQArr (map m1 xs) tt) (PQArr (map m2 xs) tt) (PQArr (map a xs) tt) PNone [var]
    = Ok (Single (E2 (map row xs))) /\
    forall x, evol_circ quad t_evol n ts PNone (PQScalar (m1 x) tt) (PQScalar (m2 x) tt) (PQScalar (a x) tt) PNone [var]
              = Ok (Single (E1 (row x))).
Proof. exact circ_local. Qed.
Print Assumptions C74_circ_rows_are_scalar_calls.
Theorem C74_ecc_rows_are_scalar_calls :
  forall quad odeint sched sched1 t_evol n ts n_proc am ex tb (X : Type) (ec m1 m2 a : X -> num) (xs : list X) var,
  shared_steps t_evol ts -> (1 <= n)%nat -> ts <> S1 [] ->
  (forall x, exists r, ec x = Fin r /\ 0 <= r <= 1) ->
  complete_schedule (length xs) sched -> complete_schedule 1 sched1 ->
  In var ["timesteps"; "ecc"; "a"; "f_orb"; "f_GW"]%string ->
  exists row : X -> list num,
    evol_ecc quad odeint sched (PArr (map ec xs)) t_evol n ts PNone (PQArr (map m1 xs) tt) (PQArr (map m2 xs) tt)
             (PQArr (map a xs) tt) PNone [var] n_proc am ex tb None
    = Ok (Single (E2 (map row xs)), ts) /\
    forall x, evol_ecc quad odeint sched1 (POther (ec x)) t_evol n ts PNone (PQScalar (m1 x) tt) (PQScalar (m2 x) tt)
             (PQScalar (a x) tt) PNone [var] n_proc am ex tb None
              = Ok (Single (E1 (row x)), ts).
Proof. exact ecc_local. Qed.
Print Assumptions C74_ecc_rows_are_scalar_calls.
Example C74_satisfiable : complete_schedule 3 [2%nat; 0%nat; 1%nat] /\ complete_schedule 1 [0%nat].
Proof. split; intros [|[|[|i]]] H; simpl; auto; lia. Qed.

(** ** C75: with an exact integrator evol_ecc samples a true Peters inspiral *)
Theorem C75_samples_peters_inspiral : forall quad odeint sched n_proc n m1 m2 a0 e0 b c0 T e ts, odeint_exact odeint ->
  0 < m1 -> 0 < m2 -> 0 < a0 -> 0 < e0 < 1 -> 0 <= T -> complete_schedule 1 sched ->
  beta (Fin m1) (Fin m2) = Fin b -> c_0 (Fin a0) (Fin e0) = Fin c0 -> e 0 = e0 -> follows_de_dt b c0 T e ->
  sorted (0 :: ts) -> (forall t, In t ts -> t <= T) ->
  let call var := evol_ecc quad odeint sched (POther (Fin e0)) TNone n (S1 (map Fin (0 :: ts))) PNone (PQScalar (Fin m1) tt)
       (PQScalar (Fin m2) tt) (PQScalar (Fin a0) tt) PNone [var] n_proc false true (Fin 0) None in
  exists a f : R -> R,
    a 0 = a0 /\ peters_inspiral m1 m2 T a e /\
    (forall t, 0 <= t <= T -> a t <> tiny -> kepler_third_law m1 m2 (a t) (f t)) /\
    call "ecc"%string = Ok (Single (E1 (map (fun t => Fin (e t)) (0 :: ts))), S1 (map Fin (0 :: ts))) /\
    call "a"%string = Ok (Single (E1 (map (fun t => Fin (a t)) (0 :: ts))), S1 (map Fin (0 :: ts))) /\
    call "f_orb"%string = Ok (Single (E1 (map (fun t => Fin (f t)) (0 :: ts))), S1 (map Fin (0 :: ts))).
Proof. exact evol_ecc_exact. Qed.
Print Assumptions C75_samples_peters_inspiral.
(** An exact integrator exists; trajectories exist by C07_trajectories_exist. *)
Example C75_satisfiable : odeint_exact odeint_model.
Proof. exact odeint_model_exact. Qed.
