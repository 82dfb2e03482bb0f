(** Properties C62-C64 and C83: evolving a Source. *)
From Coq Require Import String Reals ZArith List Lra Lia Bool.
From Verif Require Import Num Np Utils Spec Strain StrainSpec Psd Snr SnrSpec Evol EvolSpec Harmonics ScParams Source Index SourceSpec IndexSpec MethodSpec CurveSpec
  EvolveSpec EvolveFacts EvolveThms Toy Toy2 Toy3.
Import ListNotations.
Open Scope R_scope.

(** ** C83: each source evolves as the functions of evol.py evolve it *)
Theorem C83_evolve : forall x te s xs (T tm : nat -> R),
  odeint_shape (x_odeint x) -> collection s xs -> bound xs ->
  (forall i r, nth_error xs i = Some r -> merges_at x s r (Fin (tm i))) -> evolution_times te (length xs) (map T (seq 0 (length xs))) ->
  exists s', evolve_sources x te s = (s', Ok tt) /\ same_but_orbit s s' /\
    length (s_ecc s') = length xs /\ length (s_f_orb s') = length xs /\ length (s_merged s') = length xs /\
    forall i r, nth_error xs i = Some r -> exists e f b, evolves_to x (T i) (tm i) r e f b /\
      nth_error (s_ecc s') i = Some e /\ nth_error (s_f_orb s') i = Some f /\ nth_error (s_merged s') i = Some b /\
      exists tms, s_t_merge s' = Some tms /\ length tms = length xs /\ nth_error tms i = Some (Fin (Rmax 0 (tm i - T i))).
Proof. exact @evolve_thm. Qed.
Print Assumptions C83_evolve.
Example C83_satisfiable : exists s xs tm T, s = toy_of xs /\ collection s xs /\ length xs = 2%nat /\ bound xs /\ clock x_toy s xs tm /\ (forall i, (i < 2)%nat -> 0 < tm i) /\
  0 < T < tm 1%nat /\ evolution_times (TScalar (Fin T)) 2 (map (fun _ => T) (seq 0 2)) /\
  history_times 2 [TScalar (Fin T); TScalar (Fin (2 * tm 0%nat))] [(fun _ => T); (fun _ => 2 * tm 0%nat)].
Proof. exact evolve_example. Qed.

(** ** C62: any history of evolutions *)
Theorem C62_history : forall x,
  forall tes Ts s xs tm, collection s xs -> (s_t_merge s = None -> bound xs) -> clock x s xs tm -> (forall i, (i < length xs)%nat -> 0 <= tm i) ->
  history_times (length xs) tes Ts -> tes <> [] ->
  exists s' xs', evolve_all x tes s = (s', Ok tt) /\ collection s' xs' /\ length xs' = length xs /\ same_but_orbit s s' /\
    forall i r', nth_error xs' i = Some r' -> s_t_merge s' <> None /\ r_tm r' = Fin (Rmax 0 (tm i - total Ts i)) /\ (r_merged r' = true <-> tm i <= total Ts i) /\
      (r_merged r' = true -> r_f r' = Fin 100 /\ r_e r' = Fin 0).
Proof. exact @history_all. Qed.
Print Assumptions C62_history.
Theorem C62_permanent : forall x tes more Ts Ts' s xs tm s1 s2,
  collection s xs -> (s_t_merge s = None -> bound xs) -> clock x s xs tm -> (forall i, (i < length xs)%nat -> 0 <= tm i) ->
  history_times (length xs) tes Ts -> history_times (length xs) more Ts' -> tes <> [] ->
  evolve_all x tes s = (s1, Ok tt) -> evolve_all x (tes ++ more)%list s = (s2, Ok tt) ->
  forall i, nth_error (s_merged s1) i = Some true -> nth_error (s_merged s2) i = Some true /\ nth_error (s_f_orb s2) i = Some (Fin 100) /\ nth_error (s_ecc s2) i = Some (Fin 0).
Proof. exact @permanent_thm. Qed.
Print Assumptions C62_permanent.
(** The hypotheses hold in C83_satisfiable. *)
(** ** C63: circular sources in several steps or at once *)
(** Except at the instants where the separation is exactly the value 1e-30 AU that evol_circ uses to mark merged binaries. *)
Theorem C63_steps : forall x tes Ts te s xs (tm : nat -> R),
  collection s xs -> (forall i r, nth_error xs i = Some r -> circular_binary x s r (tm i)) ->
  tes <> [] -> history_times (length xs) tes Ts -> evolution_times te (length xs) (map (total Ts) (seq 0 (length xs))) ->
  (forall k i r, (0 < k < length tes)%nat -> nth_error xs i = Some r -> r_merged r = false -> unmarked x r (total (firstn k Ts) i)) ->
  evolve_all x tes s = evolve_sources x te s /\ snd (evolve_sources x te s) = Ok tt.
Proof. exact @circular_history_thm. Qed.
Print Assumptions C63_steps.
Example C63_satisfiable : exists s xs tm T1 T2, s = toy_of xs /\ collection s xs /\ length xs = 2%nat /\ (forall i r, nth_error xs i = Some r -> circular_binary x_toy s r (tm i)) /\
  history_times (length xs) [TArr (map (fun i => Fin (T1 i)) [0%nat; 1%nat]); TArr (map (fun i => Fin (T2 i)) [0%nat; 1%nat])] [T1; T2] /\
  (forall k i r, (0 < k < 2)%nat -> nth_error xs i = Some r -> r_merged r = false -> unmarked x_toy r (total (firstn k [T1; T2]) i)) /\
  0 < T1 0%nat /\ total [T1; T2] 0%nat < tm 0%nat /\ tm 1%nat <= total [T1; T2] 1%nat.
Proof. exact circular_example. Qed.

(** ** C64: create_new_class *)
(** What agrees. *)
Theorem C64_twin_partial : forall x te s xs (T tm : nat -> R),
  collection s xs -> bound xs -> (forall i r, nth_error xs i = Some r -> merges_at x s r (Fin (tm i))) ->
  evolution_times te (length xs) (map T (seq 0 (length xs))) -> own_harmonics x s -> keys (s_params s) = documented ->
  (s_position s <> None -> forall r, In r xs -> r_e r = Fin 0) ->
  exists s0 new s', evolve_new x te s = (s0, Ok new) /\ (exists tms, s0 = set_t_merge (Some tms) s) /\ twin s new /\ evolve_sources x te s = (s', Ok tt) /\ s_ecc new = s_ecc s' /\ s_f_orb new = s_f_orb s' /\ s_merged new = s_merged s' /\ s_t_merge new = s_t_merge s'.
Proof. exact @twin_thm. Qed.
Print Assumptions C64_twin_partial.
(** What is lost: weights, class, the setting interpolate_sc. *)
Theorem C64_lost_refuted : forall x te s xs (T tm : nat -> R),
  collection s xs -> bound xs -> (forall i r, nth_error xs i = Some r -> merges_at x s r (Fin (tm i))) ->
  evolution_times te (length xs) (map T (seq 0 (length xs))) -> own_harmonics x s -> keys (s_params s) = documented ->
  (s_position s <> None -> forall r, In r xs -> r_e r = Fin 0) ->
  forall new, snd (evolve_new x te s) = Ok new -> s_weights new = None /\ s_class new = KSource /\ s_interpolate_sc new = true /\ s_sc new = s_sc s.
Proof. exact @twin_refuted_thm. Qed.
Print Assumptions C64_lost_refuted.
Example C64_satisfiable : exists s xs tm T, s = toy_of xs /\ collection s xs /\ bound xs /\ (forall i r, nth_error xs i = Some r -> merges_at x_toy s r (Fin (tm i))) /\
  evolution_times (TScalar (Fin T)) (length xs) (map (fun _ => T) (seq 0 (length xs))) /\ own_harmonics x_toy s /\ keys (s_params s) = documented /\ s_position s = None /\
  s_interpolate_sc s = false.
Proof.
  destruct evolve_example as (s & xs & tm & T & -> & C & L & B & K & _ & _ & E & _). exists (toy_of xs), xs, tm, T. rewrite L.
  split; [reflexivity|]. split; [exact C|]. split; [exact B|]. split; [exact K|]. split; [exact E|]. split; [apply toy_own|]. repeat split; reflexivity.
Qed.

