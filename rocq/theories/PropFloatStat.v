(** PropFloatStat.v -- C118: stationary binaries are recognised in double precision.

    [stationary_computed] and [evolve_f_computed] (FloatStat.v) do what the code does with a rounding after every operation;
    [determine_stationarity] and [evolve_f_orb_circ] (Evol.v) are the exact functions the other files are about. *)
From Coq Require Import Reals ZArith List Lra Lia.
From Verif Require Import Num NumFacts Np Utils Evol Float FloatSpec FloatFacts FloatThms FloatIEEE FloatStat FloatStatFacts FloatStatMass.
Import ListNotations.
Open Scope R_scope.

(** ** C118 *)
(** A binary that is stationary even with a tolerance smaller by 1e-9 / (1 - e^2) is found stationary, *)
Theorem C118_stationary : forall d, ieee d -> least d -> forall f t e mc tol,
  within 60 f -> f <= 2 ^ 20 -> within 200 t -> eccentricity e -> / 10 ^ 6 <= 1 - e ^ 2 -> within 140 mc -> 0 < tol <= 1 ->
  determine_stationarity [Fin f] [Fin t] [Fin e] None None (Some [Fin mc]) (Fin (tol - / 10 ^ 9 / (1 - e ^ 2))) = Ok [true] ->
  stationary_computed d f t e mc tol = true.
Proof. exact computed_true. Qed.
Print Assumptions C118_stationary.
(** and one that is not, even with a tolerance larger by that, is found evolving. *)
Theorem C118_evolving : forall d, ieee d -> least d -> forall f t e mc tol,
  within 60 f -> f <= 2 ^ 20 -> within 200 t -> eccentricity e -> / 10 ^ 6 <= 1 - e ^ 2 -> within 140 mc -> 0 < tol <= 1 ->
  determine_stationarity [Fin f] [Fin t] [Fin e] None None (Some [Fin mc]) (Fin (tol + / 10 ^ 9 / (1 - e ^ 2))) = Ok [false] ->
  stationary_computed d f t e mc tol = false.
Proof. exact computed_false. Qed.
Print Assumptions C118_evolving.
(** The same for a binary given by its two masses, whose chirp mass is computed in double precision too (evol.py L702-703). *)
Theorem C118_stationary_masses : forall d, ieee d -> least d -> forall f t e m1 m2 tol,
  within 60 f -> f <= 2 ^ 20 -> within 200 t -> eccentricity e -> / 10 ^ 6 <= 1 - e ^ 2 -> within 139 m1 -> within 139 m2 -> 0 < tol <= 1 ->
  determine_stationarity [Fin f] [Fin t] [Fin e] (Some [Fin m1]) (Some [Fin m2]) None (Fin (tol - 2 * (/ 10 ^ 9 / (1 - e ^ 2)))) = Ok [true] ->
  stationary_computed d f t e (computed d (args [m1; m2]) chirp_mass_ex) tol = true.
Proof. exact masses_true. Qed.
Print Assumptions C118_stationary_masses.
Theorem C118_evolving_masses : forall d, ieee d -> least d -> forall f t e m1 m2 tol,
  within 60 f -> f <= 2 ^ 20 -> within 200 t -> eccentricity e -> / 10 ^ 6 <= 1 - e ^ 2 -> within 139 m1 -> within 139 m2 -> 0 < tol <= 1 ->
  determine_stationarity [Fin f] [Fin t] [Fin e] (Some [Fin m1]) (Some [Fin m2]) None (Fin (tol + 2 * (/ 10 ^ 9 / (1 - e ^ 2)))) = Ok [false] ->
  stationary_computed d f t e (computed d (args [m1; m2]) chirp_mass_ex) tol = false.
Proof. exact masses_false. Qed.
Print Assumptions C118_evolving_masses.
(** Frequencies are evolved accurately until they have grown eightfold. *)
Theorem C118_frequency : forall d, ieee d -> least d -> forall f t e mc,
  within 60 f -> within 200 t -> eccentricity e -> / 10 ^ 6 <= 1 - e ^ 2 -> within 140 mc -> forall merge_f x,
  evolve_f_orb_circ [Fin f] [Fin mc] [Fin t] [Fin e] (Fin merge_f) = Ok [Fin x] -> x <= 8 * f -> 8 * f < merge_f ->
  exists y, evolve_f_computed d f t e mc merge_f = Fin y /\ accurate (/ 10 ^ 8 / (1 - e ^ 2)) x y.
Proof. exact frequency_accurate. Qed.
Print Assumptions C118_frequency.
(** IEEE arithmetic with Flocq's rounding meets the hypotheses; 1 mHz and 1e30 kg: stationary; 1 Hz and 1e32 kg: merges. *)
Example C118_example : ieee flocq /\ least flocq /\ within 60 (/ 10 ^ 3) /\ within 60 1 /\ within 200 (10 ^ 8) /\ within 140 (10 ^ 30) /\ within 140 (10 ^ 32) /\ eccentricity 0 /\
  determine_stationarity [Fin (/ 10 ^ 3)] [Fin (10 ^ 8)] [Fin 0] None None (Some [Fin (10 ^ 30)]) (Fin (/ 100 - / 10 ^ 9 / (1 - 0 ^ 2))) = Ok [true] /\
  determine_stationarity [Fin 1] [Fin (10 ^ 8)] [Fin 0] None None (Some [Fin (10 ^ 32)]) (Fin (/ 100 + / 10 ^ 9 / (1 - 0 ^ 2))) = Ok [false] /\
  exists x, evolve_f_orb_circ [Fin (/ 10 ^ 3)] [Fin (10 ^ 30)] [Fin (10 ^ 8)] [Fin 0] (Fin 1000000000) = Ok [Fin x] /\ x <= 8 * / 10 ^ 3.
Proof.
  assert (W : forall n m x, m = INR n -> / 2 ^ n <= x <= 2 ^ n -> within m x) by (intros n m x -> H; unfold within; now rewrite Rpower_Ropp, Rpower_pow by lra).
  split; [exact flocq_ieee|]. split; [exact flocq_least|]. split; [apply (W 60%nat); [cbn; lra|lra]|]. split; [apply (W 60%nat); [cbn; lra|lra]|].
  split; [apply (W 200%nat); [cbn; lra|lra]|]. split; [apply (W 140%nat); [cbn; lra|lra]|]. split; [apply (W 140%nat); [cbn; lra|lra]|]. split; [now left|].
  split; [exact slow|]. split; [exact fast|exact slow_frequency].
Qed.
(** Binaries of equal masses with these chirp masses. *)
Example C118_masses_example : exists m m' tol tol', within 139 m /\ within 139 m' /\ 0 < tol <= 1 /\ 0 < tol' <= 1 /\
  determine_stationarity [Fin (/ 10 ^ 3)] [Fin (10 ^ 8)] [Fin 0] (Some [Fin m]) (Some [Fin m]) None (Fin (tol - 2 * (/ 10 ^ 9 / (1 - 0 ^ 2)))) = Ok [true] /\
  determine_stationarity [Fin 1] [Fin (10 ^ 8)] [Fin 0] (Some [Fin m']) (Some [Fin m']) None (Fin (tol' + 2 * (/ 10 ^ 9 / (1 - 0 ^ 2)))) = Ok [false].
Proof.
  exists (10 ^ 30 * Rpower 2 (1/5)), (10 ^ 32 * Rpower 2 (1/5)), (/ 100 + / 10 ^ 9 / (1 - 0 ^ 2)), (/ 100 - / 10 ^ 9 / (1 - 0 ^ 2)).
  split; [apply equal_size; lra|]. split; [apply equal_size; lra|]. replace (1 - 0 ^ 2) with 1 by ring. split; [lra|]. split; [lra|].
  split.
  - unfold determine_stationarity. generalize slow. unfold determine_stationarity. cbn [rbind].
    replace (bzip chirp_mass [Fin (10 ^ 30 * Rpower 2 (1/5))] [Fin (10 ^ 30 * Rpower 2 (1/5))]) with (Ok [Fin (10 ^ 30)]) by (rewrite <- (equal_masses (10 ^ 30)) at 1 by lra; reflexivity).
    cbn [rbind]. replace (1 - 0 ^ 2) with 1 by ring. replace (/ 100 + / 10 ^ 9 / 1 - 2 * (/ 10 ^ 9 / 1)) with (/ 100 - / 10 ^ 9 / 1) by lra. auto.
  - unfold determine_stationarity. generalize fast. unfold determine_stationarity. cbn [rbind].
    replace (bzip chirp_mass [Fin (10 ^ 32 * Rpower 2 (1/5))] [Fin (10 ^ 32 * Rpower 2 (1/5))]) with (Ok [Fin (10 ^ 32)]) by (rewrite <- (equal_masses (10 ^ 32)) at 1 by lra; reflexivity).
    cbn [rbind]. replace (1 - 0 ^ 2) with 1 by ring. replace (/ 100 - / 10 ^ 9 / 1 + 2 * (/ 10 ^ 9 / 1)) with (/ 100 + / 10 ^ 9 / 1) by lra. auto.
Qed.
