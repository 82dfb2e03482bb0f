(** PropMono.v -- property C117: how merger times change with eccentricity, separation and masses. *)
From Coq Require Import Reals ZArith List Bool Lra Lia.
From Verif Require Import Num Utils Evol EvolSpec MergeFacts AccuracySpec AccuracyThms MonoFacts JumpFacts.
Import ListNotations.
Open Scope R_scope.

(** ** C117: a wider, lighter or less eccentric binary merges later *)
(** Peters' integral (get_t_merge_ecc without approximations) falls with the eccentricity, down from the circular time. *)
Theorem C117_peters : forall quad m1 m2 a e e', quad_exact quad -> 0 < m1 -> 0 < m2 -> 0 < a -> 0 <= e < e' -> e' < 1 ->
  exists t t', peters_time quad m1 m2 a e = Ok (Fin t) /\ peters_time quad m1 m2 a e' = Ok (Fin t') /\ 0 < t' < t.
Proof. intros quad m1 m2 a e e' HQ. now apply peters_falls. Qed.
Print Assumptions C117_peters.
(** With tolerances it falls between two eccentricities that are treated alike: both below the small tolerance, both from the
    small to the large tolerance, or both above the large one. *)
Theorem C117_same_regime_partial : forall quad m1 m2 a e e' small large, quad_exact quad -> 0 <= large ->
  0 < m1 -> 0 < m2 -> 0 < a -> 0 <= e < e' -> e' < 1 ->
  (e' < small \/ small <= e /\ e' <= large \/ small <= e /\ large < e) ->
  exists t t', merger_time quad m1 m2 a e (Fin small) (Fin large) true = Ok (Fin t) /\
    merger_time quad m1 m2 a e' (Fin small) (Fin large) true = Ok (Fin t') /\ t' < t.
Proof. intros quad m1 m2 a e e' small large HQ. now apply merger_falls. Qed.
Print Assumptions C117_same_regime_partial.
(** Not across the default small tolerance: every binary with 0.14 <= e < 0.15 is said to merge earlier than the same binary
    with e = 0.15. *)
Theorem C117_jump_refuted : forall quad m1 m2 a e, quad_exact quad -> 0 < m1 -> 0 < m2 -> 0 < a -> 14/100 <= e < 15/100 ->
  exists t t', merger_time quad m1 m2 a e small_e_tol_default large_e_tol_default true = Ok (Fin t) /\
    merger_time quad m1 m2 a (15/100) small_e_tol_default large_e_tol_default true = Ok (Fin t') /\ 0 < t < t'.
Proof. intros quad m1 m2 a e HQ. now apply merger_jump. Qed.
Print Assumptions C117_jump_refuted.
(** Nor across the default large tolerance, 1 - 1/10000: binaries just above it are said to merge later than the binary at it, for which
    the integral is used. *)
Theorem C117_jump_large_refuted : forall quad m1 m2 a e, quad_exact quad -> 0 < m1 -> 0 < m2 -> 0 < a -> 1 - 1/10000 < e <= 1 - 995/10000000 ->
  exists t t', merger_time quad m1 m2 a (1 - 1/10000) small_e_tol_default large_e_tol_default true = Ok (Fin t) /\
    merger_time quad m1 m2 a e small_e_tol_default large_e_tol_default true = Ok (Fin t') /\ 0 < t < t'.
Proof. exact merger_jump_large. Qed.
Print Assumptions C117_jump_large_refuted.
(** The inversion never exceeds 5%, with the default tolerances or tighter ones. *)
Theorem C117_within_5_percent_partial : forall quad m1 m2 a e e' small large, quad_exact quad ->
  0 < m1 -> 0 < m2 -> 0 < a -> 0 <= e < e' -> e' < 1 -> small <= 15/100 -> 1 - 1/10000 <= large ->
  exists t t', merger_time quad m1 m2 a e (Fin small) (Fin large) true = Ok (Fin t) /\
    merger_time quad m1 m2 a e' (Fin small) (Fin large) true = Ok (Fin t') /\ t' <= 105/100 * t.
Proof. intros quad m1 m2 a e e' small large HQ. now apply almost_falls. Qed.
Print Assumptions C117_within_5_percent_partial.
(** Whatever the tolerances and the method, the merger time is the circular one (get_t_merge_circ) times a positive number
    that depends on the eccentricity only ... *)
Theorem C117_same_ratio : forall quad e small large exact, quad_exact quad -> 0 <= e < 1 ->
  exists k, 0 < k /\ forall m1 m2 a, 0 < m1 -> 0 < m2 -> 0 < a ->
    exists c, get_t_merge_circ_sc None (Some (Fin m1)) (Some (Fin m2)) (Some (Fin a)) None = Ok (Fin c) /\
      merger_time quad m1 m2 a e (Fin small) (Fin large) exact = Ok (Fin (k * c)).
Proof. intros quad e small large exact HQ. now apply same_ratio. Qed.
Print Assumptions C117_same_ratio.
(** ... so that a binary with a wider orbit or lighter components merges later. *)
Theorem C117_wider_lighter : forall quad e small large exact m1 m2 a m1' m2' a', quad_exact quad -> 0 <= e < 1 ->
  0 < m1' <= m1 -> 0 < m2' <= m2 -> 0 < a <= a' ->
  exists t t', merger_time quad m1 m2 a e (Fin small) (Fin large) exact = Ok (Fin t) /\
    merger_time quad m1' m2' a' e (Fin small) (Fin large) exact = Ok (Fin t') /\ 0 < t <= t' /\
    (m1' < m1 \/ m2' < m2 \/ a < a' -> t < t').
Proof. intros quad e small large exact m1 m2 a m1' m2' a' HQ. now apply wider_lighter. Qed.
Print Assumptions C117_wider_lighter.
Example C117_satisfiable : quad_exact quad_model /\ 0 <= 15/100 < 1/2 /\ 15/100 <= 15/100 /\ 1/2 <= 1 - 1/10000 /\ 14/100 <= 145/1000 < 15/100 /\ 1 - 1/10000 < 1 - 998/10000000 <= 1 - 995/10000000.
Proof. split; [exact quad_model_exact|lra]. Qed.
