(** AccuracySpec.v -- vocabulary for the theorems about the approximate merger times. *)
From Coq Require Import Reals ZArith List Bool.
From Verif Require Import Num Utils Evol.
Import ListNotations.
Open Scope R_scope.

(** get_t_merge_ecc for one source given by its masses, separation and eccentricity. *)
Definition merger_time (quad : quad_t) (m1 m2 a e : R) (small large : num) (exact : bool) : res num :=
  get_t_merge_ecc_sc quad (Fin e) (Some (Fin a)) None None (Some (Fin m1)) (Some (Fin m2)) small large exact.
(** Peters' integral for every eccentricity: no approximation for small or large ones. *)
Definition peters_time (quad : quad_t) (m1 m2 a e : R) : res num := merger_time quad m1 m2 a e (Fin 0) (Fin 1) true.
(** Mandel (2021): T / T_circ = (1 + 0.27 e^10 + 0.33 e^20 + 0.2 e^1000) (1 - e^2)^(7/2). *)
Definition mandel_2021 (e : R) : R :=
  (1 + 0.27 * e ^ 10 + 0.33 * e ^ 20 + 0.2 * e ^ Z.to_nat 1000) * sqrt (1 - e ^ 2) ^ 7.
(** LEGWORK's correction polynomial, lowest degree first. *)
Definition correction (e : R) : R :=
  0.993382093 + e * (0.532494018 + e * (-13.2267683 + e * (154.873214 + e * (-979.864734 + e * (3694.47796
  + e * (-8662.81737 + e * (12730.6422 + e * (-11393.5479 + e * (5672.11219 + e * (-1203.17749)))))))))).
