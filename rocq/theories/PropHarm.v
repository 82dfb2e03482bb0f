(** Properties C53-C56: the harmonic tables of a Source. *)
From Coq Require Import String Reals ZArith List Lra Lia Bool.
From Verif Require Import Num Np Utils Spec EvolSpec Interp Harmonics HarmSpec HarmThms.
Import ListNotations.
Open Scope R_scope.

(** ** C53: the tables follow gw_lum_tol *)
(** Every history of successful assignments leaves the tables of the last one. *)
Theorem C53_tables_match : forall jv lum tols h rs,
  tols <> [] -> assign_all jv lum tols no_harm = (h, rs) ->
  (forall r, In r rs -> r = Ok tt) -> tables_match jv lum h (last tols (Fin 0)).
Proof. exact @tables_thm. Qed.
Print Assumptions C53_tables_match.
(** A failing assignment repeated once is accepted silently and leaves the old ecc_tol, for every Bessel routine and table. *)
Theorem C53_failed_assignment_refuted : forall jv J lum tbl tol0 h,
  (forall k x, jv k (Fin x) = Fin (J k x)) -> lum_table lum tbl -> tol0 <> 1 ->
  assign_all jv lum [Fin tol0] no_harm = (h, [Ok tt]) ->
  exists h', assign_all jv lum [Fin 1; Fin 1] h = (h', [Err IndexError; Ok tt]) /\
    h_gw_lum_tol h' = Some (Fin 1) /\ h_ecc_tol h' = h_ecc_tol h /\ ~ tables_match jv lum h' (Fin 1).
Proof. exact @stale_thm. Qed.
Print Assumptions C53_failed_assignment_refuted.
Example C53_satisfiable : exists h, assign_all jv_toy lum_ex [Fin (1/20)] no_harm = (h, [Ok tt]).
Proof. exact toy_assign. Qed.
Example C53_table_satisfiable : lum_table lum_ex tbl_ex.
Proof. exact lum_ex_ok. Qed.

(** ** C54: harmonics_required delivers the requested luminosity *)
Theorem C54_harmonics_required : forall lum tbl tol h h' r,
  lum_table lum tbl -> h_gw_lum_tol h = Some (Fin tol) ->
  create_harmonics_functions lum h = (h', r) ->
  r = Ok tt /\
  exists k, harmonics_needed_spec lum tbl tol k /\
    (forall i, (i < e_len lum)%nat -> h_required h' (Fin (tabulated_e lum i)) = Z.of_nat (k i)) /\
    (forall i e, (S i < e_len lum)%nat -> tabulated_e lum i <= e <= tabulated_e lum (S i) ->
       between_rows lum k i e <= IZR (h_required h' (Fin e)) < between_rows lum k i e + 1 /\
       (Z.of_nat (k i) <= h_required h' (Fin e) <= Z.of_nat (k (S i)))%Z) /\
    (forall e, e < e_min lum -> h_required h' (Fin e) = 2%Z) /\
    (forall e, e_max lum < e -> h_required h' (Fin e) = Z.of_nat (k (e_len lum - 1)%nat)).
Proof. exact @harmonics_required_thm. Qed.
Print Assumptions C54_harmonics_required.
Theorem C54_monotone : forall lum tbl tol h h' r,
  lum_table lum tbl -> h_gw_lum_tol h = Some (Fin tol) ->
  create_harmonics_functions lum h = (h', r) ->
  (forall e e', e <= e' -> (h_required h' (Fin e) <= h_required h' (Fin e'))%Z) /\
  (forall e, (2 <= h_required h' (Fin e) <= Z.of_nat (n_max lum))%Z).
Proof. exact @harmonics_required_monotone. Qed.
Print Assumptions C54_monotone.
(** The tabulated eccentricities run from e_min to e_max, log-spaced in 1 - e. *)
Theorem C54_tabulated_eccentricities : forall lum tbl,
  lum_table lum tbl ->
  length (e_range lum) = e_len lum /\ tabulated_e lum 0 = e_min lum /\ tabulated_e lum (e_len lum - 1) = e_max lum /\
  (forall i, (i < e_len lum)%nat -> nth_error (e_range lum) i = Some (Fin (tabulated_e lum i))) /\
  (forall i j, (i < j)%nat -> tabulated_e lum i < tabulated_e lum j).
Proof. exact @tabulated_thm. Qed.
Print Assumptions C54_tabulated_eccentricities.

(** ** C55: the harmonic of largest tabulated power *)
Theorem C55_maximal_power : forall lum tbl tol h h' r,
  lum_table lum tbl -> h_gw_lum_tol h = Some (Fin tol) ->
  create_harmonics_functions lum h = (h', r) ->
  exists top : nat -> nat,
    (forall i, (i < e_len lum)%nat ->
       h_max_strain h' (Fin (tabulated_e lum i)) = Z.of_nat (top i) /\ (1 <= top i <= n_max lum)%nat /\
       forall n, (1 <= n <= n_max lum)%nat -> power tbl i n <= power tbl i (top i)) /\
    (forall i e, (S i < e_len lum)%nat -> tabulated_e lum i <= e <= tabulated_e lum (S i) ->
       Rabs (IZR (h_max_strain h' (Fin e)) - between_rows lum top i e) <= 1/2) /\
    (forall e, e < e_min lum -> h_max_strain h' (Fin e) = 2%Z).
Proof. exact @max_strain_harmonic_thm. Qed.
Print Assumptions C55_maximal_power.
Theorem C55_beyond_the_table : forall lum tbl tol h h' r,
  lum_table lum tbl -> h_gw_lum_tol h = Some (Fin tol) ->
  create_harmonics_functions lum h = (h', r) ->
  forall e, e_max lum < e -> h_max_strain h' (Fin e) = h_required h' (Fin e).
Proof. exact @max_strain_beyond. Qed.
Print Assumptions C55_beyond_the_table.
(** Beyond the table the value can be a harmonic that carries no power in any row. *)
Theorem C55_beyond_the_table_refuted : exists lum tbl tol h h', lum_table lum tbl /\ h_gw_lum_tol h = Some (Fin tol) /\
  create_harmonics_functions lum h = (h', Ok tt) /\
  exists e n, e_max lum < e < 1 /\ h_max_strain h' (Fin e) = Z.of_nat n /\
    forall i, (i < e_len lum)%nat -> power tbl i n = 0 /\ power tbl i 2 = 1.
Proof. exact @max_strain_refuted. Qed.
Print Assumptions C55_beyond_the_table_refuted.

(** ** C56: the circular/eccentric transition *)
(** ecc_tol is the first grid eccentricity that fails the tolerance: it is itself treated as circular. *)
Theorem C56_transition_refuted : forall jv J tol e,
  (forall k x, jv k (Fin x) = Fin (J k x)) ->
  eccentric_transition jv (Fin tol) = Ok e ->
  exists j, (j < Z.to_nat 10000)%nat /\ e = Fin (grid_ecc j) /\ ~ within_tolerance jv tol (grid_ecc j) /\
    forall i, (i < j)%nat -> within_tolerance jv tol (grid_ecc i).
Proof. exact @transition_thm. Qed.
Print Assumptions C56_transition_refuted.
Example C56_satisfiable : exists e, eccentric_transition jv_toy (Fin (1/20)) = Ok e.
Proof. exact toy_transition. Qed.
