(** HarmSpec.v -- vocabulary for the statements about the harmonic tables (C53-C56). *)
From Coq Require Import Reals ZArith List Bool.
From Verif Require Import Num Utils Spec EvolSpec Harmonics.
Import ListNotations.
Open Scope R_scope.

(** A well-formed table file: [e_len] rows of [n_max] real powers, eccentricities from [e_min] to [e_max]. *)
Record lum_table (lum : lum_info) (tbl : list (list R)) : Prop := mkTable {
  lt_vals : g_vals lum = map (map Fin) tbl;
  lt_rows : length tbl = e_len lum;
  lt_cols : forall row, In row tbl -> length row = n_max lum;
  lt_elen : (2 <= e_len lum)%nat;
  lt_nmax : (2 <= n_max lum)%nat;
  lt_min : 0 <= e_min lum;
  lt_minmax : e_min lum < e_max lum;
  lt_max : e_max lum < 1 }.

(** The tabulated eccentricities: 1 - e runs geometrically from 1 - e_min to 1 - e_max. *)
Definition tabulated_e (lum : lum_info) (i : nat) : R :=
  1 - (1 - e_min lum) * Rpower ((1 - e_max lum) / (1 - e_min lum)) (INR i / INR (e_len lum - 1)).

(** Tabulated relative power of harmonic n at the i-th eccentricity, and the power in the first k harmonics. *)
Definition power (tbl : list (list R)) (i n : nat) : R := nth (n - 1) (nth i tbl []) 0.
Definition luminosity (tbl : list (list R)) (i k : nat) : R := Rsum (map (power tbl i) (seq 1 k)).

(** The number of harmonics needed at each tabulated eccentricity: 2 at the first; then the smallest number, not below
    the previous one, that carries a fraction 1 - tol of the total luminosity, or all n_max of them. *)
Definition harmonics_needed_spec (lum : lum_info) (tbl : list (list R)) (tol : R) (k : nat -> nat) : Prop :=
  k O = 2%nat /\
  forall i, (S i < e_len lum)%nat ->
    (k i <= k (S i) <= n_max lum)%nat /\
    ((1 - tol) * enhancement (tabulated_e lum (S i)) <= luminosity tbl (S i) (k (S i)) \/ k (S i) = n_max lum) /\
    (forall j, (k i <= j < k (S i))%nat -> luminosity tbl (S i) j < (1 - tol) * enhancement (tabulated_e lum (S i))).

(** The linear interpolation of values [k] between two neighbouring tabulated eccentricities. *)
Definition between_rows (lum : lum_info) (k : nat -> nat) (i : nat) (e : R) : R :=
  INR (k i) + (INR (k (S i)) - INR (k i))
              * ((e - tabulated_e lum i) / (tabulated_e lum (S i) - tabulated_e lum i)).

(** All three derived quantities are those of the tolerance [tol]. *)
Definition tables_match (jv : Z -> num -> num) (lum : lum_info) (h : harm) (tol : num) : Prop :=
  h_gw_lum_tol h = Some tol /\
  (exists needed, harmonics_needed tol lum = Ok needed /\
     h_required h = harmonics_required_of lum needed /\ h_max_strain h = max_strain_harmonic_of lum needed) /\
  exists e, eccentric_transition jv tol = Ok e /\ h_ecc_tol h = Some e.

(** The eccentricities searched for the circular/eccentric transition: 10000 equally spaced values from 0 to 0.2. *)
Definition grid_ecc (j : nat) : R := INR j * (1/5 / INR (Z.to_nat 10000 - 1)).
(** The n = 2 harmonic carries at least a fraction 1 - tol of the luminosity at [e]. *)
Definition within_tolerance (jv : Z -> num -> num) (tol e : R) : Prop :=
  exists g, peters_g jv 2 (Fin e) = Fin g /\ (1 - tol) * enhancement e <= g.
