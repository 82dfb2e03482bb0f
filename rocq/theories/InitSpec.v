(** InitSpec.v -- vocabulary for the construction of a collection (C65, C66). *)
From Coq Require Import String Reals ZArith List Bool.
From Verif Require Import Num Np Utils Spec Strain StrainSpec Psd Snr SnrSpec Evol Harmonics ScParams Source Index SourceSpec.
Import ListNotations.
Open Scope R_scope.

(** The numbers in an argument (a scalar counts as one number). *)
Definition entries (v : pyval num unit) : list num :=
  match v with PNone => [] | PQArr l _ => l | PArr l => l | PList l => l | PQScalar y _ => [y] | POther y => [y] end.
Definition has_unit (v : pyval num unit) : Prop := (exists l, v = PQArr l tt) \/ (exists y, v = PQScalar y tt).
Definition is_array (v : pyval num unit) : Prop := (exists l, v = PQArr l tt) \/ (exists l, v = PArr l) \/ (exists l, v = PList l).
(** Lengths that numpy broadcasts. *)
Definition broadcasts (m n : nat) : Prop := m = n \/ m = 1%nat \/ n = 1%nat.
(** What the constructor documents about its input. *)
Record documented_input (i : init_args) : Prop := {
  in_freq : i_f_orb i <> PNone \/ i_a i <> PNone;
  in_sky : i_position i = None -> i_inclination i = None /\ i_polarisation i = None;
  in_circ : i_position i <> None -> forall e, In e (entries (i_ecc i)) -> e = Fin 0;
  in_units : has_unit (i_m_1 i) /\ has_unit (i_m_2 i) /\ has_unit (i_dist i) /\ has_unit (match i_f_orb i with PNone => i_a i | f => f end);
  in_len : length (entries (i_m_2 i)) = length (entries (i_m_1 i)) /\ length (entries (i_dist i)) = length (entries (i_m_1 i)) /\
           length (entries (i_ecc i)) = length (entries (i_m_1 i)) /\
           (i_f_orb i <> PNone -> length (entries (i_f_orb i)) = length (entries (i_m_1 i)));
  in_ecc : i_ecc i <> PNone }.
(** What it also needs: one separation, or one for every source; as many sky positions as distances, or one of either;
    masses in an array when it has to draw random angles. *)
Record usable_input (i : init_args) : Prop := {
  in_sep : i_f_orb i = PNone -> length (entries (i_a i)) = length (entries (i_m_1 i)) \/ length (entries (i_a i)) = 1%nat;
  in_pos : forall p, i_position i = Some p -> broadcasts (length p) (length (entries (i_dist i)));
  in_draw : i_position i <> None -> i_inclination i = None \/ i_polarisation i = None -> is_array (i_m_1 i) }.
(** The tolerance, the sensitivity curve parameters and the curve are accepted (C50-C55). *)
Definition settings_ok (x : ext) (i : init_args) : Prop :=
  (exists h, set_gw_lum_tol (x_jv x) (x_lum x) (i_gw_lum_tol i) no_harm = (h, Ok tt)) /\
  exists d, make_params (i_sc_params i) = Ok d /\ (i_interpolate_sc i = true -> exists c, curve_of x d = Ok c).
(** One entry per source wherever the constructor does not check: weights, sky positions, angles. *)
Definition extras_fit (x : ext) (i : init_args) : Prop :=
  let n := length (entries (i_m_1 i)) in
  (i_weights i <> PNone -> length (entries (i_weights i)) = n) /\
  (forall p, i_position i = Some p -> exists sky : list angles, length sky = n /\
     p = map (fun k => (Fin (lat k), Fin (lon k))) sky /\
     (match i_inclination i with Some l => l | None => x_inc x n end) = map (fun k => Fin (inc k)) sky /\
     (match i_polarisation i with Some l => l | None => x_pol x n end) = map (fun k => Fin (psi k)) sky).
(** A binary with a separation and an orbital frequency that belong together. *)
Record binary := mkBinary { b_m1 : R; b_m2 : R; b_a : R; b_f : R }.
Definition kepler_binary (b : binary) : Prop := 0 < b_m1 b /\ 0 < b_m2 b /\ 0 < b_a b /\ 0 < b_f b /\ kepler_third_law (b_m1 b) (b_m2 b) (b_a b) (b_f b).
Definition column (f : binary -> R) (bs : list binary) : list num := map (fun b => Fin (f b)) bs.
