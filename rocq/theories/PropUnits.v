(** PropUnits.v -- C09: results do not depend on the units of the inputs; wrong dimensions raise unit errors.
    Vocabulary: UnitsSpec.v.  [in_unit u x] is the quantity of SI value [x] expressed in the unit [u]; the functions without
    the suffix [_q] are the formulas on SI values (Utils.v, Evol.v, Strain.v). *)
From Coq Require Import Reals ZArith List Bool Lra Lia.
From Verif Require Import Num NumFacts Np Utils Strain Evol Units UnitsSpec UnitsFacts UnitsThms UnitsWrong UnitsStrain.
Import ListNotations.
Open Scope R_scope.

(** Inputs in any units give the quantity of the SI formula, in the documented unit. *)
Theorem C09_value :
  (forall m_1 m_2 x y, quantity mass_dim x m_1 -> quantity mass_dim y m_2 ->
     chirp_mass_q m_1 m_2 = Ok (in_unit msun (chirp_mass x y))) /\
  (forall m_1 m_2 x y, is_ mass_dim x m_1 -> is_ mass_dim y m_2 -> beta_q m_1 m_2 = Ok (in_unit m4_per_s (beta x y))) /\
  (forall f m_1 m_2 z x y, is_ frequency_dim z f -> is_ mass_dim x m_1 -> is_ mass_dim y m_2 ->
     get_a_from_f_orb_q f m_1 m_2 = Ok (in_unit au (get_a_from_f_orb z x y))) /\
  (forall a m_1 m_2 z x y, is_ length_dim z a -> is_ mass_dim x m_1 -> is_ mass_dim y m_2 ->
     get_f_orb_from_a_q a m_1 m_2 = Ok (in_unit hertz (get_f_orb_from_a z x y))) /\
  (forall a e x y, quantity length_dim x a -> is_ dimensionless y e -> c_0_q a e = Ok (in_unit au (c_0 x y))) /\
  (forall c e x y, is_ dimensionless y e -> quantity length_dim x c ->
     get_a_from_ecc_q e c = Ok (in_unit au (get_a_from_ecc y x))) /\
  (forall m f e n x z y, (1 <= n)%Z -> is_ mass_dim x m -> is_ frequency_dim z f -> is_ dimensionless y e ->
     fn_dot_q m f e n = Ok (in_unit hertz_per_year (fn_dot_elem x z y n))) /\
  (forall xb x1 x2 xa xf b m_1 m_2 a f,
     opt_is beta_dim xb b -> opt_is mass_dim x1 m_1 -> opt_is mass_dim x2 m_2 -> opt_is length_dim xa a ->
     opt_is frequency_dim xf f ->
     get_t_merge_circ_q b m_1 m_2 a f = rmap (in_unit gigayear) (get_t_merge_circ_sc xb x1 x2 xa xf)).
Proof.
  exact (conj chirp_mass_si (conj beta_si (conj a_from_f_si (conj f_from_a_si (conj c_0_si
    (conj (fun c e => a_from_ecc_si c e) (conj fn_dot_si t_merge_si))))))).
Qed.
Print Assumptions C09_value.

(** The strain amplitudes are those of the SI values of the inputs, for every shape of the arrays. *)
Theorem C09_strain : forall jv gi m f ecc n d s m' f' d' t,
  Forall2 reads m m' -> Forall2 (Forall2 reads) f f' -> Forall2 reads d d' -> sky_reads s t ->
  h_0_n_q jv gi m f ecc n d s = h_0_n jv gi m' f' ecc n d' t /\
  h_c_n_q jv gi m f ecc n d s = h_c_n jv gi m' f' ecc n d' t.
Proof.
  exact (fun jv gi m f ecc n d s m' f' d' t M F D S =>
    conj (h_0_n_si jv gi m f ecc n d s m' f' d' t M F D S) (h_c_n_si jv gi m f ecc n d s m' f' d' t M F D S)).
Qed.
Print Assumptions C09_strain.

(** Expressing any input in other units leaves the outcome (value, unit, or error) unchanged, whatever the inputs. *)
Theorem C09_unit_independent :
  (forall m_1 m_2 m_1' m_2', same m_1 m_1' -> same m_2 m_2' -> chirp_mass_q m_1 m_2 = chirp_mass_q m_1' m_2') /\
  (forall m_1 m_2 m_1' m_2', same m_1 m_1' -> same m_2 m_2' -> beta_q m_1 m_2 = beta_q m_1' m_2') /\
  (forall f m_1 m_2 f' m_1' m_2', same f f' -> same m_1 m_1' -> same m_2 m_2' ->
     get_a_from_f_orb_q f m_1 m_2 = get_a_from_f_orb_q f' m_1' m_2') /\
  (forall a m_1 m_2 a' m_1' m_2', same a a' -> same m_1 m_1' -> same m_2 m_2' ->
     get_f_orb_from_a_q a m_1 m_2 = get_f_orb_from_a_q a' m_1' m_2') /\
  (forall a e a' e', same a a' -> same e e' -> c_0_q a e = c_0_q a' e') /\
  (forall c e c' e', same e e' -> same c c' -> get_a_from_ecc_q e c = get_a_from_ecc_q e' c') /\
  (forall m f e m' f' e' n, same m m' -> same f f' -> same e e' -> fn_dot_q m f e n = fn_dot_q m' f' e' n) /\
  (forall b m_1 m_2 a f b' m_1' m_2' a' f',
     opt_same b b' -> opt_same m_1 m_1' -> opt_same m_2 m_2' -> opt_same a a' -> opt_same f f' ->
     get_t_merge_circ_q b m_1 m_2 a f = get_t_merge_circ_q b' m_1' m_2' a' f').
Proof.
  exact (conj chirp_mass_same (conj beta_same (conj a_from_f_same (conj f_from_a_same (conj c_0_same
    (conj a_from_ecc_same (conj fn_dot_same t_merge_same))))))).
Qed.
Print Assumptions C09_unit_independent.

(** One input of the wrong dimension, the others right: a unit error.  ([wrong] leaves out a plain 0, inf or nan in place of
    a mass, see C09_plain_zero.  Any pair of masses of which one is wrong is rejected by chirp_mass.) *)
Theorem C09_wrong_dimension :
  (forall m_1 m_2, is_quantity m_1 || is_quantity m_2 = true ->
     (is_quantity m_1 = false -> arbitrary_unit (mag m_1) = false) ->
     (is_quantity m_2 = false -> arbitrary_unit (mag m_2) = false) ->
     dim_of m_1 <> mass_dim \/ dim_of m_2 <> mass_dim -> chirp_mass_q m_1 m_2 = Err UnitError) /\
  (forall m_1 m_2, dim_of m_1 <> mass_dim /\ (exists y, is_ mass_dim y m_2) \/
     (exists x, is_ mass_dim x m_1) /\ dim_of m_2 <> mass_dim -> beta_q m_1 m_2 = Err UnitError) /\
  (forall f m_1 m_2 x y, dim_of f <> frequency_dim -> is_ mass_dim x m_1 -> is_ mass_dim y m_2 ->
     get_a_from_f_orb_q f m_1 m_2 = Err UnitError) /\
  (forall f m_1 m_2, wrong mass_dim m_1 /\ (exists y, is_ mass_dim y m_2) \/
     (exists x, is_ mass_dim x m_1) /\ wrong mass_dim m_2 -> get_a_from_f_orb_q f m_1 m_2 = Err UnitError) /\
  (forall a m_1 m_2 x y, dim_of a <> length_dim -> is_ mass_dim x m_1 -> is_ mass_dim y m_2 ->
     get_f_orb_from_a_q a m_1 m_2 = Err UnitError) /\
  (forall a m_1 m_2, wrong mass_dim m_1 /\ (exists y, is_ mass_dim y m_2) \/
     (exists x, is_ mass_dim x m_1) /\ wrong mass_dim m_2 -> get_f_orb_from_a_q a m_1 m_2 = Err UnitError) /\
  (forall a e y, is_quantity a = true -> dim_of a <> length_dim -> is_ dimensionless y e ->
     c_0_q a e = Err UnitError /\ get_a_from_ecc_q e a = Err UnitError) /\
  (forall a e, dim_of e <> dimensionless -> c_0_q a e = Err UnitError /\ get_a_from_ecc_q e a = Err UnitError) /\
  (forall m f e n y, (1 <= n)%Z -> is_ dimensionless y e ->
     dim_of m <> mass_dim /\ dim_of f = frequency_dim \/ dim_of m = mass_dim /\ dim_of f <> frequency_dim ->
     fn_dot_q m f e n = Err UnitError) /\
  (forall m f e n, (1 <= n)%Z -> dim_of e <> dimensionless -> fn_dot_q m f e n = Err UnitError) /\
  (forall b a, dim_of b <> beta_dim /\ dim_of a = length_dim \/ dim_of b = beta_dim /\ dim_of a <> length_dim ->
     get_t_merge_circ_q (Some b) None None (Some a) None = Err UnitError).
Proof.
  exact (conj chirp_mass_wrong (conj beta_wrong (conj a_from_f_wrong_f (conj a_from_f_wrong_m (conj f_from_a_wrong_a
    (conj f_from_a_wrong_m (conj (fun a e y Q W I => conj (c_0_wrong_a a e y Q W I) (a_from_ecc_wrong_a a e y Q W I))
    (conj (fun a e W => conj (c_0_wrong_ecc a e W) (a_from_ecc_wrong_ecc a e W))
    (conj fn_dot_wrong (conj fn_dot_wrong_ecc t_merge_wrong)))))))))).
Qed.
Print Assumptions C09_wrong_dimension.

(** An inclination or polarisation whose unit is not one of angle raises a unit error. *)
Theorem C09_wrong_angle : forall lat lon psi inc a b, sky_angle lat a -> angle lon b ->
  is_quantity psi = true /\ dim_of psi <> angle_dim \/
  (exists p, angle psi p) /\ is_quantity inc = true /\ dim_of inc <> angle_dim ->
  amplitude_modulation_q lat lon psi inc = Err UnitError.
Proof. exact amplitude_wrong. Qed.
Print Assumptions C09_wrong_angle.

(** The strain amplitudes never raise a unit error: with a mass, a frequency and a distance of any dimensions whatever they
    return numbers (decompose() drops the unit that is left over), so the last part of C09 fails for them. *)
Theorem C09_strain_refuted :
  forall jv gi m f e n d, proper m -> proper f -> proper d -> Forall (fun k => (1 <= k)%Z) n ->
  h_0_n_q jv gi [m] [[f]] [[e]] n [d] no_sky_q =
    Ok [[map (fun k => (h0_indep (si m) (si f) (si d) * h0_dep jv gi k e)%num) n]] /\
  h_c_n_q jv gi [m] [[f]] [[e]] n [d] no_sky_q =
    Ok [[map (fun k => (hc_indep (si m) (si f) e (si d) * hc_dep jv gi k e)%num) n]].
Proof. exact strain_any_dimension. Qed.
Print Assumptions C09_strain_refuted.

(** In particular a distance without a unit is taken to be in metres. *)
Theorem C09_forgotten_distance_refuted : forall jv gi m f ecc n x, proper m -> proper f ->
  h_0_n_q jv gi [m] [[f]] ecc n [Pl x] no_sky_q = h_0_n_q jv gi [m] [[f]] ecc n [Qy x meter] no_sky_q /\
  h_c_n_q jv gi [m] [[f]] ecc n [Pl x] no_sky_q = h_c_n_q jv gi [m] [[f]] ecc n [Qy x meter] no_sky_q.
Proof. exact forgotten_distance. Qed.
Print Assumptions C09_forgotten_distance_refuted.

(** A plain zero is accepted as the mass of the companion; and the functions without physical constants accept plain
    numbers and return plain numbers. *)
Theorem C09_plain_zero :
  (forall f m_1 z x, is_ frequency_dim z f -> is_ mass_dim x m_1 ->
     get_a_from_f_orb_q f m_1 (lit 0) = Ok (in_unit au (get_a_from_f_orb z x (Fin 0)))) /\
  (forall x y, chirp_mass_q (Pl x) (Pl y) = Ok (Pl (chirp_mass x y))) /\
  (forall x y, c_0_q (Pl x) (Pl y) = Ok (Pl (c_0 x y))) /\
  (forall x y, get_a_from_ecc_q (Pl y) (Pl x) = Ok (Pl (get_a_from_ecc y x))).
Proof. exact (conj plain_zero_companion (conj chirp_mass_plain (conj c_0_plain a_from_ecc_plain))). Qed.
Print Assumptions C09_plain_zero.

(** A binary given in solar masses, kilograms, millihertz, hertz and degrees. *)
Definition kilogram : unit_ := mkUnit 1 mass_dim.
Definition millihertz : unit_ := mkUnit (1/1000) frequency_dim.
Definition degree : unit_ := mkUnit (PI/180) angle_dim.
Example C09_satisfiable :
  same (Qy (Fin 2) millihertz) (Qy (Fin (2/1000)) hertz) /\
  same (Qy (Fin 3) msun) (Qy (Fin (3 * u_size msun)) kilogram) /\
  quantity mass_dim (Fin (3 * u_size msun)) (Qy (Fin 3) msun) /\
  quantity length_dim (Fin (2 * AU)) (Qy (Fin 2) au) /\
  is_ frequency_dim (Fin (2 * (1/1000))) (Qy (Fin 2) millihertz) /\
  is_ dimensionless (Fin (1/10)) (lit (1/10)) /\
  sky_angle (Qy (Fin 90) degree) (Fin (PI/2)) /\ angle (lit 1) (Fin 1) /\
  wrong mass_dim (Qy (Fin 2) millihertz) /\ wrong mass_dim (lit 2) /\
  dim_of (Qy (Fin 8) second) <> length_dim /\
  get_a_from_f_orb_q (Qy (Fin 2) millihertz) (Qy (Fin 3) msun) (Qy (Fin 1) au) = Err UnitError.
Proof.
  pose proof msun_pos. pose proof au_pos. pose proof PI_RGT_0.
  assert (FM : mass_dim <> frequency_dim) by (intros E; injection E; lra).
  assert (LM : length_dim <> mass_dim) by (intros E; injection E; lra).
  repeat split; try (unfold proper; cbn; lra); try (cbn; f_equal; lra); try apply si_pl; try assumption; try (unfold proper; cbn in *; lra);
    try discriminate; try (unfold dim_of; cbn; intros E; injection E; lra).
  - cbn. unfold Reqb. intros _. destruct (Req_EM_T 2 0); [lra|reflexivity].
  - apply a_from_f_wrong_m. right. split.
    + exists (Fin (3 * u_size msun)). repeat split. exact msun_pos.
    + repeat split; [exact au_pos| |discriminate]. unfold dim_of. cbn. exact LM.
Qed.
