(** PropUtils.v -- properties C01-C06, C08, C10, C11 and the modulation part of C12. *)
From Coq Require Import Reals ZArith List Bool Lra Lia.
From Coquelicot Require Import Coquelicot.
From Verif Require Import Num NumFacts Utils Np Strain Spec UtilsFacts DetectorFacts.
Import ListNotations.
Open Scope R_scope.

(** ** C01: Kepler conversions are mutual inverses and obey Kepler's third law *)
Theorem C01_kepler_from_frequency : forall m1 m2 f, 0 < m1 -> 0 < m2 -> 0 < f ->
  exists a, get_a_from_f_orb (Fin f) (Fin m1) (Fin m2) = Fin a /\ 0 < a
            /\ kepler_third_law m1 m2 a f
            /\ get_f_orb_from_a (Fin a) (Fin m1) (Fin m2) = Fin f.
Proof. exact kepler_roundtrip_f. Qed.
Print Assumptions C01_kepler_from_frequency.
Theorem C01_kepler_from_separation : forall m1 m2 a, 0 < m1 -> 0 < m2 -> 0 < a ->
  exists f, get_f_orb_from_a (Fin a) (Fin m1) (Fin m2) = Fin f /\ 0 < f
            /\ kepler_third_law m1 m2 a f
            /\ get_a_from_f_orb (Fin f) (Fin m1) (Fin m2) = Fin a.
Proof. exact kepler_roundtrip_a. Qed.
Print Assumptions C01_kepler_from_separation.
(** A pair of 10 solar-mass-like objects at 1 mHz meets the hypotheses. *)
Example C01_satisfiable : 0 < 2e31 /\ 0 < 2e31 /\ 0 < 1/1000.
Proof. lra. Qed.

(** ** C02: chirp mass laws *)
Theorem C02_chirp_mass_equation : forall m1 m2, 0 < m1 -> 0 < m2 ->
  exists mc, chirp_mass (Fin m1) (Fin m2) = Fin mc /\ 0 < mc
             /\ mc ^ 5 * (m1 + m2) = (m1 * m2) ^ 3
             /\ mc < Rmax m1 m2
             /\ chirp_mass (Fin m2) (Fin m1) = Fin mc.
Proof.
  exact (fun m1 m2 H1 H2 =>
    ex_intro _ (chirpR m1 m2)
      (conj (chirp_mass_fin m1 m2 H1 H2) (conj (chirpR_pos m1 m2) (conj (chirpR_pow5 m1 m2 H1 H2)
      (conj (chirpR_le_max m1 m2 H1 H2)
        (eq_trans (chirp_mass_fin m2 m1 H2 H1) (f_equal Fin (chirpR_sym m2 m1)))))))).
Qed.
Print Assumptions C02_chirp_mass_equation.
Theorem C02_chirp_mass_scaling : forall k m1 m2, 0 < k -> 0 < m1 -> 0 < m2 ->
  chirp_mass (Fin (k * m1)) (Fin (k * m2)) = nmul (Fin k) (chirp_mass (Fin m1) (Fin m2)).
Proof.
  intros k m1 m2 Hk H1 H2. rewrite !chirp_mass_fin by (auto; apply Rmult_lt_0_compat; auto).
  rewrite nmul_fin. f_equal. exact (chirpR_scale k m1 m2 Hk H1 H2).
Qed.
Print Assumptions C02_chirp_mass_scaling.
Theorem C02_chirp_mass_increasing : forall m1 m1' m2, 0 < m1 -> 0 < m2 -> m1 < m1' ->
  nlt (chirp_mass (Fin m1) (Fin m2)) (chirp_mass (Fin m1') (Fin m2)) = true
  /\ nlt (chirp_mass (Fin m2) (Fin m1)) (chirp_mass (Fin m2) (Fin m1')) = true.
Proof.
  intros m1 m1' m2 H1 H2 H. rewrite !chirp_mass_fin by lra.
  rewrite (chirpR_sym m2 m1), (chirpR_sym m2 m1').
  split; apply nlt_fin; exact (chirpR_mono m1 m1' m2 H1 H2 H).
Qed.
Print Assumptions C02_chirp_mass_increasing.
Example C02_satisfiable : 0 < 3 /\ 0 < 1 /\ 0 < 2 /\ 1 < 2.
Proof. lra. Qed.

(** ** C03: separation as a function of eccentricity *)
Theorem C03_separation_roundtrip : forall a e, 0 < a -> 0 < e < 1 ->
  exists c0, c_0 (Fin a) (Fin e) = Fin c0 /\ 0 < c0 /\ get_a_from_ecc (Fin e) (Fin c0) = Fin a.
Proof.
  exact (fun a e Ha He => ex_intro _ (c0R a e) (conj (c_0_fin a e He) (conj (c0R_pos a e Ha He)
    (eq_trans (get_a_from_ecc_fin e (c0R a e) He) (f_equal Fin (aeR_c0R a e Ha He)))))).
Qed.
Print Assumptions C03_separation_roundtrip.
Theorem C03_c0_roundtrip : forall e c0, 0 < c0 -> 0 < e < 1 ->
  exists a, get_a_from_ecc (Fin e) (Fin c0) = Fin a /\ 0 < a /\ c_0 (Fin a) (Fin e) = Fin c0.
Proof.
  exact (fun e c0 Hc He => ex_intro _ (aeR e c0) (conj (get_a_from_ecc_fin e c0 He) (conj (aeR_pos e c0 Hc He)
    (eq_trans (c_0_fin (aeR e c0) e He) (f_equal Fin (c0R_aeR e c0 Hc He)))))).
Qed.
Print Assumptions C03_c0_roundtrip.
Theorem C03_separation_increasing : forall e1 e2 c0, 0 < c0 -> 0 < e1 -> e1 < e2 -> e2 < 1 ->
  nlt (get_a_from_ecc (Fin e1) (Fin c0)) (get_a_from_ecc (Fin e2) (Fin c0)) = true.
Proof.
  intros e1 e2 c0 Hc H1 H12 H2. rewrite !get_a_from_ecc_fin by lra. apply nlt_fin.
  exact (aeR_mono e1 e2 c0 Hc H1 H12 H2).
Qed.
Print Assumptions C03_separation_increasing.
Example C03_satisfiable : 0 < 1e9 /\ 0 < 1/10 < 1 /\ 1/10 < 9/10 /\ 9/10 < 1.
Proof. lra. Qed.

(** ** C04: the enhancement factor *)
Theorem C04_peters_f_value : forall e, 0 <= e < 1 ->
  peters_f (Fin e) = Fin (enhancement e) /\ 1 <= enhancement e.
Proof. exact peters_f_value. Qed.
Print Assumptions C04_peters_f_value.
Theorem C04_peters_f_circular_and_limit : peters_f (Fin 0) = Fin 1 /\ peters_f (Fin 1) = PInf.
Proof.
  exact (conj (eq_trans (peters_f_fin 0 ltac:(lra)) (f_equal Fin enhancement_0)) peters_f_at_1).
Qed.
Print Assumptions C04_peters_f_circular_and_limit.
Theorem C04_peters_f_increasing : forall e1 e2, 0 <= e1 -> e1 < e2 -> e2 < 1 ->
  nlt (peters_f (Fin e1)) (peters_f (Fin e2)) = true.
Proof.
  intros e1 e2 H1 H12 H2. rewrite !peters_f_fin by lra. apply nlt_fin.
  exact (enhancement_mono e1 e2 H1 H12 H2).
Qed.
Print Assumptions C04_peters_f_increasing.
Example C04_satisfiable : 0 <= 1/10 /\ 1/10 < 1/2 /\ 1/2 < 1.
Proof. lra. Qed.

(** ** C05: relative power of a harmonic *)
(** Never a negative number, whatever the Bessel routine returns (it may even return nan or inf). *)
Theorem C05_peters_g_never_negative : forall jv n e, (1 <= n)%Z -> 0 <= e <= 1 ->
  nlt (peters_g jv n (Fin e)) (Fin 0) = false.
Proof. exact peters_g_nonneg01. Qed.
Print Assumptions C05_peters_g_never_negative.
(** With a finite-valued Bessel routine it is a finite number and non-negative. *)
Theorem C05_peters_g_finite : forall jv J n e, (forall k x, jv k (Fin x) = Fin (J k x)) ->
  (1 <= n)%Z -> 0 <= e <= 1 -> exists g, peters_g jv n (Fin e) = Fin g /\ 0 <= g.
Proof.
  exact peters_g_finite.
Qed.
Print Assumptions C05_peters_g_finite.
(** Given J_0(0) = 1 and J_k(0) = 0 otherwise, a circular binary radiates at n = 2 only. *)
Theorem C05_peters_g_circular : forall jv J n, (forall k x, jv k (Fin x) = Fin (J k x)) ->
  (forall k, J k 0 = if (k =? 0)%Z then 1 else 0) -> (1 <= n)%Z ->
  peters_g jv n (Fin 0) = Fin (if (n =? 2)%Z then 1 else 0).
Proof.
  exact (fun jv J n HJ H0 Hn => eq_trans (peters_g_fin jv J n 0 HJ Hn) (f_equal Fin (gR_at_0 J n H0 Hn))).
Qed.
Print Assumptions C05_peters_g_circular.
Example C05_satisfiable : exists jv J, (forall k x, jv k (Fin x) = Fin (J k x)) /\
  (forall k, J k 0 = if (k =? 0)%Z then 1 else 0) /\ (1 <= 3)%Z.
Proof.
  exists (fun k x => match x with Fin r => Fin (if (k =? 0)%Z then cos r else r) | _ => NaN end),
         (fun k r => if (k =? 0)%Z then cos r else r).
  repeat split; intros; auto; try lia. destruct (k =? 0)%Z; auto using cos_0.
Qed.

(** ** C06: fn_dot is n times the drift of the orbital frequency under Peters' orbital decay *)
Theorem C06_fn_dot_is_frequency_drift : forall (a f : R -> R) (e t m1 m2 : R) (n : Z),
  0 < m1 -> 0 < m2 -> 0 <= e < 1 -> (1 <= n)%Z -> 0 < a t ->
  is_derive a t (peters_da_dt m1 m2 (a t) e) ->
  locally t (fun s => get_f_orb_from_a (Fin (a s)) (Fin m1) (Fin m2) = Fin (f s)) ->
  exists mc d, chirp_mass (Fin m1) (Fin m2) = Fin mc /\
    fn_dot (Fin mc) (Fin (f t)) (Fin e) [n] = Ok [Fin d] /\ 0 < d /\
    is_derive (fun s => IZR n * f s) t d.
Proof. exact fn_dot_is_derivative. Qed.
Print Assumptions C06_fn_dot_is_frequency_drift.
Theorem C06_fn_dot_linear_in_n : forall mc f e ns, 0 < mc -> 0 < f -> 0 <= e < 1 -> List.Forall (fun n => (1 <= n)%Z) ns ->
  exists d, 0 < d /\ fn_dot (Fin mc) (Fin f) (Fin e) ns = Ok (map (fun n => Fin (IZR n * d)) ns).
Proof. exact fn_dot_linear. Qed.
Print Assumptions C06_fn_dot_linear_in_n.
Theorem C06_fn_dot_rejects : forall m f e ns,
  fn_dot m f e ns = Err ValueError <-> Exists (fun n => (n < 1)%Z) ns.
Proof. exact fn_dot_error_iff. Qed.
Print Assumptions C06_fn_dot_rejects.
(** A linear trajectory a(s) = 1 + s * rate has the required derivative at 0, with f defined by Kepler's law. *)
Example C06_satisfiable : exists a f : R -> R, 0 < a 0 /\ is_derive a 0 (peters_da_dt 1 1 (a 0) 0) /\
  locally 0 (fun s => get_f_orb_from_a (Fin (a s)) (Fin 1) (Fin 1) = Fin (f s)).
Proof.
  set (r := peters_da_dt 1 1 1 0).
  exists (fun s => 1 + s * r), (fun s => fR (1 + s * r) 1 1).
  assert (A : 1 + 0 * r = 1) by ring. rewrite A. split; [lra|]. split.
  - fold r. auto_derive; auto. ring.
  - assert (D : is_derive (fun s => 1 + s * r) 0 r) by (auto_derive; auto; ring).
    assert (P : 0 < (fun s => 1 + s * r) 0) by (cbv beta; rewrite A; lra).
    generalize (is_derive_pos_loc _ 0 r P D). apply filter_imp. intros s Hs. apply get_f_fin; lra.
Qed.

(** ** C08: ensure_array *)
(** What a caller expects to get for each kind of argument, and whether it counts as "not an array". *)
Definition as_array {A U} (v : pyval A U) : pyval A U :=
  match v with
  | PList l => PArr l
  | PQScalar x u => PQArr [x] u
  | POther x => PArr [x]
  | PNone | PQArr _ _ | PArr _ => v
  end.
Definition is_scalar {A U} (v : pyval A U) : Prop :=
  match v with PQScalar _ _ | POther _ => True | _ => False end.
Theorem C08_ensure_array_results : forall A U (args : list (pyval A U)),
  fst (ensure_array args) = map as_array args.
Proof.
  intros A U args. rewrite ensure_array_map. simpl. apply map_ext. intros v. now destruct v.
Qed.
Print Assumptions C08_ensure_array_results.
Theorem C08_ensure_array_flag : forall A U (args : list (pyval A U)),
  snd (ensure_array args) = true <-> Exists is_scalar args.
Proof.
  intros A U args. rewrite ensure_array_map. simpl. rewrite existsb_exists, Exists_exists.
  split; intros [v [Hin H]]; exists v; split; auto; destruct v; simpl in *; auto; discriminate || contradiction.
Qed.
Print Assumptions C08_ensure_array_flag.
Theorem C08_ensure_array_idempotent : forall A U (args : list (pyval A U)),
  ensure_array (fst (ensure_array args)) = (fst (ensure_array args), false).
Proof. exact @ensure_array_idem. Qed.
Print Assumptions C08_ensure_array_idempotent.
Example C08_case : @ensure_array nat unit [PNone; PQScalar 3%nat tt; PList [1%nat; 2%nat]]
                   = ([PNone; PQArr [3%nat] tt; PArr [1%nat; 2%nat]], true).
Proof. reflexivity. Qed.

(** ** C10: detector responses are physical *)
Theorem C10_responses_nonnegative : forall th ph ps,
  exists p q, F_plus_squared (Fin th) (Fin ph) (Fin ps) = Fin p /\ 0 <= p /\
              F_cross_squared (Fin th) (Fin ph) (Fin ps) = Fin q /\ 0 <= q.
Proof.
  exact (fun th ph ps => ex_intro _ (FpR th ph ps) (ex_intro _ (FcR th ph ps)
    (conj (Fp_fin th ph ps) (conj (FpR_nonneg th ph ps) (conj (Fc_fin th ph ps) (FcR_nonneg th ph ps)))))).
Qed.
Print Assumptions C10_responses_nonnegative.
Theorem C10_total_independent_of_polarisation : forall th ph ps ps',
  nadd (F_plus_squared (Fin th) (Fin ph) (Fin ps)) (F_cross_squared (Fin th) (Fin ph) (Fin ps)) =
  nadd (F_plus_squared (Fin th) (Fin ph) (Fin ps')) (F_cross_squared (Fin th) (Fin ph) (Fin ps')).
Proof.
  exact (fun th ph ps ps' => f_equal Fin (eq_trans (F_sum th ph ps) (eq_sym (F_sum th ph ps')))).
Qed.
Print Assumptions C10_total_independent_of_polarisation.
Theorem C10_rotation_by_45_degrees_swaps : forall th ph ps,
  F_plus_squared (Fin th) (Fin ph) (Fin (ps + PI/4)) = F_cross_squared (Fin th) (Fin ph) (Fin ps).
Proof. exact (fun th ph ps => f_equal Fin (F_swap th ph ps)). Qed.
Print Assumptions C10_rotation_by_45_degrees_swaps.
Theorem C10_cauchy_schwarz : forall th ph, exists p q x,
  D_plus_squared (Fin th) (Fin ph) = Fin p /\ D_cross_squared (Fin th) (Fin ph) = Fin q /\
  D_plus_D_cross (Fin th) (Fin ph) = Fin x /\ 0 < p /\ 0 < q /\ x ^ 2 <= p * q.
Proof.
  exact (fun th ph => ex_intro _ _ (ex_intro _ _ (ex_intro _ _ (conj (Dp_fin th ph) (conj (Dc_fin th ph)
    (conj (Dpc_fin th ph) (conj (DpR_pos th ph) (conj (DcR_pos th ph) (Dpc_cs th ph))))))))).
Qed.
Print Assumptions C10_cauchy_schwarz.

(** ** C11: averages (fp/fc/md are the finite values of the model functions) *)
Theorem C11_average_responses : forall fp fc : R -> R -> R -> R,
  (forall th ph ps, F_plus_squared (Fin th) (Fin ph) (Fin ps) = Fin (fp th ph ps)) ->
  (forall th ph ps, F_cross_squared (Fin th) (Fin ph) (Fin ps) = Fin (fc th ph ps)) ->
  avg_theta (fun th => avg_phi (fun ph => avg_psi (fun ps => fp th ph ps))) = 3/20 /\
  avg_theta (fun th => avg_phi (fun ph => avg_psi (fun ps => fc th ph ps))) = 3/20.
Proof. exact avg_responses. Qed.
Print Assumptions C11_average_responses.
Theorem C11_average_modulation : forall md : R -> R -> R -> R -> R,
  (forall lat lon ps inc, amplitude_modulation_elem (Fin lat) (Fin lon) (Fin ps) (Fin inc) = Fin (md lat lon ps inc)) ->
  avg_theta (fun th => avg_phi (fun ph => avg_psi (fun ps => avg_theta (fun inc =>
    md (PI/2 - th) ph ps inc)))) = 3/20.
Proof. exact avg_modulation. Qed.
Print Assumptions C11_average_modulation.
Example C11_satisfiable : exists fp : R -> R -> R -> R,
  forall th ph ps, F_plus_squared (Fin th) (Fin ph) (Fin ps) = Fin (fp th ph ps).
Proof. exists FpR. exact Fp_fin. Qed.

(** ** C12 (modulation): amplitude_modulation is at least 0 and below 1, for every direction *)
Theorem C12_modulation_between_0_and_1 : forall lat lon ps inc,
  exists m, amplitude_modulation_elem (Fin lat) (Fin lon) (Fin ps) (Fin inc) = Fin m /\ 0 <= m < 1.
Proof. exact modulation_bounds. Qed.
Print Assumptions C12_modulation_between_0_and_1.
