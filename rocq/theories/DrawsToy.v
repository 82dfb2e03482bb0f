(** DrawsToy.v -- the same call twice, with different draws (C100). *)
From Coq Require Import String Reals ZArith List Bool Lra Lia.
From Verif Require Import Num NumFacts Np NpFacts Utils Spec UtilsFacts Strain StrainSpec DetectorFacts Psd Snr SnrSpec Evol EvolSpec EvolFacts EvolThms Harmonics ScParams Source Index SourceSpec History
  CurveSpec CurveFacts MethodSpec MethodFacts MethodThms SourceThms SourceThms2 Toy Toy2 Toy3 VerificationThms SkySpec SkyThms DrawsSpec DrawsThms.
Import ListNotations.
Open Scope list_scope.
Open Scope R_scope.

(** A circular binary seen edge-on; the polarisation is left to the constructor. *)
Definition edge_args : init_args :=
  mkInit (PQArr [Fin 2e30] tt) (PQArr [Fin 1e30] tt) (PArr [Fin 0]) (PQArr [Fin 1e20] tt) 1 (PQArr [Fin 1e-3] tt) PNone (Some [(Fin 0, Fin 0)]) None (Some [Fin (PI/2)]) PNone
         (Fin (1/20)) (Fin (1/100)) false false (custom_params 0).
(** The toy world in which the polarisation [ps] is drawn. *)
Definition drawing (ps : R) : ext := redraw x_toy (x_inc x_toy) (fun n => repeat (Fin ps) n).
Definition edge (ps : R) : row := mkRow (Fin 2e30) (Fin 1e30) (Fin 1e20) (Fin 1e-3) (Fin 0) (mkAngles 0 0 ps (PI/2)) (Fin 0) (Fin 0) (Fin 0) 0 false.
Definition edge_src (ps : R) : src := with_sky [edge ps] (toy_of [edge ps]).
Lemma edge_init ps : init (drawing ps) KSource edge_args = Ok (edge_src ps).
Proof.
  unfold init, edge_args, edge_src. cbn [i_f_orb i_a i_position i_inclination i_polarisation py_exists negb andb rbind].
  cbn [i_m_1 i_m_2 i_ecc i_dist i_weights i_sc_params i_gw_lum_tol i_interpolate_g i_interpolate_sc i_stat_tol i_n_proc forallb py_has_units negb andb].
  cbn [ensure_array ensure_array_one py_exists py_has_units py_is_array negb andb fst len_of rbind list_of existsb length].
  rewrite neqb_t by reflexivity. cbn [negb orb Nat.eqb]. rewrite bzip_eq by reflexivity. cbn [map2 rbind].
  unfold assign_gw_lum_tol. unfold mbind at 1. cbn [s_harm x_jv x_lum x_toy drawing redraw]. rewrite toy_h_ok. cbv beta iota.
  unfold mbind at 1. rewrite assign_cases. change (make_params (custom_params 0)) with (Ok (custom_params 0)). cbn zeta beta iota.
  unfold set_sc. cbn [s_interpolate_sc put_params set_curve set_harm s_params]. reflexivity.
Qed.
Lemma edge_computable ps : computable x_toy (edge_src ps) [edge ps] no_args toy_time 1.
Proof.
  apply computable_with_sky, toy_computable; [lia|apply toy_of_like|apply toy_collection|]. intros r [<-|[]]. exists 0. split; [reflexivity|lra].
Qed.
Lemma toy_time_5 : toy_time = 5 * yr.
Proof. with_strategy transparent [yr] unfold yr. unfold toy_time, mission_length. cbn. unfold PsdSpec.year. lra. Qed.
Lemma edge_stationary ps : is_stationary (edge_src ps) toy_time (edge ps) true.
Proof.
  unfold is_stationary. pose proof (determine_stationarity_masses r_f (fun _ => Fin toy_time) r_e r_m1 r_m2 (s_stat_tol (edge_src ps)) [edge ps]) as H. rewrite determine_stationarity_map in H. cbn [map] in H. rewrite H. do 2 f_equal. rewrite stat_elem_eq.
  change (s_stat_tol (edge_src ps)) with (Fin (1/100)). cbn [edge r_f r_e r_m1 r_m2]. pose proof yr_pos as PY. pose proof Ggrav_pos as PG.
  rewrite chirp_mass_fin by lra. rewrite toy_time_5. apply slow_stationary; [lra|apply chirpR_pos|..|lra].
  apply Rle_trans with (Ggrav * 3e30); [apply Rmult_le_compat_l; [lra|]|].
  - eapply Rle_trans; [apply chirp_le_total; lra|]. lra.
  - with_strategy transparent [Ggrav clight] unfold Ggrav, clight. simpl. lra.
Qed.
Lemma edge_circular ps : is_circular (edge_src ps) (edge ps).
Proof. destruct toy_tol as (t & E & Ht). exists (Fin t). split; [exact E|]. cbn. unfold Rleb. destruct (Rle_dec 0 t); [reflexivity|lra]. Qed.
Lemma edge_mod ps : modR 0 0 ps (PI/2) = 5/64 * (cos (2 * ps) ^ 2 * (3/2048 * 487) + sin (2 * ps) ^ 2 * (3/2048 * 480)).
Proof.
  unfold modR, FpR, FcR, DpR, DcR, DpcR. rewrite Rminus_0_r, cos_PI2, sin_PI2, Rmult_0_r, sin_0, cos_0. field.
Qed.
Lemma edge_heard ps s0 u : get_snr x_toy no_args 1 None (without_sky (edge_src ps)) = (s0, Ok u) -> exists q, nth_error u 0 = Some (Fin q) /\ 0 < q.
Proof.
  intros E. assert (L : toy_like (without_sky (edge_src ps))) by exact (toy_of_like [edge ps]).
  assert (C : computable x_toy (without_sky (edge_src ps)) [edge ps] (class_args KSource no_args) toy_time 1).
  { change (without_sky (edge_src ps)) with (toy_of [edge ps]). apply toy_computable; [lia|apply toy_of_like|apply toy_collection|]. intros r [<-|[]]. exists 0. split; [reflexivity|lra]. }
  destruct (all_thm x_toy (without_sky (edge_src ps)) [edge ps] no_args toy_time 1 C) as (s' & v & sc & kw & E' & _ & _ & CU & K & F).
  rewrite E in E'. injection E' as _ <-. inversion F as [|? v0 ? l0 F1 F2]; subst. inversion F2; subst. cbn [edge r_merged] in F1. destruct F1 as (h & F1).
  unfold class_snr in F1. cbn [s_class without_sky edge_src with_sky toy_of] in F1. destruct (toy_used _ L) as (U1 & _). change (class_args (s_class (without_sky (edge_src ps))) no_args) with no_args in *. rewrite U1 in K.
  assert (SC : sc = None) by exact CU. subst sc. destruct F1 as [_ S|S _].
  - destruct (toy_loud _ kw toy_time (edge ps) v0 h 2e30 1e30 1e20 1e-3 L (toy_noise kw K toy_time)) as (q & -> & Q); auto; try lra; [|now exists q].
    rewrite toy_time_5. pose proof yr_pos. lra.
  - pose proof (edge_stationary ps) as T. unfold is_stationary in *. cbn [without_sky s_stat_tol] in S. rewrite T in S. discriminate S.
Qed.
(** The same call, two draws, two SNRs. *)
Lemma irreproducible : exists x pol i s1 s2 s1' s2' v1 v2, init x KSource i = Ok s1 /\ init (redraw x (x_inc x) pol) KSource i = Ok s2 /\
  get_snr x no_args 1 None s1 = (s1', Ok [Fin v1]) /\ get_snr (redraw x (x_inc x) pol) no_args 1 None s2 = (s2', Ok [Fin v2]) /\ v1 <> v2.
Proof.
  exists (drawing 0), (fun n => repeat (Fin (PI/4)) n), edge_args, (edge_src 0), (edge_src (PI/4)).
  destruct (draws_matter_thm x_toy (edge_src 0) (edge_src (PI/4)) [edge 0] [edge (PI/4)] no_args toy_time 1 0 (edge 0) (edge (PI/4)) (edge_computable 0) (edge_computable (PI/4)))
    as (s1' & s2' & s0 & v1 & v2 & u & v1i & v2i & ui & E1 & E2 & E0 & N1 & N2 & N0 & (a1 & A1 & B1 & H1) & (a2 & A2 & B2 & H2)); auto; try discriminate;
    try (split; [apply edge_circular|apply edge_stationary]).
  destruct (edge_heard 0 s0 u E0) as (q & Nq & Q). rewrite N0 in Nq. injection Nq as ->. specialize (H1 q eq_refl). specialize (H2 q eq_refl). subst v1i v2i.
  cbn [edge r_sky lat lon psi inc] in A1, A2. rewrite mod_fin in A1, A2. injection A1 as <-. injection A2 as <-.
  destruct (sky_thm x_toy (edge_src 0) [edge 0] no_args toy_time 1 (edge_computable 0)) as (? & w1 & ? & ? & W1 & _ & L1 & _); [discriminate|]. rewrite E1 in W1. injection W1 as _ <-.
  destruct (sky_thm x_toy (edge_src (PI/4)) [edge (PI/4)] no_args toy_time 1 (edge_computable (PI/4))) as (? & w2 & ? & ? & W2 & _ & L2 & _); [discriminate|]. rewrite E2 in W2. injection W2 as _ <-.
  destruct v1 as [|y1 [|]]; try discriminate L1. destruct v2 as [|y2 [|]]; try discriminate L2. cbn in N1, N2. injection N1 as ->. injection N2 as ->.
  eexists s1', s2', _, _. split; [apply edge_init|]. split; [apply edge_init|]. split; [exact E1|]. split; [exact E2|].
  rewrite !edge_mod. rewrite Rmult_0_r, cos_0, sin_0. replace (2 * (PI/4)) with (PI/2) by field. rewrite cos_PI2, sin_PI2. intros H. apply Rmult_eq_reg_r in H; [|lra]. apply sqrt_inj in H; lra.
Qed.
