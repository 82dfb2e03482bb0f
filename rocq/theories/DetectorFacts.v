(** DetectorFacts.v -- proofs about the detector response (utils.py L315-447, strain.py L12-54). *)
From Coq Require Import Reals ZArith List Bool Lra Lia.
From Coquelicot Require Import Coquelicot.
From Verif Require Import Num NumFacts Utils Np Strain Spec.
Import ListNotations.
Open Scope R_scope.

Definition DpR th ph := 3/2048 * (487 + 158 * cos th ^ 2 + 7 * cos th ^ 4
                                  + -162 * sin (2 * ph) ^ 2 * (1 + cos th ^ 2) ^ 2).
Definition DcR th ph := 3/512 * (120 * sin th ^ 2 + cos th ^ 2 + 162 * sin (2 * ph) ^ 2 * cos th ^ 2).
Definition DpcR th ph := 243/512 * (cos th * sin (2 * ph)) * (2 * cos ph ^ 2 - 1) * (1 + cos th ^ 2).
Definition FpR th ph ps := 1/4 * (cos (2*ps) ^ 2 * DpR th ph + - sin (4*ps) * DpcR th ph + sin (2*ps) ^ 2 * DcR th ph).
Definition FcR th ph ps := 1/4 * (cos (2*ps) ^ 2 * DcR th ph + sin (4*ps) * DpcR th ph + sin (2*ps) ^ 2 * DpR th ph).
Definition modR lat lon ps inc :=
  5/4 * (((1 + cos inc ^ 2) / 2) ^ 2 * FpR (PI/2 - lat) lon ps + cos inc ^ 2 * FcR (PI/2 - lat) lon ps).

Lemma Dp_fin th ph : D_plus_squared (Fin th) (Fin ph) = Fin (DpR th ph).
Proof. reflexivity. Qed.
Lemma Dc_fin th ph : D_cross_squared (Fin th) (Fin ph) = Fin (DcR th ph).
Proof. reflexivity. Qed.
Lemma Dpc_fin th ph : D_plus_D_cross (Fin th) (Fin ph) = Fin (DpcR th ph).
Proof. reflexivity. Qed.
Lemma Fp_fin th ph ps : F_plus_squared (Fin th) (Fin ph) (Fin ps) = Fin (FpR th ph ps).
Proof. reflexivity. Qed.
Lemma Fc_fin th ph ps : F_cross_squared (Fin th) (Fin ph) (Fin ps) = Fin (FcR th ph ps).
Proof. reflexivity. Qed.
Lemma mod_fin lat lon ps inc :
  amplitude_modulation_elem (Fin lat) (Fin lon) (Fin ps) (Fin inc) = Fin (modR lat lon ps inc).
Proof.
  unfold amplitude_modulation_elem, modR. simpl ncos. rewrite npowi2, nadd_fin, ndiv_fin by lra.
  rewrite nsub_fin, Fp_fin, Fc_fin, !npowi2, !nmul_fin, nadd_fin, nmul_fin. reflexivity.
Qed.

Lemma sin2_cos2' x : sin x ^ 2 = 1 - cos x ^ 2.
Proof. pose proof (sin2_cos2 x) as H. unfold Rsqr in H. nra. Qed.
Lemma cos2_bound x : 0 <= cos x ^ 2 <= 1.
Proof. pose proof (sin2_cos2 x) as H. unfold Rsqr in H. nra. Qed.
Lemma sin2_bound x : 0 <= sin x ^ 2 <= 1.
Proof. pose proof (sin2_cos2 x) as H. unfold Rsqr in H. nra. Qed.

(** In terms of u = cos^2 theta and w = sin^2 (2 phi). *)
Lemma DpR_uw th ph : DpR th ph =
  let u := cos th ^ 2 in let w := sin (2*ph) ^ 2 in 3/2048 * (487 + 158 * u + 7 * u ^ 2 - 162 * w * (1 + u) ^ 2).
Proof. unfold DpR. cbv zeta. ring. Qed.
Lemma DcR_uw th ph : DcR th ph =
  let u := cos th ^ 2 in let w := sin (2*ph) ^ 2 in 3/512 * (120 * (1 - u) + u + 162 * w * u).
Proof. unfold DcR. cbv zeta. rewrite sin2_cos2'. ring. Qed.
Lemma DpcR_uw th ph : DpcR th ph ^ 2 =
  let u := cos th ^ 2 in let w := sin (2*ph) ^ 2 in (243/512) ^ 2 * u * w * (1 - w) * (1 + u) ^ 2.
Proof.
  unfold DpcR. cbv zeta.
  replace (2 * cos ph ^ 2 - 1) with (cos (2 * ph)) by (rewrite cos_2a_cos; ring).
  replace (1 - sin (2 * ph) ^ 2) with (cos (2*ph) ^ 2) by (rewrite (sin2_cos2' (2*ph)); ring).
  ring.
Qed.
Lemma DpR_pos th ph : 0 < DpR th ph.
Proof.
  rewrite DpR_uw. cbv zeta. pose proof (cos2_bound th). pose proof (sin2_bound (2*ph)).
  set (u := cos th ^ 2) in *. set (w := sin (2*ph) ^ 2) in *. nra.
Qed.
Lemma DcR_pos th ph : 0 < DcR th ph.
Proof.
  rewrite DcR_uw. cbv zeta. pose proof (cos2_bound th). pose proof (sin2_bound (2*ph)).
  set (u := cos th ^ 2) in *. set (w := sin (2*ph) ^ 2) in *. nra.
Qed.
Lemma Dpc_cs th ph : DpcR th ph ^ 2 <= DpR th ph * DcR th ph.
Proof.
  rewrite DpcR_uw, DpR_uw, DcR_uw. cbv zeta. pose proof (cos2_bound th). pose proof (sin2_bound (2*ph)).
  set (u := cos th ^ 2) in *. set (w := sin (2*ph) ^ 2) in *.
  (* D+ >= 3/2048 (487 + 158u + 7u^2 - 162 w (1+u)^2), Dx >= 3/512 u (1 + 162 w) + ... *)
  assert (A : 3/2048 * (162 * (1 - w) * (1 + u) ^ 2) <= 3/2048 * (487 + 158*u + 7*u^2 - 162*w*(1+u)^2)).
  { apply Rmult_le_compat_l; [lra|]. nra. }
  assert (B : 3/512 * (162 * w * u) <= 3/512 * (120 * (1-u) + u + 162*w*u)) by nra.
  assert (C : (243/512)^2 * u * w * (1-w) * (1+u)^2 <=
              (3/2048 * (162 * (1 - w) * (1 + u) ^ 2)) * (3/512 * (162 * w * u))).
  { replace ((3/2048 * (162 * (1 - w) * (1 + u) ^ 2)) * (3/512 * (162 * w * u)))
      with ((243/512)^2 * u * w * (1-w) * (1+u)^2) by field. lra. }
  eapply Rle_trans; [exact C|].
  assert (0 <= w * u) by nra. assert (0 <= (1 - w) * (1+u)^2) by (apply Rmult_le_pos; [lra|apply pow2_ge_0]).
  apply Rmult_le_compat; auto; nra.
Qed.

Lemma sin4 ps : sin (4 * ps) = 2 * sin (2*ps) * cos (2*ps).
Proof. replace (4 * ps) with (2 * (2 * ps)) by ring. apply sin_2a. Qed.

Lemma quad_form_nonneg a b x c s : 0 < a -> 0 < b -> x ^ 2 <= a * b -> 0 <= c ^ 2 * a + 2 * s * c * x + s ^ 2 * b.
Proof.
  intros Ha Hb H.
  apply Rmult_le_reg_l with a; auto. rewrite Rmult_0_r.
  replace (a * (c ^ 2 * a + 2 * s * c * x + s ^ 2 * b)) with ((a * c + s * x) ^ 2 + s ^ 2 * (a * b - x ^ 2)) by ring.
  apply Rplus_le_le_0_compat; [apply pow2_ge_0|]. apply Rmult_le_pos; [apply pow2_ge_0|lra].
Qed.
Lemma FpR_nonneg th ph ps : 0 <= FpR th ph ps.
Proof.
  unfold FpR. rewrite sin4. apply Rmult_le_pos; [lra|].
  pose proof (quad_form_nonneg (DpR th ph) (DcR th ph) (- DpcR th ph) (cos (2*ps)) (sin (2*ps))
                (DpR_pos _ _) (DcR_pos _ _)) as Q.
  assert (E : (- DpcR th ph) ^ 2 <= DpR th ph * DcR th ph).
  { replace ((- DpcR th ph) ^ 2) with (DpcR th ph ^ 2) by ring. apply Dpc_cs. }
  specialize (Q E). lra.
Qed.
Lemma FcR_nonneg th ph ps : 0 <= FcR th ph ps.
Proof.
  unfold FcR. rewrite sin4. apply Rmult_le_pos; [lra|].
  pose proof (quad_form_nonneg (DcR th ph) (DpR th ph) (DpcR th ph) (cos (2*ps)) (sin (2*ps))
                (DcR_pos _ _) (DpR_pos _ _)) as Q.
  rewrite Rmult_comm in Q. specialize (Q (Dpc_cs th ph)). lra.
Qed.
Lemma F_sum th ph ps : FpR th ph ps + FcR th ph ps = (DpR th ph + DcR th ph) / 4.
Proof.
  unfold FpR, FcR. rewrite (sin2_cos2' (2*ps)). field.
Qed.
Lemma F_swap th ph ps : FpR th ph (ps + PI/4) = FcR th ph ps.
Proof.
  unfold FpR, FcR.
  replace (2 * (ps + PI/4)) with (PI/2 + 2 * ps) by field.
  replace (4 * (ps + PI/4)) with (4 * ps + PI) by field.
  rewrite neg_sin. replace (cos (PI/2 + 2*ps)) with (- sin (2*ps)) by (rewrite sin_cos; ring).
  replace (sin (PI/2 + 2*ps)) with (cos (2*ps)) by (rewrite cos_sin; auto). ring.
Qed.
Lemma F_sum_bound th ph ps : FpR th ph ps + FcR th ph ps <= 3/2048 * 967 / 4.
Proof.
  rewrite F_sum, DpR_uw, DcR_uw. cbv zeta. pose proof (cos2_bound th). pose proof (sin2_bound (2*ph)).
  set (u := cos th ^ 2) in *. set (w := sin (2*ph) ^ 2) in *. nra.
Qed.
Lemma modR_bounds lat lon ps inc : 0 <= modR lat lon ps inc < 1/2.
Proof.
  unfold modR. set (th := PI/2 - lat). pose proof (FpR_nonneg th lon ps) as P. pose proof (FcR_nonneg th lon ps) as Q.
  pose proof (F_sum_bound th lon ps) as S. pose proof (cos2_bound inc) as C.
  set (u := cos inc ^ 2) in *.
  assert (0 <= ((1 + u)/2)^2 <= 1) by nra. nra.
Qed.
(** For face-on binaries the modulation does not depend on the polarisation angle. *)
Lemma modR_positive lat lon ps inc : cos inc <> 0 \/ 0 < FpR (PI/2 - lat) lon ps -> 0 < modR lat lon ps inc.
Proof.
  intros H. unfold modR. set (th := PI/2 - lat) in *. pose proof (FpR_nonneg th lon ps) as P.
  pose proof (FcR_nonneg th lon ps) as Q.
  assert (U : 0 < ((1 + cos inc ^ 2)/2)^2) by (pose proof (cos2_bound inc); nra).
  destruct H as [H|H].
  - assert (V : 0 < cos inc ^ 2) by (apply pow2_gt_0; auto).
    assert (0 < FpR th lon ps + FcR th lon ps).
    { rewrite F_sum. pose proof (DpR_pos th lon). pose proof (DcR_pos th lon). lra. }
    destruct P as [P|P].
    + assert (0 < ((1 + cos inc ^ 2)/2)^2 * FpR th lon ps) by nra. nra.
    + assert (0 < FcR th lon ps) by lra. assert (0 < cos inc ^ 2 * FcR th lon ps) by nra. nra.
  - assert (0 < ((1 + cos inc ^ 2)/2)^2 * FpR th lon ps) by nra. pose proof (cos2_bound inc). nra.
Qed.

(** ** Averages *)
Lemma RInt_deriv (F f : R -> R) a b : (forall x, is_derive F x (f x)) -> (forall x, continuous f x) ->
  RInt f a b = F b - F a.
Proof.
  intros H C. apply is_RInt_unique. apply (is_RInt_derive F f); intros; auto.
Qed.

Lemma cont_auto (f : R -> R) x : ex_derive f x -> continuous f x.
Proof. apply (ex_derive_continuous (K := R_AbsRing) (V := R_NormedModule)). Qed.

Lemma cos4 ps : cos (4 * ps) = 2 * cos (2*ps) ^ 2 - 1.
Proof. replace (4 * ps) with (2 * (2 * ps)) by ring. rewrite cos_2a_cos. ring. Qed.
Lemma sin_4PI : sin (4 * PI) = 0.
Proof. rewrite sin4, sin_2PI. ring. Qed.
Lemma cos_4PI : cos (4 * PI) = 1.
Proof. rewrite cos4, cos_2PI. ring. Qed.

(** average over polarisation of a quadratic form in (cos 2psi, sin 2psi) *)
Lemma avg_psi_quad a b x :
  avg_psi (fun ps => 1/4 * (cos (2*ps) ^ 2 * a + sin (4*ps) * x + sin (2*ps) ^ 2 * b)) = (a + b) / 8.
Proof.
  unfold avg_psi. pose proof PI_RGT_0 as HP.
  rewrite (RInt_deriv (fun ps => 1/4 * ((ps/2 + sin (4*ps)/8) * a - cos (4*ps)/4 * x + (ps/2 - sin (4*ps)/8) * b))).
  - rewrite Rmult_0_r, sin_0, cos_0, sin_4PI, cos_4PI. field. lra.
  - intros ps. auto_derive; auto. rewrite cos4, (sin2_cos2' (2*ps)). field.
  - intros ps. apply cont_auto. auto_derive. auto.
Qed.
Lemma avg_psi_Fp th ph : avg_psi (FpR th ph) = (DpR th ph + DcR th ph) / 8.
Proof.
  rewrite <- (avg_psi_quad _ _ (- DpcR th ph)). unfold avg_psi. f_equal. apply RInt_ext.
  intros ps _. unfold FpR. cbv beta. apply Rminus_diag_uniq. ring.
Qed.
Lemma avg_psi_Fc th ph : avg_psi (FcR th ph) = (DpR th ph + DcR th ph) / 8.
Proof.
  rewrite Rplus_comm, <- (avg_psi_quad _ _ (DpcR th ph)). unfold avg_psi. f_equal.
Qed.
Lemma avg_phi_D th : avg_phi (fun ph => (DpR th ph + DcR th ph) / 8) =
  let u := cos th ^ 2 in 3/16384 * (967 - 318 * u + 7 * u ^ 2 - 81 * (1 - u) ^ 2).
Proof.
  unfold avg_phi. cbv zeta. pose proof PI_RGT_0 as HP. set (u := cos th ^ 2).
  rewrite (RInt_deriv (fun ph => 3/16384 * ((967 - 318 * u + 7 * u ^ 2) * ph
                                            - 162 * (1 - u) ^ 2 * (ph/2 - sin (4*ph)/8)))).
  - replace (4 * (2 * PI)) with (2 * (4 * PI)) by ring. rewrite sin_2a, sin_4PI.
    replace (4 * 0) with 0 by ring. rewrite sin_0. field. lra.
  - intros ph. auto_derive; auto. rewrite cos4, DpR_uw, DcR_uw. cbv zeta. fold u.
    rewrite (sin2_cos2' (2*ph)). field.
  - intros ph. apply cont_auto.
    apply (ex_derive_ext (fun ph => (3/2048 * (487 + 158 * u + 7 * u ^ 2 - 162 * sin (2*ph) ^ 2 * (1 + u) ^ 2)
                                     + 3/512 * (120 * (1 - u) + u + 162 * sin (2*ph) ^ 2 * u)) / 8)).
    + intros t. rewrite DpR_uw, DcR_uw. reflexivity.
    + auto_derive. auto.
Qed.
Lemma avg_theta_poly a b c : avg_theta (fun th => let u := cos th ^ 2 in a + b * u + c * u ^ 2) = a + b/3 + c/5.
Proof.
  unfold avg_theta. cbv zeta.
  rewrite (RInt_deriv (fun th => - (a * cos th + b * cos th ^ 3 / 3 + c * cos th ^ 5 / 5))).
  - rewrite cos_PI, cos_0. field.
  - intros th. auto_derive; auto. field.
  - intros th. apply cont_auto. auto_derive. auto.
Qed.
Lemma avg_theta_ext f g : (forall th, f th = g th) -> avg_theta f = avg_theta g.
Proof. intros H. unfold avg_theta. f_equal. apply RInt_ext. intros. now rewrite H. Qed.
Lemma avg_phi_ext f g : (forall th, f th = g th) -> avg_phi f = avg_phi g.
Proof. intros H. unfold avg_phi. f_equal. apply RInt_ext. intros. now rewrite H. Qed.
Lemma avg_psi_ext f g : (forall th, f th = g th) -> avg_psi f = avg_psi g.
Proof. intros H. unfold avg_psi. f_equal. apply RInt_ext. intros. now rewrite H. Qed.

Lemma sky_avg_D : avg_theta (fun th => avg_phi (fun ph => (DpR th ph + DcR th ph) / 8)) = 3/20.
Proof.
  erewrite avg_theta_ext.
  2:{ intros th. rewrite avg_phi_D.
      instantiate (1 := fun th => let u := cos th ^ 2 in
        3/16384 * (967 - 81) + 3/16384 * (-318 + 162) * u + 3/16384 * (7 - 81) * u ^ 2). cbv zeta beta. ring. }
  rewrite avg_theta_poly. lra.
Qed.
Lemma avg_Fp : avg_theta (fun th => avg_phi (fun ph => avg_psi (FpR th ph))) = 3/20.
Proof.
  rewrite <- sky_avg_D. apply avg_theta_ext. intros. apply avg_phi_ext. intros. apply avg_psi_Fp.
Qed.
Lemma avg_Fc : avg_theta (fun th => avg_phi (fun ph => avg_psi (FcR th ph))) = 3/20.
Proof.
  rewrite <- sky_avg_D. apply avg_theta_ext. intros. apply avg_phi_ext. intros. apply avg_psi_Fc.
Qed.

(** Averaging the modulation over inclination (weight sin inc), polarisation, longitude and co-latitude
    (latitude = pi/2 - co-latitude). *)
Lemma avg_inc_mod th ph ps :
  avg_theta (fun inc => modR (PI/2 - th) ph ps inc) = 5/4 * (7/15 * FpR th ph ps + 1/3 * FcR th ph ps).
Proof.
  erewrite avg_theta_ext.
  2:{ intros inc. unfold modR. replace (PI/2 - (PI/2 - th)) with th by ring.
      instantiate (1 := fun inc => let u := cos inc ^ 2 in 5/16 * FpR th ph ps
         + (5/8 * FpR th ph ps + 5/4 * FcR th ph ps) * u + 5/16 * FpR th ph ps * u ^ 2). cbv zeta beta. field. }
  rewrite avg_theta_poly. field.
Qed.
Lemma avg_psi_lin a b th ph :
  avg_psi (fun ps => 5/4 * (a * FpR th ph ps + b * FcR th ph ps)) = 5/4 * (a + b) * ((DpR th ph + DcR th ph) / 8).
Proof.
  transitivity (avg_psi (fun ps => 1/4 * (cos (2*ps) ^ 2 * (5/4 * (a * DpR th ph + b * DcR th ph))
     + sin (4*ps) * (5/4 * ((b - a) * DpcR th ph)) + sin (2*ps) ^ 2 * (5/4 * (a * DcR th ph + b * DpR th ph))))).
  - apply avg_psi_ext. intros ps. unfold FpR, FcR. field.
  - rewrite avg_psi_quad. field.
Qed.
Lemma avg_mod : avg_theta (fun th => avg_phi (fun ph => avg_psi (fun ps =>
                  avg_theta (fun inc => modR (PI/2 - th) ph ps inc)))) = 3/20.
Proof.
  rewrite <- sky_avg_D. apply avg_theta_ext. intros th. apply avg_phi_ext. intros ph.
  erewrite avg_psi_ext; [|intros ps; apply avg_inc_mod]. rewrite avg_psi_lin. field.
Qed.

Lemma avg_responses : forall fp fc : R -> R -> R -> R,
  (forall th ph ps, F_plus_squared (Fin th) (Fin ph) (Fin ps) = Fin (fp th ph ps)) ->
  (forall th ph ps, F_cross_squared (Fin th) (Fin ph) (Fin ps) = Fin (fc th ph ps)) ->
  avg_theta (fun th => avg_phi (fun ph => avg_psi (fun ps => fp th ph ps))) = 3/20 /\
  avg_theta (fun th => avg_phi (fun ph => avg_psi (fun ps => fc th ph ps))) = 3/20.
Proof.
  intros fp fc Hp Hc. split.
  - rewrite <- avg_Fp. apply avg_theta_ext. intros. apply avg_phi_ext. intros. apply avg_psi_ext. intros.
    apply Fin_inj. rewrite <- Hp. apply Fp_fin.
  - rewrite <- avg_Fc. apply avg_theta_ext. intros. apply avg_phi_ext. intros. apply avg_psi_ext. intros.
    apply Fin_inj. rewrite <- Hc. apply Fc_fin.
Qed.
Lemma avg_modulation : forall md : R -> R -> R -> R -> R,
  (forall lat lon ps inc, amplitude_modulation_elem (Fin lat) (Fin lon) (Fin ps) (Fin inc) = Fin (md lat lon ps inc)) ->
  avg_theta (fun th => avg_phi (fun ph => avg_psi (fun ps => avg_theta (fun inc =>
    md (PI/2 - th) ph ps inc)))) = 3/20.
Proof.
  intros md H. rewrite <- avg_mod. apply avg_theta_ext. intros. apply avg_phi_ext. intros. apply avg_psi_ext. intros.
  apply avg_theta_ext. intros. apply Fin_inj. rewrite <- H. apply mod_fin.
Qed.
Lemma modulation_bounds : forall lat lon ps inc,
  exists m, amplitude_modulation_elem (Fin lat) (Fin lon) (Fin ps) (Fin inc) = Fin m /\ 0 <= m < 1.
Proof.
  intros. exists (modR lat lon ps inc). split; [apply mod_fin|]. pose proof (modR_bounds lat lon ps inc). lra.
Qed.
