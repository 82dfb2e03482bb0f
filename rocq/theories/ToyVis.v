(** ToyVis.v -- concrete collections with stored SNRs, for the examples beside the theorems about plots. *)
From Coq Require Import String Reals ZArith List Lra Lia Bool.
From Verif Require Import Num NumFacts Np NpFacts Utils UtilsFacts Spec Strain StrainSpec Psd PsdSpec Snr SnrSpec Evol EvolSpec EvolFacts Harmonics HarmSpec HarmThms ScParams Source Index
  SourceSpec MethodSpec SourceFacts MethodThms CurveSpec CurveThms Toy Toy2 Toy3 Vis VisSpec VisFacts.
Import ListNotations.
Open Scope R_scope.

(** The sources [xs] with weights and stored SNRs, with the custom instrument number 0 (noise 1). *)
Definition seen (xs : list row) : src :=
  mkSrc KSource (map r_m1 xs) (map r_m2 xs) (map r_d xs) (map r_f xs) (map r_e xs) (Some (map r_w xs)) None None None None
        (Some (map r_snr xs)) (Some (map r_msh xs)) (map r_merged xs) (Fin (1/100)) 1 toy_h None false None (custom_params 0).
Lemma seen_collection xs : collection (seen xs) xs.
Proof. split; try reflexivity; try (left; reflexivity); right; reflexivity. Qed.
Definition loud (m f e snr : R) : row := mkRow (Fin m) (Fin m) (Fin 1e20) (Fin f) (Fin e) (mkAngles 0 0 0 0) (Fin 1) (Fin 0) (Fin snr) 2 false.
Lemma seen_time xs : mask_time (seen xs) PNil toy_time.
Proof. right. split; reflexivity. Qed.
Lemma toy_tolerance : exists t, h_ecc_tol toy_h = Some (Fin t) /\ 0 <= t <= 1/5.
Proof.
  pose proof toy_h_ok as H. revert H. unfold set_gw_lum_tol. cbn [h_gw_lum_tol no_harm].
  match goal with |- context [create_harmonics_functions lum_ex ?h0] => destruct (create_harmonics_functions lum_ex h0) as [h1 [u|]] end; [|intros H; discriminate H].
  unfold find_eccentric_transition. destruct (h_gw_lum_tol h1); [|intros H; discriminate H]. destruct (eccentric_transition jv_toy n) as [et|] eqn:E; [|intros H; discriminate H].
  intros H. apply (f_equal fst) in H. cbn [fst] in H. rewrite <- H. destruct (transition_spec _ _ _ E) as (j & Hj & -> & _). exists (grid_ecc j). split; [reflexivity|].
  now apply grid_ecc_bounds.
Qed.
Transparent Ggrav clight.
Lemma c5_bounds : 1e43 < 5 * clight ^ 5 < 2e43.
Proof. unfold clight. split; lra. Qed.
Lemma rpow_ge_1 a b : 1 <= a -> 0 <= b -> 1 <= Rpower a b.
Proof. intros A B. rewrite <- (Rpower_O a) by lra. destruct (Req_dec a 1) as [-> |N]; [rewrite !Rpower_1_base; lra|]. apply Rle_Rpower; lra. Qed.
Lemma cube_root x y k : 0 < x -> 0 < y -> x = y ^ 3 -> Rpower x (INR k / 3) = y ^ k.
Proof. intros X Y ->. rewrite <- (Rpower_pow 3 y Y), Rpower_mult, <- (Rpower_pow k y Y). f_equal. simpl INR. lra. Qed.
Lemma time_bounds : 1e8 <= toy_time <= 2e8.
Proof. unfold toy_time, mission_length. cbn. unfold year. lra. Qed.
Lemma pow_lt_5 a b : 0 <= a -> a < b -> a ^ 5 < b ^ 5.
Proof. intros A B. assert (a ^ 2 < b ^ 2) by nra. assert (0 <= a ^ 2) by nra. assert (a ^ 4 < b ^ 4) by nra. assert (0 <= a ^ 4) by (apply pow_le; lra). cbn in *. nra. Qed.
Lemma chirp_bounds m : 0 < m -> m / 2 <= chirpR m m <= m.
Proof.
  intros M. pose proof (chirpR_pow5 m m M M) as P. pose proof (chirpR_pos m m). set (c := chirpR m m) in *.
  assert (E : c ^ 5 = m ^ 5 / 2). { apply Rmult_eq_reg_r with (m + m); [|lra]. rewrite P. field. }
  assert (0 < m ^ 5) by (apply pow_lt; auto).
  split; apply Rnot_lt_le; intros L.
  - assert (c ^ 5 < (m / 2) ^ 5) by (apply pow_lt_5; lra). assert ((m / 2) ^ 5 = m ^ 5 / 32) by field. lra.
  - assert (m ^ 5 < c ^ 5) by (apply pow_lt_5; lra). lra.
Qed.
(** Two objects of 10^36 kg at 1 Hz merge within the mission, whatever the eccentricity. *)
Lemma heavy_evolves s e snr : 0 <= e < 1 -> s_stat_tol s = Fin (1/100) -> is_stationary s toy_time (loud 1e36 1 e snr) false.
Proof.
  intros He HT. assert (Z : stat_of s toy_time (loud 1e36 1 e snr) = false); [|rewrite <- Z; apply stat_of_spec].
  unfold stat_of. rewrite HT. cbn [r_f r_e loud]. unfold row_mc. cbn [r_m1 r_m2 loud]. rewrite chirp_mass_fin by lra.
  pose proof (chirp_bounds 1e36 ltac:(lra)) as [CL CU]. pose proof (chirpR_pos 1e36 1e36) as CP. set (c := chirpR 1e36 1e36) in *. clearbody c.
  change (nle ((circ_f_elem (Fin 1) (Fin c) (Fin toy_time) (Fin e) merge_f_default - Fin 1) / Fin 1)%num (Fin (1/100))) with (stat_elem (Fin 1) (Fin c) (Fin toy_time) (Fin e) (Fin (1/100))).
  destruct (stat_elem _ _ _ _ _) eqn:E; auto. exfalso. apply stat_elem_char in E; try lra. destruct E as [E _]. unfold innerR in E. rewrite Rpower_1_base in E.
  assert (A : 1e40 <= Rpower (Ggrav * c) (5/3)).
  { replace 1e40 with (Rpower 1e24 (5/3)); [apply Rpower_mono_base_le; [unfold Ggrav; lra|lra]|].
    replace (5/3) with (INR 5 / 3) by (simpl; lra). rewrite (cube_root 1e24 1e8 5) by lra. lra. }
  assert (B : 1 <= Rpower 2 (32/3) * Rpower PI (8/3)).
  { pose proof (rpow_ge_1 2 (32/3) ltac:(lra) ltac:(lra)). pose proof PI2_3_2. unfold PI2 in *. pose proof (rpow_ge_1 PI (8/3) ltac:(lra) ltac:(lra)). nra. }
  pose proof (enhancement_ge_1 e ltac:(lra)) as EG. pose proof time_bounds as TB. pose proof c5_bounds as C5.
  set (k := Rpower 2 (32/3) * Rpower PI (8/3)) in *. set (P := Rpower (Ggrav * c) (5/3)) in *. set (q := 5 * clight ^ 5) in *. clearbody k P q.
  assert (D : 1e8 / 2e43 <= k * toy_time / q). { unfold Rdiv. apply Rmult_le_compat; [lra|left; apply Rinv_0_lt_compat; lra|nra|]. apply Rinv_le_contravar; lra. }
  assert (F : 1 < k * toy_time / q * P). { set (z := k * toy_time / q) in *. clearbody z. assert (1e8 / 2e43 * 1e40 <= z * P) by (apply Rmult_le_compat; lra). lra. }
  set (z := k * toy_time / q * P) in *. clearbody z. nra.
Qed.
(** Two objects of 10^30 kg on a circular orbit at 1 mHz are stationary. *)
Lemma light_stationary s snr : s_stat_tol s = Fin (1/100) -> is_stationary s toy_time (loud 1e30 1e-3 0 snr) true.
Proof.
  intros HT. assert (Z : stat_of s toy_time (loud 1e30 1e-3 0 snr) = true); [|rewrite <- Z; apply stat_of_spec].
  unfold stat_of. rewrite HT. cbn [r_f r_e loud]. unfold row_mc. cbn [r_m1 r_m2 loud]. rewrite chirp_mass_fin by lra.
  pose proof (chirp_bounds 1e30 ltac:(lra)) as [CL CU]. pose proof (chirpR_pos 1e30 1e30) as CP. set (c := chirpR 1e30 1e30) in *. clearbody c.
  change (nle ((circ_f_elem (Fin 1e-3) (Fin c) (Fin toy_time) (Fin 0) merge_f_default - Fin 1e-3) / Fin 1e-3)%num (Fin (1/100))) with (stat_elem (Fin 1e-3) (Fin c) (Fin toy_time) (Fin 0) (Fin (1/100))).
  apply stat_elem_char; try lra. unfold innerR. rewrite enhancement_0, Rmult_1_r.
  assert (A : Rpower (Ggrav * c) (5/3) <= 1e35).
  { replace 1e35 with (Rpower 1e21 (5/3)); [apply Rpower_mono_base_le; [unfold Ggrav; lra|lra]|].
    replace (5/3) with (INR 5 / 3) by (simpl; lra). rewrite (cube_root 1e21 1e7 5) by lra. lra. }
  assert (B : 0 < Rpower 2 (32/3) * Rpower PI (8/3) <= 131072).
  { assert (Rpower 2 (32/3) <= 2048). { replace 2048 with (Rpower 2 11); [apply Rle_Rpower; lra|]. replace 11 with (INR 11) by (simpl; lra). rewrite Rpower_pow by lra. lra. }
    assert (Rpower PI (8/3) <= 64). { pose proof PI_4. pose proof PI_RGT_0. apply Rle_trans with (Rpower 4 (8/3)); [apply Rpower_mono_base_le; lra|].
      apply Rle_trans with (Rpower 4 3); [apply Rle_Rpower; lra|]. replace 3 with (INR 3) by (simpl; lra). rewrite Rpower_pow by lra. lra. }
    assert (0 < Rpower 2 (32/3)) by apply exp_pos. assert (0 < Rpower PI (8/3)) by apply exp_pos. split; nra. }
  assert (AP : 0 < Rpower (Ggrav * c) (5/3)) by apply exp_pos.
  assert (FF : Rpower 1e-3 (-8/3) = 1e8).
  { replace (-8/3) with (-(INR 8 / 3)) by (simpl; lra). rewrite Rpower_Ropp, (cube_root 1e-3 1e-1 8) by lra. lra. }
  rewrite FF. pose proof time_bounds as TB. pose proof c5_bounds as C5.
  set (k := Rpower 2 (32/3) * Rpower PI (8/3)) in *. set (P := Rpower (Ggrav * c) (5/3)) in *. set (q := 5 * clight ^ 5) in *. clearbody k P q.
  assert (D : 0 <= k * toy_time / q <= 131072 * 2e8 / 1e43).
  { split; [unfold Rdiv; apply Rmult_le_pos; [nra|left; apply Rinv_0_lt_compat; lra]|]. unfold Rdiv. apply Rmult_le_compat; [nra|left; apply Rinv_0_lt_compat; lra|nra|]. apply Rinv_le_contravar; lra. }
  assert (F : 0 <= k * toy_time / q * P <= 5e5).
  { set (z := k * toy_time / q) in *. clearbody z. split; [nra|]. assert (z * P <= 131072 * 2e8 / 1e43 * 1e35) by (apply Rmult_le_compat; lra). lra. }
  set (z := k * toy_time / q * P) in *. clearbody z. split; [lra|].
  assert (G : 1e-3 = Rpower 1e8 (-3/8)). { rewrite <- FF, Rpower_mult. replace (-8/3 * (-3/8)) with 1 by lra. now rewrite Rpower_1 by lra. }
  apply Rle_trans with (Rpower (1e8 * 0.995) (-3/8)).
  - replace (-3/8) with (-(3/8)) by lra. rewrite !Rpower_Ropp. apply Rinv_le_contravar; [apply exp_pos|]. apply Rpower_mono_base_le; lra.
  - rewrite <- Rpower_mult_distr by lra. rewrite <- G. apply Rmult_le_compat_l; [lra|]. apply Rle_trans with (Rpower 0.995 (-1)).
    + replace (-3/8) with (-(3/8)) by lra. replace (-1) with (-(1)) by lra. rewrite !Rpower_Ropp. apply Rinv_le_contravar; [apply exp_pos|]. rewrite Rpower_1 by lra.
      replace 0.995 with (/ (/ 0.995)) at 2 by lra. replace (Rpower (/ / 0.995) (3/8)) with (/ Rpower (/ 0.995) (3/8)).
      * replace 0.995 with (/ (/ 0.995)) at 1 by lra. apply Rinv_le_contravar; [apply exp_pos|]. rewrite <- (Rpower_1 (/ 0.995)) at 2 by lra. apply Rle_Rpower; lra.
      * unfold Rpower. rewrite <- exp_Ropp. f_equal. rewrite (ln_Rinv (/ 0.995)) by lra. lra.
    + replace (-1) with (-(1)) by lra. rewrite Rpower_Ropp, Rpower_1 by lra. lra.
Qed.
Opaque Ggrav clight.
Lemma one_noise s r p : (forall f, p f = Fin 1) -> r_f r = Fin s -> 0 < s -> (0 < r_msh r)%Z -> good_noise p (dominant r).
Proof.
  intros P F S M. unfold dominant. rewrite F. unfold nZ. cbn [nmul]. exists (s * IZR (r_msh r)). split; [reflexivity|]. split.
  - apply Rmult_lt_0_compat; auto. now apply (IZR_lt 0).
  - right. exists 1. split; [apply P|lra].
Qed.
Lemma unit_curve : exact_curve x_toy (custom_params 0) (fun _ => Fin 1).
Proof. intros fs. rewrite (custom_exact 0 fs). f_equal. apply map_ext. intros _. f_equal. simpl. lra. Qed.
(** A collection of two sources with SNR 9, a stationary one and one that merges, and the same with an eccentric one. *)
Definition h_c_settings : settings := mkSettings (Some "h_c"%string) (Some [Fin 1]) None.
Lemma shown_rows xs : (forall r, In r xs -> r = loud 1e30 1e-3 0 9 \/ exists e, r = loud 1e36 1 e 9) ->
  forall r, In r xs -> plotted (seen xs) toy_time (Fin 7) r -> good_noise (fun _ => Fin 1) (dominant r).
Proof. intros H r Hr _. destruct (H r Hr) as [-> |[e ->]]; [apply (one_noise 1e-3)|apply (one_noise 1)]; auto; cbn; try lra; lia. Qed.
Lemma loud_above : above (Fin 7) (Fin 9).
Proof. unfold above, ngt. apply nlt_fin. lra. Qed.
(** An eccentric source that is not shown and not reported. *)
Lemma eccentric_unreported : exists s xs r t cutoff v dt size ax p,
  collection s xs /\ s_snr s = Some (map r_snr xs) /\ s_max_snr_harmonic s = Some (map r_msh xs) /\ mask_time s PNil t /\ exact_curve x_toy (s_params s) p /\
  known_quantity v /\ known_type dt /\ frequencies v <> [] /\
  In r xs /\ eccentric_unplotted s t cutoff r /\ reports (fst (source_plot x_toy cutoff v dt size ax s)) = [].
Proof.
  destruct toy_tolerance as (tol & T & B). set (r := loud 1e36 1 (1/2) 9). set (xs := [r]).
  exists (seen xs), xs, r, toy_time, (Fin 7), h_c_settings, "scatter"%string, (Fin 20), New, (fun _ => Fin 1).
  split; [apply seen_collection|]. do 2 (split; [reflexivity|]). split; [apply seen_time|]. split; [exact unit_curve|]. split; [right; reflexivity|]. split; [left; reflexivity|].
  split; [discriminate|]. split; [now left|]. assert (S : is_stationary (seen xs) toy_time r false) by (apply heavy_evolves; [lra|reflexivity]).
  assert (GE : ngt (Fin (1/2)) (Fin tol) = true) by (unfold ngt; apply nlt_fin; lra).
  split. { split; [exists (Fin tol); split; [exact T|exact GE]|]. split; [exact S|]. split; [exact loud_above|reflexivity]. }
  destruct (source_gen (seen xs) xs x_toy (fun _ => Fin 1) (Fin 7) h_c_settings "scatter" (Fin 20) New toy_time (Fin tol)) as (ys & zs & TY & TZ & EQ);
    [apply seen_collection|reflexivity|reflexivity|exact T|apply seen_time|exact unit_curve|right; reflexivity|left; reflexivity|discriminate|
     apply shown_rows; intros r0 [<-|[]]; right; now exists (1/2)|].
  assert (Y : ys = []). { inversion TY as [|? ? ? P|? ? ? P Q]; subst; [destruct P as [P _]; unfold is_stationary in *; congruence|now inversion Q]. }
  assert (Z : zs = []). { inversion TZ as [|? ? ? P|? ? ? P Q]; subst; [|now inversion Q]. destruct P as [(u & U & L) _]. cbn [s_harm seen] in U. rewrite T in U. injection U as <-.
    cbn [r_e r loud] in L. unfold r, loud in L. cbn [r_e] in L. apply nle_fin in L. lra. }
  rewrite EQ, Y, Z. reflexivity.
Qed.
(** A circular source that is reported twice, once as eccentric. *)
Lemma circular_twice : exists s xs r t cutoff v dt size ax p,
  collection s xs /\ s_snr s = Some (map r_snr xs) /\ s_max_snr_harmonic s = Some (map r_msh xs) /\ mask_time s PNil t /\ exact_curve x_toy (s_params s) p /\
  known_quantity v /\ known_type dt /\ frequencies v <> [] /\
  In r xs /\ circular_unplotted s t cutoff r /\ (forall r', In r' xs -> ~ eccentric_unplotted s t cutoff r') /\
  reports (fst (source_plot x_toy cutoff v dt size ax s)) = [CircularEvolving 1; EccentricEvolving 1].
Proof.
  destruct toy_tolerance as (tol & T & B). set (r := loud 1e36 1 0 9). set (xs := [loud 1e30 1e-3 0 9; r]).
  exists (seen xs), xs, r, toy_time, (Fin 7), h_c_settings, "scatter"%string, (Fin 20), New, (fun _ => Fin 1).
  split; [apply seen_collection|]. do 2 (split; [reflexivity|]). split; [apply seen_time|]. split; [exact unit_curve|]. split; [right; reflexivity|]. split; [left; reflexivity|].
  split; [discriminate|]. split; [right; now left|]. assert (S : is_stationary (seen xs) toy_time r false) by (apply heavy_evolves; [lra|reflexivity]).
  assert (S' : is_stationary (seen xs) toy_time (loud 1e30 1e-3 0 9) true) by (apply light_stationary; reflexivity).
  assert (GE : nle (Fin 0) (Fin tol) = true) by (apply nle_fin; lra).
  assert (U : circular_unplotted (seen xs) toy_time (Fin 7) r). { split; [exists (Fin tol); split; [exact T|exact GE]|]. split; [exact S|]. split; [exact loud_above|reflexivity]. }
  split; [exact U|]. split. { intros r' Hr' [(u & V & L) _]. cbn [s_harm seen] in V. rewrite T in V. injection V as <-. assert (r_e r' = Fin 0) as Z by (destruct Hr' as [<-|[<-|[]]]; reflexivity).
    rewrite Z in L. unfold ngt in L. apply nlt_fin in L. lra. }
  destruct (source_gen (seen xs) xs x_toy (fun _ => Fin 1) (Fin 7) h_c_settings "scatter" (Fin 20) New toy_time (Fin tol)) as (ys & zs & TY & TZ & EQ);
    [apply seen_collection|reflexivity|reflexivity|exact T|apply seen_time|exact unit_curve|right; reflexivity|left; reflexivity|discriminate|
     apply shown_rows; intros r0 [<-|[<-|[]]]; [now left|right; now exists 0]|].
  assert (Z : zs = [r]).
  { inversion TZ as [|? ? ? P|? ? ? P Q]; subst. { destruct P as (_ & P & _). unfold is_stationary in *; congruence. }
    inversion Q as [|? ? ? P' Q'|? ? ? P' Q']; subst; [inversion Q'; reflexivity|contradiction]. }
  assert (Y : ys = [loud 1e30 1e-3 0 9]).
  { inversion TY as [|? ? ? P Q|? ? ? P Q]; subst. 2:{ elim P. split; [exact S'|]. split; [exact loud_above|reflexivity]. }
    inversion Q as [|? ? ? P' Q'|? ? ? P' Q']; subst; [destruct P' as [P' _]; unfold is_stationary in *; congruence|inversion Q'; reflexivity]. }
  rewrite EQ, Y, Z. cbn [fst length]. rewrite !reports_app, reports_curve, reports_points. reflexivity.
Qed.
