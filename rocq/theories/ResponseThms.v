(** ResponseThms.v -- LISA's noise with the packaged response table. *)
From Coq Require Import String ZArith Reals List Lra Lia Psatz Machin Bool.
From Verif Require Import Num NumFacts Np NpFacts Psd PsdSpec PsdFacts PsdThms Utils Spec UtilsFacts Strain StrainSpec StrainFacts Evol EvolSpec Snr SnrSpec SnrFacts SnrThms2 SplineSpec SplineFacts ResponseData ResponseFacts.
Import ListNotations.
Open Scope R_scope.

Lemma PI_bounds : 3.1415 <= PI <= 3.1422.
Proof.
  pose proof (PI_2_3_7_ineq 1) as (A & B). cbn [Nat.mul Nat.add sum_f_R0] in A, B. unfold tg_alt, PI_2_3_7_tg, Ratan_seq in A, B. cbn [pow Nat.mul Nat.add INR] in A, B. split; lra.
Qed.
Lemma loaded w fstar : packaged_response w -> interpolates w -> 0 < fstar ->
  exists s, cubic_spline response_abscissae response_values s /\ exists R, (forall fs, load_response_function w fs (Fin fstar) = Ok (map R fs)) /\ forall f, R (Fin f) = Fin (s (f / fstar)).
Proof.
  intros P I F. destruct (I (map (fun x => x * fstar) response_abscissae) response_values) as (s & S & E).
  - intros i H. rewrite map_length in H. rewrite !nth_scale. pose proof (abscissae_increasing i H). nra.
  - rewrite map_length, abscissae_length. apply cells_many.
  - now rewrite map_length, abscissae_length, values_length.
  - exists (fun t => s (t * fstar)). split; [now apply cubic_spline_scale|]. unfold load_response_function, np_load_R. rewrite P. eexists. split; [reflexivity|].
    intros f. rewrite map_map. replace (map (fun x => nmul (Fin x) (Fin fstar)) response_abscissae) with (map Fin (map (fun x => x * fstar) response_abscissae)) by (rewrite map_map; reflexivity).
    rewrite E. do 2 f_equal. unfold Rdiv. rewrite Rmult_assoc, Rinv_l; lra.
Qed.
Lemma fstar_pos L : 0 < L -> 0 < 299792458 / (2 * PI * L).
Proof. intros H. pose proof PI_RGT_0. apply Rdiv_lt_0_compat; [lra|]. apply Rmult_lt_0_compat; [apply Rmult_lt_0_compat; lra|lra]. Qed.
Lemma over_fstar L f : 0 < L -> f / (299792458 / (2 * PI * L)) = 2 * PI * L * f / 299792458.
Proof. intros H. pose proof PI_RGT_0. field. split; lra. Qed.
Lemma response_in_bounds w L f : packaged_response w -> interpolates w -> 0 < L -> 0 <= f -> 2 * PI * L * f / 299792458 <= 108.5065 ->
  exists r, response w L false f r /\ 3.24e-5 <= r <= 0.3007.
Proof.
  intros P I H F B. destruct (loaded w _ P I (fstar_pos L H)) as (s & S & R & E & V). exists (s (2 * PI * L * f / 299792458)). pose proof PI_RGT_0 as Q. split.
  - cbn [response]. rewrite E. cbn [map]. now rewrite V, over_fstar.
  - apply (packaged_bounds s S). split; [|exact B]. apply Rmult_le_pos; [|lra]. apply Rmult_le_pos; [|lra]. apply Rmult_le_pos; [|lra]. apply Rmult_le_pos; lra.
Qed.
Lemma short_arms w L : packaged_response w -> interpolates w -> 0 < L <= 2.588e9 -> response_ok w L false.
Proof.
  intros P I H. right. intros f F. destruct (response_in_bounds w L f P I) as (r & A & B); [lra|lra| |exists r; split; [exact A|lra]].
  pose proof PI_bounds as Q. assert (A : 2 * PI * L * f <= 2 * 3.1422 * 2.588e9 * 2); [|lra].
  apply Rmult_le_compat; try lra; [apply Rmult_le_pos; lra|]. apply Rmult_le_compat; lra.
Qed.
Lemma short_arms_noise w c t L : packaged_response w -> interpolates w -> builtin c t -> 0 < t -> 0 < L <= 2.588e9 ->
  exists p : num -> num, (forall fs, lisa_psd w fs (Fin t) (Fin L) false c = Ok (map p fs)) /\
    (forall x, p x = PInf <-> outside 1e-7 2 x) /\ (forall f, 1e-7 <= f <= 2 -> exists v, p (Fin f) = Fin v /\ 0 < v).
Proof. intros P I C T L'. apply lisa_band; [exact C|exact T|lra|now apply short_arms]. Qed.
Lemma default_noise w t : packaged_response w -> interpolates w -> 0 < t -> built_in_curve w default_kw t (fun f => 1e-7 <= f <= 2).
Proof.
  intros P I T. apply (lisa_curve_used w default_kw t 2.5e9 (CName "karnesis21")); [reflexivity|right; split; reflexivity|lra|apply short_arms; auto; lra|left; split; reflexivity|unfold builtin; auto 10].
Qed.

(** Long arms. *)
Lemma lisa_noise_any L r f : 0 < L -> r <> 0 -> 0 < f -> lisa_noise (Fin L) (Fin (299792458 / (2 * PI * L))) (Fin f) (Fin r) = Fin (lisa_curve L r f).
Proof.
  intros HL Hr Hf. pose proof PI_RGT_0. pose proof (fstar_pos L HL) as F. unfold lisa_curve. set (fs := 299792458 / (2 * PI * L)) in *. cbv zeta.
  set (P := 1.5e-11 ^ 2 * (1 + (2e-3 / f) ^ 4)). set (Q := 3e-15 ^ 2 * (1 + (4e-4 / f) ^ 2) * (1 + (f / 8e-3) ^ 4)).
  assert (E1 : lisa_oms (Fin f) = Fin P) by (unfold lisa_oms; rewrite ndiv_fin by lra; rewrite npowi4, npowi2, nadd_fin, nmul_fin; reflexivity).
  assert (E2 : lisa_acc (Fin f) = Fin Q).
  { unfold lisa_acc. rewrite !ndiv_fin by lra. rewrite !npowi4, !npowi2, !nadd_fin, !nmul_fin. f_equal. unfold Q. replace 0.4e-3 with 4e-4 by lra. reflexivity. }
  unfold lisa_noise. rewrite E1, E2. rewrite (ndiv_fin f) by lra. cbn [ncos].
  rewrite !npowi2, !nadd_fin, !nmul_fin. rewrite npowi4. rewrite (ndiv_fin 1) by nzl. rewrite ndiv_fin by nzl. rewrite nadd_fin, nmul_fin. rewrite ndiv_fin by lra. f_equal. field. repeat split; lra.
Qed.
Lemma lisa_curve_negative L r : 0 < L -> r < 0 -> lisa_curve L r 2 <= 2.25e-22 / (L ^ 2 * r).
Proof.
  intros HL Hr. unfold lisa_curve. cbv zeta. set (C := cos _). pose proof (pow2_ge_0 C) as C0. pose proof PI_RGT_0 as P.
  assert (L2 : 0 < L ^ 2) by (apply pow_lt; lra).
  assert (K : 0 <= 2 * (1 + C ^ 2) * (3e-15 ^ 2 * (1 + (4e-4 / 2) ^ 2) * (1 + (2 / 8e-3) ^ 4)) / (2 * PI * 2) ^ 4).
  { apply Rmult_le_pos; [apply Rmult_le_pos; [lra|lra]|left; apply Rinv_0_lt_compat; apply pow_lt; lra]. }
  assert (N : / (L ^ 2 * r) < 0) by (apply Rinv_lt_0_compat; nra).
  set (k := 2 * (1 + C ^ 2) * (3e-15 ^ 2 * (1 + (4e-4 / 2) ^ 2) * (1 + (2 / 8e-3) ^ 4)) / (2 * PI * 2) ^ 4) in *.
  assert (M : 2.25e-22 <= 1.5e-11 ^ 2 * (1 + (2e-3 / 2) ^ 4) + k) by lra. set (v := 1.5e-11 ^ 2 * (1 + (2e-3 / 2) ^ 4) + k) in *.
  apply Ropp_le_cancel. replace (- (2.25e-22 / (L ^ 2 * r))) with (2.25e-22 * - / (L ^ 2 * r)) by (unfold Rdiv; ring). replace (- (v / (L ^ 2 * r))) with (v * - / (L ^ 2 * r)) by (unfold Rdiv; ring). apply Rmult_le_compat_r; lra.
Qed.
Lemma tanh_lt x : tanh x < 1.
Proof.
  unfold tanh, sinh, cosh. pose proof (exp_pos x). pose proof (exp_pos (- x)). apply Rmult_lt_reg_r with ((exp x + exp (- x)) / 2); [lra|].
  unfold Rdiv at 1. rewrite Rmult_assoc, Rinv_l by lra. lra.
Qed.
Lemma karnesis_small T : karnesis_fit T 2 <= 1.15e-44.
Proof.
  unfold karnesis_fit. cbv zeta. set (f1 := Rpower 10 (-0.15 * log10 T - 2.72)). set (fk := Rpower 10 (-0.37 * log10 T - 2.49)).
  assert (A : 0 < Rpower 2 (-7/3) <= 1). { split; [apply Rpower_pos|]. unfold Rpower. rewrite <- exp_0. assert (0 < ln 2) by (rewrite <- ln_1; apply ln_increasing; lra). destruct (Req_dec (-7/3 * ln 2) 0) as [E|E]; [lra|]. left. apply exp_increasing. nra. }
  assert (B : 0 < exp (- Rpower (2 / f1) 1.56) <= 1). { split; [apply exp_pos|]. rewrite <- exp_0. left. apply exp_increasing. pose proof (Rpower_pos (2 / f1) 1.56). lra. }
  pose proof (tanh_lt ((fk - 2) / 0.00067)) as C. pose proof (tanh_gt ((fk - 2) / 0.00067)) as D. set (a := Rpower 2 (-7/3)) in *. set (b := exp _) in *. set (c := tanh _) in *.
  assert (E : 0 <= a * b <= 1) by nra. set (q := a * b) in *. replace (1.15e-44 / 2 * a * b * (1 + c)) with (1.15e-44 / 2 * (q * (1 + c))) by (unfold q; ring).
  assert (F : q * (1 + c) <= 2) by nra. lra.
Qed.
Lemma lisa_any w c t L : packaged_response w -> interpolates w -> builtin c t -> 0 < t -> 0 < L ->
  exists p s, cubic_spline response_abscissae response_values s /\ (forall fs, lisa_psd w fs (Fin t) (Fin L) false c = Ok (map p fs)) /\
    forall f, 1e-7 <= f <= 2 -> s (2 * PI * L * f / 299792458) <> 0 -> exists v, published_confusion c t f v /\ p (Fin f) = Fin (lisa_curve L (s (2 * PI * L * f / 299792458)) f + v).
Proof.
  intros P I Hc Ht HL. destruct (confusion_map c t Hc Ht) as [g [Eg Hg]]. destruct (loaded w _ P I (fstar_pos L HL)) as (s & S & R & ER & V). set (fs := 299792458 / (2 * PI * L)) in *.
  set (cut := fun x => band (Fin 1e-7) (Fin 2) x x (Fin 1e-8)).
  exists (fun x => band (Fin 1e-7) (Fin 2) (cut x) (nadd (lisa_noise (Fin L) (Fin fs) (cut x) (R (cut x))) (g (cut x))) PInf). exists s. split; [exact S|]. split.
  - intros l. unfold lisa_psd. cbv zeta. fold cut. rewrite fstar_fin by auto. fold fs. rewrite ER. cbn [rbind].
    rewrite Eg. cbn [rbind]. rewrite !map_map. rewrite bzip_map. cbn [rbind]. rewrite bzip_map. cbn [rbind]. rewrite bzip_map. reflexivity.
  - intros f Hf N. pose proof (proj2 (in_band_fin 1e-7 2 f) Hf) as B. assert (C : cut (Fin f) = Fin f) by (unfold cut, band; now rewrite B).
    destruct (Hg f ltac:(lra)) as [v [E4 [E5 E6]]]. exists v. split; [assumption|]. rewrite C. unfold band. rewrite B, V, E4. unfold fs. rewrite over_fstar by exact HL. rewrite lisa_noise_any by (auto; lra). reflexivity.
Qed.
Lemma long_arms_spline L s : cubic_spline response_abscissae response_values s -> 2.625e9 <= L -> s (2 * PI * L * 2 / 299792458) <= - 7e-5 /\ (L <= 5e9 -> - 20 <= s (2 * PI * L * 2 / 299792458)).
Proof.
  intros S H. pose proof PI_bounds as Q. destruct (packaged_beyond s S (2 * PI * L * 2 / 299792458)) as (A & B).
  - assert (2 * 3.1415 * 2.625e9 <= 2 * PI * L) by (apply Rmult_le_compat; lra). lra.
  - split; [exact A|]. intros U. apply B. assert (2 * PI * L <= 2 * 3.1422 * 5e9) by (apply Rmult_le_compat; lra). lra.
Qed.
Lemma long_arms w t L : packaged_response w -> interpolates w -> 0 < t -> 2.625e9 <= L -> exists v, lisa_psd w [Fin 2] (Fin t) (Fin L) false CNone = Ok [Fin v] /\ v < 0.
Proof.
  intros P I T H. destruct (lisa_any w CNone t L P I ltac:(unfold builtin; auto) T ltac:(lra)) as (p & s & S & E & V). destruct (long_arms_spline L s S H) as (A & _).
  destruct (V 2 ltac:(lra) ltac:(lra)) as (v & C & Q). inversion C; subst. rewrite E. cbn [map]. rewrite Q. eexists. split; [reflexivity|].
  pose proof (lisa_curve_negative L _ ltac:(lra) (Rle_lt_trans _ _ 0 A ltac:(lra))) as G. set (r := s _) in *.
  assert (X : 2.25e-22 / (L ^ 2 * r) < 0); [|lra]. assert (L2 : 0 < L ^ 2) by (apply pow_lt; lra). assert (N : / (L ^ 2 * r) < 0) by (apply Rinv_lt_0_compat; nra). unfold Rdiv. nra.
Qed.
Lemma long_arms_curve w t L : packaged_response w -> interpolates w -> 0 < t -> 2.625e9 <= L <= 5e9 ->
  exists p v, noise_curve w (mkKw "LISA" None (Given (Fin L)) false (CName "auto")) None t p /\ p (Fin 2) = Fin v /\ v < 0.
Proof.
  intros P I T H. destruct (lisa_any w (CName "karnesis21") t L P I ltac:(unfold builtin; auto 10) T ltac:(lra)) as (p & s & S & E & V). destruct (long_arms_spline L s S ltac:(lra)) as (A & B). specialize (B ltac:(lra)).
  destruct (V 2 ltac:(lra) ltac:(lra)) as (v & C & Q). inversion C; subst. exists p. eexists. split; [|split; [exact Q|]].
  - intros fs. cbn [kw_instrument kw_custom kw_L kw_approximate_R kw_confusion]. rewrite (psd_lisa w fs None (Given (Fin t)) (Given (Fin L)) false (CName "auto") (Fin t) (Fin L) (CName "karnesis21")); [apply E|now left|now left|left; split; reflexivity].
  - pose proof (lisa_curve_negative L _ ltac:(lra) (Rle_lt_trans _ _ 0 A ltac:(lra))) as G. set (r := s _) in *. pose proof (karnesis_small (t / year)) as K.
    assert (X : 2.25e-22 / (L ^ 2 * r) < - 1.15e-44); [|lra]. assert (L2 : 0 < L ^ 2) by (apply pow_lt; lra). assert (L3 : L ^ 2 <= 5e9 ^ 2) by (apply pow_incr; lra).
    assert (Y : 0 < L ^ 2 * - r) by (apply Rmult_lt_0_compat; lra). assert (Z : L ^ 2 * - r <= 5e9 ^ 2 * 20) by (apply Rmult_le_compat; lra).
    replace (2.25e-22 / (L ^ 2 * r)) with (- (2.25e-22 / (L ^ 2 * - r))) by (field; split; lra). enough (1.15e-44 < 2.25e-22 / (L ^ 2 * - r)) by lra. apply Rmult_lt_reg_r with (L ^ 2 * - r); [exact Y|].
    replace (2.25e-22 / (L ^ 2 * - r) * (L ^ 2 * - r)) with 2.25e-22 by (field; split; lra). eapply Rle_lt_trans; [apply Rmult_le_compat_l; [lra|exact Z]|]. lra.
Qed.
Lemma long_arms_snr w jv gi g t L m d : packaged_response w -> interpolates w -> power_used jv gi 2 0 g -> 0 < g -> 0 < t -> 2.625e9 <= L <= 5e9 -> 0 < m -> 0 < d ->
  snr_circ_stationary w jv gi [Fin m] [Fin 1] [Fin d] (Fin t) no_sky None (mkKw "LISA" None (Given (Fin L)) false (CName "auto")) = Ok [NaN].
Proof.
  intros P I G G0 T H M D. destruct (long_arms_curve w t L P I T H) as (p & v & N & E & V).
  pose proof (circ_stationary_map w jv gi (fun _ : unit => Fin m) (fun _ => Fin 1) (fun _ => Fin d) [tt] t None None _ p N) as X. cbn [map pop_sky] in X. rewrite X.
  unfold st_elem. destruct (h0_fin jv gi m 1 0 2 d g None M ltac:(lra) D ltac:(lra) ltac:(lia) G) as (A & _). cbn [option_map] in A. rewrite A, npowi2, nmul_fin. unfold nZ. rewrite nmul_fin, Rmult_1_r, E, ndiv_fin by lra.
  do 2 f_equal. cbn [ampR]. assert (HP : 0 < h0R m 1 d g 2).
  { unfold h0R. pose proof PI_RGT_0. assert (0 < clight) by (rewrite <- light; lra). assert (0 < sqrt (Rpower 2 (28/3) / 5)) by (apply sqrt_lt_R0; apply Rdiv_lt_0_compat; [apply Rpower_pos|lra]). assert (0 < sqrt g) by (now apply sqrt_lt_R0).
    repeat first [assumption|lra|apply Rpower_pos|apply pow_lt|apply Rdiv_lt_0_compat|apply Rmult_lt_0_compat]. }
  rewrite sqrt_1, Rmult_1_l. assert (Y : h0R m 1 d g 2 ^ 2 * t / v < 0).
  { unfold Rdiv. assert (/ v < 0) by (now apply Rinv_lt_0_compat). assert (0 < h0R m 1 d g 2 ^ 2 * t) by (apply Rmult_lt_0_compat; [now apply pow_lt|exact T]). nra. }
  unfold nsqrt. now apply npowr_neg.
Qed.
(** There is such a world. *)
Definition num_R (x : num) : R := match x with Fin r => r | _ => 0 end.
Definition splined : psd_env := mkEnv (Some (map Fin response_abscissae, map Fin response_values)) (fun xs ys x => Fin (spline_of (map num_R xs) (map num_R ys) (num_R x))).
Lemma splined_ok : packaged_response splined /\ interpolates splined.
Proof.
  split; [reflexivity|]. intros xs ys I L E. exists (spline_of xs ys). split; [now apply spline_of_cubic|]. intros f. cbn [spline splined num_R]. rewrite !map_map. cbn [num_R]. now rewrite !map_id.
Qed.
