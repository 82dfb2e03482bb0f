(** LongerJump.v -- observing a little longer than nine months with the fit of Robson et al. (C121). *)
From Coq Require Import String Reals ZArith List Lra Lia.
From Verif Require Import Num NumFacts Np Utils Spec UtilsFacts EvolSpec Evol Strain StrainSpec StrainFacts Psd PsdSpec PsdFacts PsdThms Snr SnrSpec SnrFacts SnrThms SnrThms2
  HarmonicSums SnrThms3 SnrThms4 ZeroFacts LongerSpec LongerFacts LongerSnr.
Import ListNotations.
Open Scope R_scope.

Definition half_year_row := Build_robson_row (1/2) 0.133 243 482 917 0.00258.
Definition one_year_row := Build_robson_row 1 0.171 292 1020 1680 0.00215.
Lemma robson_half t : 0 < t <= 3/4 * year -> nearest r_len robson_table (t / year) half_year_row.
Proof.
  intros Ht. assert (Y : 0 < year) by (unfold year; lra). assert (T : 0 < t / year <= 3/4).
  { split; [apply Rdiv_lt_0_compat; lra|]. apply Rmult_le_reg_r with year; [exact Y|]. unfold Rdiv. rewrite Rmult_assoc, Rinv_l by lra. lra. }
  set (T' := t / year) in *. clearbody T'. split; [now left|]. intros r [<-|[<-|[<-|[<-|[]]]]]; cbn [r_len half_year_row]; unfold Rabs; repeat destruct (Rcase_abs _); lra.
Qed.
Lemma robson_one t : 3/4 * year < t <= 3/2 * year -> nearest r_len robson_table (t / year) one_year_row.
Proof.
  intros Ht. assert (Y : 0 < year) by (unfold year; lra). assert (T : 3/4 < t / year <= 3/2).
  { split; [apply Rmult_lt_reg_r with year|apply Rmult_le_reg_r with year]; try exact Y; unfold Rdiv; rewrite (Rmult_assoc t), Rinv_l by lra; lra. }
  set (T' := t / year) in *. clearbody T'. split; [right; now left|]. intros r [<-|[<-|[<-|[<-|[]]]]]; cbn [r_len one_year_row]; unfold Rabs; repeat destruct (Rcase_abs _); lra.
Qed.
Lemma robson_rises f : 0 < f <= 0.0014 -> robson_fit half_year_row f < robson_fit one_year_row f.
Proof.
  intros Hf. unfold robson_fit. cbn [r_alpha r_beta r_kappa r_gamma r_fk half_year_row one_year_row].
  assert (A : Rpower f 0.171 < Rpower f 0.133).
  { unfold Rpower. apply exp_increasing. assert (ln f < 0) by (rewrite <- ln_1; apply ln_increasing; lra). nra. }
  pose proof PI2_3_2 as P. assert (S : sin (482 * f) <= sin (1020 * f)) by (apply sin_incr_1; unfold PI2 in *; lra).
  assert (S0 : 0 <= sin (482 * f)) by (apply sin_ge_0; unfold PI2 in *; lra).
  assert (E : exp (- Rpower f 0.133 + 243 * f * sin (482 * f)) < exp (- Rpower f 0.171 + 292 * f * sin (1020 * f))) by (apply exp_increasing; nra).
  assert (T : tanh (917 * (0.00258 - f)) < tanh (1680 * (0.00215 - f))) by (apply tanh_lt_lt; lra).
  pose proof (tanh_gt (917 * (0.00258 - f))). pose proof (exp_pos (- Rpower f 0.133 + 243 * f * sin (482 * f))). assert (R : 0 < Rpower f (-7/3)) by apply exp_pos.
  apply Rmult_gt_0_lt_compat; [lra|repeat apply Rmult_lt_0_compat; try lra; apply exp_pos| |lra]. apply Rmult_lt_compat_l; [lra|exact E].
Qed.
Lemma robson_published t f v r : nearest r_len robson_table (t / year) r -> published_confusion (CName "robson19") t f v -> v = robson_fit r f.
Proof. intros N A. inversion A as [|? ? r1 N1| | | |]; subst. now rewrite (nearest_unique r_len robson_table _ _ _ (table_unique r_len robson_table robson_sorted) N1 N). Qed.
(** The confusion noise attributed to a year is higher than the one attributed to half a year, at all low frequencies. *)
Lemma robson_noise w kw t t' B : built_in_curve w kw t B -> uses kw (CName "robson19") -> 0 < t <= 3/4 * year -> 3/4 * year < t' <= 3/2 * year ->
  exists p p', noise_curve w kw None t p /\ noise_curve w kw None t' p' /\ proper_noise p /\ proper_noise p' /\
    exists N N' : R -> R, forall f, 0 < f <= 0.0014 -> B f -> p (Fin f) = Fin (N f) /\ p' (Fin f) = Fin (N' f) /\ 0 < N f /\ N' f = N f + (robson_fit one_year_row f - robson_fit half_year_row f).
Proof.
  intros H U Ht Ht'. destruct (split_noise w kw (CName "robson19") t t' B H U) as (p & p' & p0 & Np & Np' & P & P' & O & V); [unfold builtin; tauto|lra|lra|].
  exists p, p'. do 4 (split; [assumption|]). exists (fun f => match p (Fin f) with Fin x => x | _ => 0 end), (fun f => match p' (Fin f) with Fin x => x | _ => 0 end).
  intros f Hf HB. destruct (V f ltac:(lra) HB) as (v & v' & C & C' & E & E'). rewrite (robson_published _ _ _ _ (robson_half t Ht) C) in E. rewrite (robson_published _ _ _ _ (robson_one t' Ht') C') in E'.
  destruct (built_in_noise w kw t B H ltac:(lra)) as (q & Nq & _ & Iq).
  assert (X : p (Fin f) <> PInf). { rewrite (curve_unique _ _ _ _ _ Np Nq). intros Z. apply Iq in Z; [now apply Z|lra]. }
  destruct (P f ltac:(lra)) as [Y|(s & Y & S0)]; [congruence|]. rewrite E in Y |- *. rewrite E'. destruct (p0 (Fin f)) as [z| | |]; try discriminate.
  rewrite !nadd_fin in *. injection Y as <-. repeat split; auto. lra.
Qed.
Lemma robson_jump w jv gi kw m f d B : built_in_curve w kw (3/4 * year) B -> uses kw (CName "robson19") ->
  0 < m -> 0 < f -> 0 < d -> B (2 * f) -> 2 * f <= 0.0014 -> (exists g, power_used jv gi 2 0 g /\ 0 < g) ->
  exists T, 3/4 * year < T /\ forall t, 3/4 * year < t <= T -> exists s s',
    snr_circ_stationary w jv gi [Fin m] [Fin f] [Fin d] (Fin (3/4 * year)) no_sky None kw = Ok [Fin s] /\
    snr_circ_stationary w jv gi [Fin m] [Fin f] [Fin d] (Fin t) no_sky None kw = Ok [Fin s'] /\ 0 < s' < s.
Proof.
  intros H U Hm Hf Hd HB F (g & Hg & G). assert (Y : 0 < year) by (unfold year; lra). set (t0 := 3/4 * year) in *. assert (T0 : 0 < t0) by (unfold t0; lra).
  assert (W : forall t, t0 < t <= 3/2 * year -> exists p p' N, noise_curve w kw None t0 p /\ noise_curve w kw None t p' /\ proper_noise p /\ proper_noise p' /\
    p (Fin (IZR 2 * f)) = Fin N /\ p' (Fin (IZR 2 * f)) = Fin (N + (robson_fit one_year_row (2 * f) - robson_fit half_year_row (2 * f))) /\ 0 < N).
  { intros t Ht. destruct (robson_noise w kw t0 t B H U) as (p & p' & Np & Np' & P & P' & N & N' & V); [unfold t0; lra|exact Ht|]. destruct (V (2 * f) ltac:(lra) HB) as (E & E' & N0 & D).
    exists p, p', (N (2 * f)). do 4 (split; [assumption|]). split; [exact E|]. split; [rewrite <- D; exact E'|exact N0]. }
  pose proof (robson_rises (2 * f) ltac:(lra)) as R. set (D := robson_fit one_year_row (2 * f) - robson_fit half_year_row (2 * f)) in *. assert (D0 : 0 < D) by (unfold D; lra). clearbody D. clear R.
  destruct (W year ltac:(unfold t0; lra)) as (p & _ & N & Np & _ & P & _ & E & _ & N0).
  set (q := t0 * (D / (2 * N))). assert (Q0 : 0 < q) by (apply Rmult_lt_0_compat; [exact T0|apply Rdiv_lt_0_compat; lra]).
  exists (t0 + Rmin q (year / 4)). split; [pose proof (Rmin_pos q (year / 4) Q0 ltac:(lra)); lra|]. intros t Ht. pose proof (Rmin_l q (year / 4)) as L1. pose proof (Rmin_r q (year / 4)) as L2.
  destruct (W t ltac:(unfold t0 in *; lra)) as (p2 & p' & N2 & Np2 & Np' & _ & P' & E2 & E' & _).
  rewrite (curve_unique _ _ _ _ _ Np2 Np), E in E2. injection E2 as <-.
  assert (HX : forall x : unit, In x [tt] -> 0 < m /\ 0 < f /\ 0 < d) by auto.
  destruct (circ_formula jv gi unit (fun _ => m) (fun _ => f) (fun _ => d) None [tt] g Hg HX w kw None p t0 Np P ltac:(lra)) as (S & C & V).
  destruct (circ_formula jv gi unit (fun _ => m) (fun _ => f) (fun _ => d) None [tt] g Hg HX w kw None p' t Np' P' ltac:(lra)) as (S' & C' & V').
  exists (sqrt (S tt)), (sqrt (S' tt)). split; [exact C|]. split; [exact C'|].
  pose proof (sns_value _ _ _ _ (V tt (or_introl eq_refl))) as A. pose proof (sns_value _ _ _ _ (V' tt (or_introl eq_refl))) as A'. rewrite E in A. rewrite E' in A'.
  cbn [option_map] in A, A'. rewrite Rpow_mult_distr in A, A'. rewrite (h0R_sqr m f d g 2 Hm Hf Hd ltac:(lra) ltac:(lia)) in A, A'.
  assert (K : 0 < sqrt (ampR None) ^ 2 * (Rpower 2 (28/3) / 5 * Rpower Ggrav (10/3) / clight ^ 8 * Rpower m (10/3) * Rpower (PI * f) (4/3) / d ^ 2 * g / IZR 2 ^ 2)).
  { cbn [ampR]. rewrite sqrt_1. pose proof clight_pos. unfold Rdiv. repeat apply Rmult_lt_0_compat; try apply exp_pos; try lra; apply Rinv_0_lt_compat; try lra; apply pow_lt; lra. }
  set (K' := sqrt (ampR None) ^ 2 * _) in *. clearbody K'.
  assert (L : t * / (N + D) < t0 * / N).
  { apply Rmult_lt_reg_r with (N * (N + D)); [apply Rmult_lt_0_compat; lra|]. replace (t * / (N + D) * (N * (N + D))) with (t * N) by (field; lra). replace (t0 * / N * (N * (N + D))) with (t0 * N + t0 * D) by (field; lra).
    assert (t <= t0 + q) by lra. assert (q * N = t0 * D / 2) by (unfold q; field; lra). assert (0 < t0 * D) by (now apply Rmult_lt_0_compat). nra. }
  assert (0 < t * / (N + D)) by (apply Rmult_lt_0_compat; [lra|apply Rinv_0_lt_compat; lra]).
  split; [apply sqrt_lt_R0; rewrite A', Rmult_assoc; now apply Rmult_lt_0_compat|]. apply sqrt_lt_1_alt. rewrite A, A', !Rmult_assoc. split; [left; now apply Rmult_lt_0_compat|now apply Rmult_lt_compat_l].
Qed.
Lemma robson_higher : forall w kw t t' B, built_in_curve w kw t B -> uses kw (CName "robson19") -> 0 < t <= 3/4 * year -> 3/4 * year < t' <= 3/2 * year ->
  exists p p', noise_curve w kw None t p /\ noise_curve w kw None t' p' /\
    forall f, 0 < f <= 0.0014 -> B f -> exists n n', p (Fin f) = Fin n /\ p' (Fin f) = Fin n' /\ 0 < n < n'.
Proof.
  intros w kw t t' B H U Ht Ht'. destruct (robson_noise w kw t t' B H U Ht Ht') as (p & p' & P & P' & _ & _ & N & N' & V). exists p, p'. split; [exact P|]. split; [exact P'|].
  intros f Hf HB. destruct (V f Hf HB) as (E & E' & N0 & D). exists (N f), (N' f). split; [exact E|]. split; [exact E'|]. pose proof (robson_rises f Hf). lra.
Qed.
