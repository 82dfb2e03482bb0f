(** LongerHuang.v -- observing a little longer than four and a half years with the fit of Huang et al. (C121). *)
From Coq Require Import String Reals ZArith List Lra Lia.
From Verif Require Import Num NumFacts Np Utils Spec UtilsFacts EvolSpec Evol Strain StrainSpec StrainFacts Psd PsdSpec PsdFacts PsdThms Snr SnrSpec SnrFacts SnrThms SnrThms2
  HarmonicSums SnrThms3 SnrThms4 ZeroFacts LongerSpec LongerFacts LongerSnr.
Import ListNotations.
Open Scope R_scope.

(** Where the confusion noise jumps up, the SNR jumps down. *)
Lemma jump_down w jv gi kw c m f d B t0 t1 D : built_in_curve w kw t0 B -> uses kw c -> (forall t, builtin c t) -> 0 < t0 < t1 -> 0 < D ->
  (forall t v v', t0 < t <= t1 -> published_confusion c t0 (2 * f) v -> published_confusion c t (2 * f) v' -> v' = v + D) ->
  0 < m -> 0 < f -> 0 < d -> B (2 * f) -> (exists g, power_used jv gi 2 0 g /\ 0 < g) ->
  exists T, t0 < T /\ forall t, t0 < t <= T -> exists s s',
    snr_circ_stationary w jv gi [Fin m] [Fin f] [Fin d] (Fin t0) no_sky None kw = Ok [Fin s] /\
    snr_circ_stationary w jv gi [Fin m] [Fin f] [Fin d] (Fin t) no_sky None kw = Ok [Fin s'] /\ 0 < s' < s.
Proof.
  intros H U HC T01 D0 HD Hm Hf Hd HB (g & Hg & G). assert (T0 : 0 < t0) by lra.
  assert (W : forall t, t0 < t <= t1 -> exists p p' N, noise_curve w kw None t0 p /\ noise_curve w kw None t p' /\ proper_noise p /\ proper_noise p' /\
    p (Fin (IZR 2 * f)) = Fin N /\ p' (Fin (IZR 2 * f)) = Fin (N + D) /\ 0 < N).
  { intros t K. destruct (split_noise w kw c t0 t B H U (HC t) T0 ltac:(lra)) as (p & p' & p0 & Np & Np' & P & P' & _ & V).
    destruct (V (2 * f) ltac:(lra) HB) as (v & v' & C & C' & E & E'). rewrite (HD t v v' K C C') in E'.
    destruct (built_in_noise w kw t0 B H T0) as (q & Nq & _ & Iq). assert (X : p (Fin (2 * f)) <> PInf). { rewrite (curve_unique _ _ _ _ _ Np Nq). intros Z. apply Iq in Z; [now apply Z|lra]. }
    destruct (P (2 * f) ltac:(lra)) as [Y|(s & Y & S0)]; [congruence|]. exists p, p', s. do 4 (split; [assumption|]). split; [exact Y|]. split; [|exact S0].
    rewrite E'. rewrite E in Y. destruct (p0 (Fin (2 * f))) as [z| | |]; try discriminate. rewrite nadd_fin in *. injection Y as <-. f_equal. ring. }
  clear HD.
  destruct (W t1 ltac:(lra)) as (p & _ & N & Np & _ & P & _ & E & _ & N0).
  set (q := t0 * (D / (2 * N))). assert (Q0 : 0 < q) by (apply Rmult_lt_0_compat; [exact T0|apply Rdiv_lt_0_compat; lra]).
  exists (t0 + Rmin q (t1 - t0)). split; [pose proof (Rmin_pos q (t1 - t0) Q0 ltac:(lra)); lra|]. intros t Ht. pose proof (Rmin_l q (t1 - t0)) as L1. pose proof (Rmin_r q (t1 - t0)) as L2.
  destruct (W t ltac:(lra)) as (p2 & p' & N2 & Np2 & Np' & _ & P' & E2 & E' & _).
  rewrite (curve_unique _ _ _ _ _ Np2 Np), E in E2. injection E2 as <-.
  assert (HX : forall x : unit, In x [tt] -> 0 < m /\ 0 < f /\ 0 < d) by auto.
  destruct (circ_formula jv gi unit (fun _ => m) (fun _ => f) (fun _ => d) None [tt] g Hg HX w kw None p t0 Np P ltac:(lra)) as (S & C & V).
  destruct (circ_formula jv gi unit (fun _ => m) (fun _ => f) (fun _ => d) None [tt] g Hg HX w kw None p' t Np' P' ltac:(lra)) as (S' & C' & V').
  exists (sqrt (S tt)), (sqrt (S' tt)). split; [exact C|]. split; [exact C'|].
  pose proof (sns_value _ _ _ _ (V tt (or_introl eq_refl))) as A. pose proof (sns_value _ _ _ _ (V' tt (or_introl eq_refl))) as A'. rewrite E in A. rewrite E' in A'.
  cbn [option_map] in A, A'. rewrite Rpow_mult_distr in A, A'. rewrite (h0R_sqr m f d g 2 Hm Hf Hd ltac:(lra) ltac:(lia)) in A, A'.
  assert (K : 0 < sqrt (ampR None) ^ 2 * (Rpower 2 (28/3) / 5 * Rpower Ggrav (10/3) / clight ^ 8 * Rpower m (10/3) * Rpower (PI * f) (4/3) / d ^ 2 * g / IZR 2 ^ 2)).
  { cbn [ampR]. rewrite sqrt_1. pose proof clight_pos. unfold Rdiv. repeat apply Rmult_lt_0_compat; try apply exp_pos; try lra; apply Rinv_0_lt_compat; try lra; apply pow_lt; lra. }
  set (K' := sqrt (ampR None) ^ 2 * _) in *. clearbody K'.
  assert (L : t * / (N + D) < t0 * / N).
  { apply Rmult_lt_reg_r with (N * (N + D)); [apply Rmult_lt_0_compat; lra|]. replace (t * / (N + D) * (N * (N + D))) with (t * N) by (field; lra). replace (t0 * / N * (N * (N + D))) with (t0 * N + t0 * D) by (field; lra).
    assert (t <= t0 + q) by lra. assert (q * N = t0 * D / 2) by (unfold q; field; lra). assert (0 < t0 * D) by (now apply Rmult_lt_0_compat). nra. }
  assert (0 < t * / (N + D)) by (apply Rmult_lt_0_compat; [lra|apply Rinv_0_lt_compat; lra]).
  split; [apply sqrt_lt_R0; rewrite A', Rmult_assoc; now apply Rmult_lt_0_compat|]. apply sqrt_lt_1_alt. rewrite A, A', !Rmult_assoc. split; [left; now apply Rmult_lt_0_compat|now apply Rmult_lt_compat_l].
Qed.

Definition four_year_row := Build_huang_row 4 (-18.6) (-1.43) (-0.687) 0.24 (-0.15) (-1.8) (-3.2).
Definition five_year_row := Build_huang_row 5 (-18.6) (-1.51) (-0.71) (-1.13) (-0.83) 13.2 (-19.1).
Lemma huang_four t : 3 * year < t <= 9/2 * year -> nearest h_len huang_table (t / year) four_year_row.
Proof.
  intros Ht. assert (Y : 0 < year) by (unfold year; lra). assert (T : 3 < t / year <= 9/2).
  { split; [apply Rmult_lt_reg_r with year|apply Rmult_le_reg_r with year]; try exact Y; unfold Rdiv; rewrite (Rmult_assoc t), Rinv_l by lra; lra. }
  set (T' := t / year) in *. clearbody T'. split; [cbn; tauto|]. intros r [<-|[<-|[<-|[<-|[<-|[]]]]]]; cbn [h_len four_year_row]; unfold Rabs; repeat destruct (Rcase_abs _); lra.
Qed.
Lemma huang_five t : 9/2 * year < t -> nearest h_len huang_table (t / year) five_year_row.
Proof.
  intros Ht. assert (Y : 0 < year) by (unfold year; lra). assert (T : 9/2 < t / year).
  { apply Rmult_lt_reg_r with year; try exact Y; unfold Rdiv; rewrite (Rmult_assoc t), Rinv_l by lra; lra. }
  set (T' := t / year) in *. clearbody T'. split; [cbn; tauto|]. intros r [<-|[<-|[<-|[<-|[<-|[]]]]]]; cbn [h_len five_year_row]; unfold Rabs; repeat destruct (Rcase_abs _); lra.
Qed.
Lemma log_range f : 0.0007 <= f < 0.001 -> -1/5 <= log10 (f / 1e-3) < 0.
Proof.
  intros Hf. unfold log10. assert (L : 0 < ln 10) by (rewrite <- ln_1; apply ln_increasing; lra). assert (X : 7/10 <= f / 1e-3 < 1) by lra.
  set (x := f / 1e-3) in *. clearbody x. assert (A : ln x < 0) by (rewrite <- ln_1; apply ln_increasing; lra).
  assert (P : ln (/ 10) <= ln (x ^ 5)). { assert (Q : (7/10) ^ 5 <= x ^ 5) by (apply pow_incr; lra). destruct (Req_dec (/ 10) (x ^ 5)) as [->|N]; [right; reflexivity|]. left. apply ln_increasing; lra. }
  rewrite ln_pow, ln_Rinv in P by lra. change (INR 5) with (1 + 1 + 1 + 1 + 1) in P.
  split; [apply Rmult_le_reg_r with (ln 10)|apply Rmult_lt_reg_r with (ln 10)]; try exact L; unfold Rdiv; rewrite (Rmult_assoc (ln x)), Rinv_l by lra; lra.
Qed.
Lemma huang_rises f : 0.0007 <= f < 0.001 -> huang_fit four_year_row f < huang_fit five_year_row f.
Proof.
  intros Hf. pose proof (log_range f Hf) as X. unfold huang_fit. cbn [h_a0 h_a1 h_a2 h_a3 h_a4 h_a5 h_a6 four_year_row five_year_row]. set (x := log10 (f / 1e-3)) in *. clearbody x.
  assert (P : forall a b, 0 < a < b -> a ^ 2 < b ^ 2) by (intros; nra). apply P. split; [apply exp_pos|]. apply Rpower_lt; [lra|].
  set (y := - x). replace x with (- y) by (unfold y; ring). assert (Y : 0 < y <= 1/5) by (unfold y; lra). clearbody y.
  assert (Q : forall n, 0 < y ^ n <= (1/5) ^ n) by (intros n; split; [apply pow_lt; lra|apply pow_incr; lra]).
  assert (Z : 0 < y * (0.08 - 0.023 * y + 1.37 * y ^ 2 - 0.68 * y ^ 3 - 15 * y ^ 4 - 15.9 * y ^ 5)).
  { apply Rmult_lt_0_compat; [lra|]. pose proof (Q 2%nat). pose proof (Q 3%nat). pose proof (Q 4%nat). pose proof (Q 5%nat). lra. }
  lra.
Qed.
Lemma huang_published t f v r : nearest h_len huang_table (t / year) r -> 1e-4 <= f <= 1 -> published_confusion (CName "huang20") t f v -> v = huang_fit r f.
Proof. intros N F A. inversion A as [| |? ? r1 N1|? ? O| |]; subst; [|tauto]. now rewrite (nearest_unique h_len huang_table _ _ _ (table_unique h_len huang_table huang_sorted) N1 N). Qed.
Lemma huang_higher : forall w kw t t' B, built_in_curve w kw t B -> uses kw (CName "huang20") -> 3 * year < t <= 9/2 * year -> 9/2 * year < t' ->
  exists p p', noise_curve w kw None t p /\ noise_curve w kw None t' p' /\
    forall f, 0.0007 <= f < 0.001 -> B f -> exists n n', p (Fin f) = Fin n /\ p' (Fin f) = Fin n' /\ 0 < n < n'.
Proof.
  intros w kw t t' B H U Ht Ht'. assert (Y : 0 < year) by (unfold year; lra).
  destruct (split_noise w kw (CName "huang20") t t' B H U) as (p & p' & p0 & Np & Np' & P & P' & O & V); [unfold builtin; tauto|lra|lra|].
  exists p, p'. do 2 (split; [assumption|]). intros f Hf HB. destruct (V f ltac:(lra) HB) as (v & v' & C & C' & E & E').
  assert (F : 1e-4 <= f <= 1) by lra. rewrite (huang_published _ _ _ _ (huang_four t Ht) F C) in E. rewrite (huang_published _ _ _ _ (huang_five t' Ht') F C') in E'.
  destruct (built_in_noise w kw t B H ltac:(lra)) as (q & Nq & _ & Iq).
  assert (X : p (Fin f) <> PInf). { rewrite (curve_unique _ _ _ _ _ Np Nq). intros Z. apply Iq in Z; [now apply Z|lra]. }
  destruct (P f ltac:(lra)) as [Y1|(s & Y1 & S0)]; [congruence|]. rewrite E in Y1 |- *. rewrite E'. destruct (p0 (Fin f)) as [z| | |]; try discriminate.
  rewrite !nadd_fin in *. injection Y1 as <-. pose proof (huang_rises f Hf). do 2 eexists. do 2 (split; [reflexivity|]). split; lra.
Qed.
Lemma huang_jump w jv gi kw m f d B : built_in_curve w kw (9/2 * year) B -> uses kw (CName "huang20") ->
  0 < m -> 0 < d -> B (2 * f) -> 0.0007 <= 2 * f < 0.001 -> (exists g, power_used jv gi 2 0 g /\ 0 < g) ->
  exists T, 9/2 * year < T /\ forall t, 9/2 * year < t <= T -> exists s s',
    snr_circ_stationary w jv gi [Fin m] [Fin f] [Fin d] (Fin (9/2 * year)) no_sky None kw = Ok [Fin s] /\
    snr_circ_stationary w jv gi [Fin m] [Fin f] [Fin d] (Fin t) no_sky None kw = Ok [Fin s'] /\ 0 < s' < s.
Proof.
  intros H U Hm Hd HB Hf G. assert (Y : 0 < year) by (unfold year; lra). pose proof (huang_rises (2 * f) Hf) as R.
  apply (jump_down w jv gi kw (CName "huang20") m f d B (9/2 * year) (5 * year) (huang_fit five_year_row (2 * f) - huang_fit four_year_row (2 * f)) H U); try assumption; try lra; [unfold builtin; tauto|].
  intros t v v' Ht C C'. assert (F : 1e-4 <= 2 * f <= 1) by lra. rewrite (huang_published _ _ _ _ (huang_four (9/2 * year) ltac:(lra)) F C), (huang_published _ _ _ _ (huang_five t ltac:(lra)) F C'). ring.
Qed.
