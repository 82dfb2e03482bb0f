(** HarmonicSums.v -- what SNRs miss by summing finitely many harmonics. *)
From Coq Require Import Reals ZArith List Lra Lia.
From Coquelicot Require Import Coquelicot.
From Verif Require Import Num NumFacts Np Utils Spec UtilsFacts EvolSpec Strain StrainSpec StrainFacts Bessel BesselFacts Psd PsdSpec Snr SnrSpec SnrFacts SnrThms SnrThms2
  ConvSpec SumSpec ParsevalThms ParsevalStrain BesselPositive.
Import ListNotations.
Open Scope R_scope.

Notation total g N := (Rsum (map g (first_harmonics N))).
Lemma total_S (g : Z -> R) N : total g (S N) = total g N + g (Z.of_nat (S N)).
Proof.
  unfold first_harmonics. rewrite seq_S, !map_app, Rsum_app. cbn [map]. replace (1 + N)%nat with (S N) by lia.
  assert (E : forall x, Rsum [x] = x) by (intros x; unfold Rsum; cbn; ring). now rewrite E.
Qed.
Lemma total_le (u v : Z -> R) N M : (N <= M)%nat -> (forall n, (N < n <= M)%nat -> u (Z.of_nat n) <= v (Z.of_nat n)) -> total u M - total u N <= total v M - total v N.
Proof.
  intros H. induction H as [|M H IH]; intros L; [lra|]. rewrite !total_S. assert (A := L (S M) ltac:(lia)). specialize (IH ltac:(intros n Hn; apply L; lia)). lra.
Qed.
Lemma total_scal k (g : Z -> R) N : total (fun n => k * g n) N = k * total g N.
Proof. exact (sum_scaled (fun n => k * g n) g k N (fun n _ => eq_refl)). Qed.
Lemma total_0 (g : Z -> R) : total g 0 = 0.
Proof. reflexivity. Qed.

Lemma sns_value h t P v : signal_to_noise_squared h t P v -> v = h ^ 2 * t * match P with Fin s => / s | _ => 0 end.
Proof. destruct 1; [reflexivity|ring]. Qed.

(** ** Partial sums stay below peters_f *)
Lemma strictly_below jv e : (forall k x, jv k (Fin x) = Fin (besselJ k x)) -> 0 < e < 1 -> exists (g : Z -> R) (F : R),
  (forall n, (1 <= n)%Z -> peters_g jv n (Fin e) = Fin (g n) /\ 0 < g n) /\ peters_f (Fin e) = Fin F /\
  forall N, total g N < F.
Proof.
  intros J He. destruct (peters_sum jv e J ltac:(lra)) as (g & F & G & HF & B & _). exists g, F.
  assert (P : forall n, (1 <= n)%Z -> 0 < g n).
  { intros n Hn. destruct (every_harmonic jv n e J Hn He) as (g' & E & P). rewrite (G n Hn) in E. injection E as ->. exact P. }
  split; [intros n Hn; split; auto|]. split; [exact HF|]. intros N. pose proof (B (S N)) as H. fold (first_harmonics (S N)) in H. rewrite total_S in H.
  pose proof (P (Z.of_nat (S N)) ltac:(lia)). lra.
Qed.

Section Sums.
Variables (w : psd_env) (jv : Z -> num -> num) (kw : psd_kwargs) (sc : option (num -> num)) (p : num -> num) (m f e d t : R).
Hypothesis J : forall k x, jv k (Fin x) = Fin (besselJ k x).
Hypothesis Hp : noise_curve w kw sc t p.
Hypothesis Hq : proper_noise p.
Hypothesis Hm : 0 < m.
Hypothesis Hf : 0 < f.
Hypothesis Hd : 0 < d.
Hypothesis Ht : 0 <= t.
Hypothesis He : 0 <= e < 1.

Lemma good : good_source jv None m f e d.
Proof.
  repeat split; try lra. intros n Hn. destruct (peters_sum jv e J He) as (g & _ & G & _). exists (g n). exact (G n Hn).
Qed.
Lemma noise_cases x : 0 < x -> exists q, inverse_noise p x q /\ 0 <= q.
Proof.
  intros Hx. destruct (Hq x Hx) as [E|(s & E & P)]; [exists 0; split; [left; auto|lra]|].
  exists (/ s). split; [right; eauto|]. left. now apply Rinv_0_lt_compat.
Qed.
(** The contributions are the powers times weights. *)
Lemma terms : exists (g q : Z -> R) (F hc : R),
  (forall n, (1 <= n)%Z -> peters_g jv n (Fin e) = Fin (g n) /\ 0 <= g n /\ inverse_noise p (IZR n * f) (q n) /\ 0 <= q n) /\
  peters_f (Fin e) = Fin F /\ h_0_single jv None m f 0 2 d None = Ok [[[Fin hc]]] /\
  (forall N, total g N <= F) /\
  forall N, snr_first w jv m f e d t sc kw N = Ok (Snr [Fin (sqrt (total (fun n => (2 * hc) ^ 2 * t * (g n * (q n / IZR n ^ 2))) N))]).
Proof.
  destruct (peters_sum jv e J He) as (g & F & G & HF & B & _).
  assert (G0 : forall n, (1 <= n)%Z -> 0 <= g n).
  { intros n Hn. exact (proj2 (g_value_used jv None n e (g n) Hn ltac:(lra) (G n Hn))). }
  set (q := fun n => match p (Fin (IZR n * f)) with Fin s => / s | _ => 0 end).
  assert (Q : forall n, (1 <= n)%Z -> inverse_noise p (IZR n * f) (q n) /\ 0 <= q n).
  { intros n Hn. pose proof (IZR_pos n Hn) as P. unfold q, inverse_noise. destruct (Hq (IZR n * f) ltac:(nra)) as [E|(s & E & S)]; rewrite E.
    - split; [now left|lra].
    - split; [right; eauto|]. left. now apply Rinv_0_lt_compat. }
  exists g, q, F, (sqrt (ampR None) * h0R m f d 1 2). split; [|split; [|split; [|split]]].
  - intros n Hn. pose proof (Q n Hn). auto.
  - exact HF.
  - apply h_0_single_fin; auto; try lra; try lia. apply circular_power, J.
  - exact B.
  - intros N. destruct (stationary_formula w jv None unit (fun _ => m) (fun _ => f) (fun _ => e) (fun _ => d) [tt] t N sc kw p Hp Hq Ht (fun _ _ => good)) as (v & _ & V & T).
    unfold snr_first. cbn [map] in V. rewrite V. do 5 f_equal. fold (first_harmonics N). f_equal.
    apply map_ext_in. intros n I. unfold first_harmonics in I. apply in_map_iff in I. destruct I as (k & <- & I). apply in_seq in I.
    assert (Hn : (1 <= Z.of_nat k)%Z) by lia. destruct (T tt (Z.of_nat k) (or_introl eq_refl) ltac:(lia)) as (_ & h & H & S).
    rewrite (h_0_single_fin jv None m f e (Z.of_nat k) d (g (Z.of_nat k)) None Hm Hf Hd ltac:(lra) Hn (G _ Hn)) in H.
    assert (EH : h = sqrt (ampR None) * h0R m f d (g (Z.of_nat k)) (Z.of_nat k)) by congruence. rewrite EH in S.
    pose proof (IZR_pos _ Hn) as P. pose proof clight_pos.
    assert (HS : (sqrt (ampR None) * h0R m f d (g (Z.of_nat k)) (Z.of_nat k)) ^ 2 = (2 * (sqrt (ampR None) * h0R m f d 1 2)) ^ 2 * g (Z.of_nat k) / IZR (Z.of_nat k) ^ 2).
    { rewrite !Rpow_mult_distr, h0R_sqr, h0R_sqr by (auto; lra || lia). field. lra. }
    rewrite (sns_value _ _ _ _ S), HS. unfold q, Rdiv. ring.
Qed.

Lemma rising M N tol : rising_noise p f -> (N <= M)%nat -> 0 <= tol -> within_luminosity jv e tol N ->
  exists s s', snr_first w jv m f e d t sc kw N = Ok (Snr [Fin s]) /\ snr_first w jv m f e d t sc kw M = Ok (Snr [Fin s']) /\
  0 <= s <= s' /\ (1 - tol) * s' ^ 2 <= s ^ 2.
Proof.
  intros U NM T0 (g' & F' & G' & HF' & W'). destruct terms as (g & q & F & hc & A & HF & _ & B & S).
  rewrite HF in HF'. injection HF' as <-.
  assert (W : (1 - tol) * F <= total g N).
  { replace (total g N) with (total g' N); [exact W'|]. f_equal. apply map_ext_in. intros n I. unfold first_harmonics in I. apply in_map_iff in I. destruct I as (k & <- & I). apply in_seq in I.
    assert (Hn : (1 <= Z.of_nat k)%Z) by lia. pose proof (proj1 (A _ Hn)) as E. rewrite (G' _ Hn) in E. now injection E. }
  set (v := fun n => g n * (q n / IZR n ^ 2)). set (K := (2 * hc) ^ 2 * t) in *.
  assert (K0 : 0 <= K) by (apply Rmult_le_pos; [apply pow2_ge_0|exact Ht]).
  assert (V0 : forall n, (1 <= n)%Z -> 0 <= v n).
  { intros n Hn. destruct (A n Hn) as (_ & P1 & _ & P2). pose proof (IZR_pos n Hn). unfold v. apply Rmult_le_pos; [exact P1|]. apply Rmult_le_pos; [exact P2|]. left. apply Rinv_0_lt_compat, pow_lt. lra. }
  assert (EQ : forall L, total (fun n => K * (g n * (q n / IZR n ^ 2))) L = K * total v L) by (intros L; exact (total_scal K v L)).
  exists (sqrt (K * total v N)), (sqrt (K * total v M)). split; [rewrite S, EQ; reflexivity|]. split; [rewrite S, EQ; reflexivity|].
  assert (Z : forall L, total (fun _ => 0) L = 0).
  { intros L. pose proof (total_scal 0 (fun _ => 0) L) as E. rewrite Rmult_0_l in E. erewrite map_ext; [exact E|]. intros a. cbn. ring. }
  assert (P : forall L, 0 <= total v L).
  { intros L. pose proof (total_le (fun _ => 0) v 0 L ltac:(lia) ltac:(intros; apply V0; lia)) as H. rewrite !Z, total_0 in H. lra. }
  assert (I : total v N <= total v M).
  { pose proof (total_le (fun _ => 0) v N M NM ltac:(intros; apply V0; lia)) as H. rewrite !Z in H. lra. }
  split; [split; [apply sqrt_pos|apply sqrt_le_1_alt; nra]|].
  rewrite !pow2_sqrt by (apply Rmult_le_pos; auto). rewrite <- Rmult_assoc, (Rmult_comm (1 - tol) K), Rmult_assoc. apply Rmult_le_compat_l; [exact K0|].
  destruct N as [|N0].
  - (* no harmonics: the tolerance is at least 1 *)
    assert (F1 : 0 < F). { destruct (peters_f_value e He) as (E & L). rewrite HF in E. injection E as ->. lra. }
    rewrite total_0 in *. assert (1 <= tol) by nra. pose proof (P M). nra.
  - set (N := Datatypes.S N0) in *. set (c := q (Z.of_nat N) / IZR (Z.of_nat N) ^ 2).
    assert (HN : (1 <= Z.of_nat N)%Z) by (unfold N; lia). pose proof (IZR_pos _ HN) as PN.
    assert (c0 : 0 <= c). { unfold c. apply Rmult_le_pos; [apply (A _ HN)|]. left. apply Rinv_0_lt_compat, pow_lt. lra. }
    assert (CMP : forall i j, (1 <= i <= j)%Z -> q j / IZR j ^ 2 <= q i / IZR i ^ 2).
    { intros i j Hij. pose proof (IZR_pos i ltac:(lia)) as Pi. pose proof (IZR_pos j ltac:(lia)) as Pj.
      pose proof (U i j (q i) (q j) Hij (proj1 (proj2 (proj2 (A i ltac:(lia))))) (proj1 (proj2 (proj2 (A j ltac:(lia)))))) as H.
      assert (0 < IZR i ^ 2) by (apply pow_lt; lra). assert (0 < IZR j ^ 2) by (apply pow_lt; lra).
      apply (Rmult_le_reg_r (IZR i ^ 2 * IZR j ^ 2)); [apply Rmult_lt_0_compat; auto|].
      replace (q j / IZR j ^ 2 * (IZR i ^ 2 * IZR j ^ 2)) with (q j * IZR i ^ 2) by (field; lra).
      replace (q i / IZR i ^ 2 * (IZR i ^ 2 * IZR j ^ 2)) with (q i * IZR j ^ 2) by (field; lra). exact H. }
    assert (TAIL : total v M - total v N <= c * (total g M - total g N)).
    { pose proof (total_le v (fun n => c * g n) N M NM) as H. rewrite !total_scal in H. rewrite Rmult_minus_distr_l. apply H.
      intros n Hn. unfold v. destruct (A (Z.of_nat n) ltac:(lia)) as (_ & P1 & _). pose proof (CMP (Z.of_nat N) (Z.of_nat n) ltac:(lia)). fold c in H0. rewrite (Rmult_comm c). now apply Rmult_le_compat_l. }
    assert (HEAD : c * total g N <= total v N).
    { pose proof (total_le (fun n => c * g n) v 0 N ltac:(lia)) as H. rewrite !total_scal, !total_0 in H. rewrite Rmult_0_r, !Rminus_0_r in H. apply H.
      intros n Hn. unfold v. destruct (A (Z.of_nat n) ltac:(lia)) as (_ & P1 & _). pose proof (CMP (Z.of_nat n) (Z.of_nat N) ltac:(lia)). fold c in H0. rewrite (Rmult_comm c). now apply Rmult_le_compat_l. }
    pose proof (B M) as BM. assert (X : total g M - total g N <= tol * F) by lra.
    assert (X1 : total v M <= total v N + c * (tol * F)) by nra.
    assert (X2 : c * ((1 - tol) * F) <= total v N) by nra.
    destruct (Rle_lt_dec tol 1) as [L1|L1]; [|pose proof (P M); pose proof (P N); nra].
    assert (H1 : (1 - tol) * total v M <= (1 - tol) * (total v N + c * (tol * F))) by (apply Rmult_le_compat_l; lra).
    assert (H2 : tol * (c * ((1 - tol) * F)) <= tol * total v N) by (apply Rmult_le_compat_l; lra). lra.
Qed.

Lemma truncation W : (forall x q, 0 < x -> inverse_noise p x q -> q <= W) ->
  exists (s : nat -> R) (S hc F : R), (forall N, snr_first w jv m f e d t sc kw N = Ok (Snr [Fin (s N)])) /\
  peters_f (Fin e) = Fin F /\ h_0_single jv None m f 0 2 d None = Ok [[[Fin hc]]] /\
  Un_cv s S /\ (forall N, 0 <= s N <= S) /\
  forall N tol, within_luminosity jv e tol N -> S ^ 2 - s N ^ 2 <= tol * ((2 * hc / INR (N + 1)) ^ 2 * F * t * W).
Proof.
  intros HW. destruct terms as (g & q & F & hc & A & HF & HC & B & SN). set (K := (2 * hc) ^ 2 * t) in *.
  set (v := fun n => g n * (q n / IZR n ^ 2)).
  assert (K0 : 0 <= K) by (apply Rmult_le_pos; [apply pow2_ge_0|exact Ht]).
  assert (Qw : forall n, (1 <= n)%Z -> 0 <= q n <= W).
  { intros n Hn. destruct (A n Hn) as (_ & _ & I & P). split; [exact P|]. apply (HW (IZR n * f)); [|exact I]. pose proof (IZR_pos n Hn). nra. }
  assert (W0 : 0 <= W) by (pose proof (Qw 1%Z ltac:(lia)); lra).
  assert (V0 : forall n, (1 <= n)%Z -> 0 <= v n).
  { intros n Hn. destruct (A n Hn) as (_ & P1 & _ & P2). pose proof (IZR_pos n Hn). unfold v. apply Rmult_le_pos; [exact P1|]. apply Rmult_le_pos; [exact P2|]. left. apply Rinv_0_lt_compat, pow_lt. lra. }
  assert (EQ : forall L, total (fun n => K * (g n * (q n / IZR n ^ 2))) L = K * total v L) by (intros L; exact (total_scal K v L)).
  assert (Z : forall L, total (fun _ => 0) L = 0).
  { intros L. pose proof (total_scal 0 (fun _ => 0) L) as E. rewrite Rmult_0_l in E. erewrite map_ext; [exact E|]. intros a. cbn. ring. }
  assert (I : forall N M, (N <= M)%nat -> total v N <= total v M).
  { intros N M NM. pose proof (total_le (fun _ => 0) v N M NM ltac:(intros; apply V0; lia)) as H. rewrite !Z in H. lra. }
  assert (P : forall L, 0 <= total v L) by (intros L; pose proof (I 0%nat L ltac:(lia)) as H; rewrite total_0 in H; exact H).
  assert (TAIL : forall N M, (N <= M)%nat -> total v M - total v N <= W / INR (N + 1) ^ 2 * (F - total g N)).
  { intros N M NM. assert (PN : 0 < INR (N + 1)) by (apply lt_0_INR; lia).
    pose proof (total_le v (fun n => W / INR (N + 1) ^ 2 * g n) N M NM) as H. rewrite !total_scal in H.
    assert (C0 : 0 <= W / INR (N + 1) ^ 2) by (apply Rmult_le_pos; [exact W0|]; left; apply Rinv_0_lt_compat, pow_lt, PN).
    eapply Rle_trans; [apply H|].
    - intros n Hn. unfold v. destruct (A (Z.of_nat n) ltac:(lia)) as (_ & P1 & _). pose proof (Qw (Z.of_nat n) ltac:(lia)) as Q.
      rewrite (Rmult_comm (W / _)). apply Rmult_le_compat_l; [exact P1|]. rewrite <- INR_IZR_INZ.
      assert (PL : INR (N + 1) <= INR n) by (apply le_INR; lia).
      apply Rmult_le_compat; [lra| |lra|]; [left; apply Rinv_0_lt_compat, pow_lt; lra|]. apply Rinv_le_contravar; [apply pow_lt, PN|]. apply pow_incr. lra.
    - rewrite <- Rmult_minus_distr_l. apply Rmult_le_compat_l; [exact C0|]. pose proof (B M). lra. }
  assert (GR : Un_growing (fun N => total v N)) by (intros n; apply I; lia).
  destruct (growing_cv (fun N => total v N) GR) as (V & HV).
  { exists (W / INR (0 + 1) ^ 2 * (F - total g 0)). intros x (n & ->). pose proof (TAIL 0%nat n ltac:(lia)) as H. rewrite total_0, Rminus_0_r in H. exact H. }
  assert (VB : forall N, total v N <= V) by (intros N; exact (growing_ineq _ _ GR HV N)).
  assert (V1 : 0 <= V) by (pose proof (P 0%nat); pose proof (VB 0%nat); lra).
  exists (fun N => sqrt (K * total v N)), (sqrt (K * V)), hc, F. split; [|split; [|split; [|split; [|split]]]].
  - intros N. rewrite SN, EQ. reflexivity.
  - exact HF.
  - exact HC.
  - assert (CK : Un_cv (fun N => K * total v N) (K * V)).
    { apply (CV_mult (fun _ => K)); [|exact HV]. intros eps Hp'. exists 0%nat. intros n _. unfold R_dist. rewrite Rminus_eq_0, Rabs_R0. exact Hp'. }
    apply (continuity_seq sqrt (fun N => K * total v N) (K * V)); [|exact CK].
    apply continuity_pt_sqrt. apply Rmult_le_pos; auto.
  - intros N. split; [apply sqrt_pos|]. apply sqrt_le_1_alt. apply Rmult_le_compat_l; auto.
  - intros N tol (g' & F' & G' & HF' & W'). rewrite HF in HF'. injection HF' as <-.
    assert (WL : (1 - tol) * F <= total g N).
    { replace (total g N) with (total g' N); [exact W'|]. f_equal. apply map_ext_in. intros n Hi. unfold first_harmonics in Hi. apply in_map_iff in Hi. destruct Hi as (k & <- & Hi). apply in_seq in Hi.
      assert (Hn : (1 <= Z.of_nat k)%Z) by lia. pose proof (proj1 (A _ Hn)) as E. rewrite (G' _ Hn) in E. now injection E. }
    rewrite !pow2_sqrt by (apply Rmult_le_pos; auto). assert (PN : 0 < INR (N + 1)) by (apply lt_0_INR; lia).
    assert (C0 : 0 <= W / INR (N + 1) ^ 2) by (apply Rmult_le_pos; [exact W0|]; left; apply Rinv_0_lt_compat, pow_lt, PN).
    assert (LIM : V - total v N <= W / INR (N + 1) ^ 2 * (tol * F)).
    { apply Rle_trans with (W / INR (N + 1) ^ 2 * (F - total g N)); [|apply Rmult_le_compat_l; [exact C0|lra]].
      apply Rnot_lt_le. intros L. destruct (HV (V - total v N - W / INR (N + 1) ^ 2 * (F - total g N)) ltac:(lra)) as (n0 & H0).
      specialize (H0 (Nat.max n0 N) ltac:(lia)). pose proof (TAIL N (Nat.max n0 N) ltac:(lia)) as T. unfold R_dist in H0. apply Rabs_def2 in H0. lra. }
    rewrite <- Rmult_minus_distr_l. replace (tol * ((2 * hc / INR (N + 1)) ^ 2 * F * t * W)) with (K * (W / INR (N + 1) ^ 2 * (tol * F))) by (unfold K; field; lra).
    apply Rmult_le_compat_l; auto.
Qed.
End Sums.

(** Whatever the tolerance, at some frequency all harmonics summed lie below the band and the next one in it. *)
Lemma below_band w jv kw m e d t tol lo hi : (forall k x, jv k (Fin x) = Fin (besselJ k x)) -> built_in_curve w kw t (fun f => lo <= f <= hi) ->
  0 < lo -> lo <= hi -> 0 < m -> 0 < d -> 0 < t -> 0 < e < 1 -> 0 < tol ->
  exists N f s, within_luminosity jv e tol N /\ 0 < f /\
    snr_first w jv m f e d t None kw N = Ok (Snr [Fin 0]) /\ snr_first w jv m f e d t None kw (N + 1) = Ok (Snr [Fin s]) /\ 0 < s.
Proof.
  intros J HB Hlo Hhi Hm Hd Ht He Htol. destruct (built_in_noise w kw t _ HB Ht) as (p & Hp & Hq & Out).
  destruct (enough_harmonics jv e tol J ltac:(lra) Htol) as (g0 & F & N & G0 & HF & EN).
  assert (PN : 0 < INR (N + 1)) by (apply lt_0_INR; lia).
  set (f := lo / INR (N + 1)). assert (Hf : 0 < f) by (unfold f; apply Rmult_lt_0_compat; [lra|now apply Rinv_0_lt_compat]).
  assert (fN : INR (N + 1) * f = lo) by (unfold f; field; lra).
  destruct (terms w jv kw None p m f e d t J Hp Hq Hm Hf Hd ltac:(lra) ltac:(lra)) as (g & q & F1 & hc & A & _ & HC & _ & S).
  assert (hc0 : 0 < hc).
  { rewrite (h_0_single_fin jv None m f 0 2 d 1 None) in HC by (auto; try lra; try lia; apply circular_power, J). injection HC as <-.
    apply Rmult_lt_0_compat; [apply sqrt_lt_R0; cbn; lra|]. unfold h0R. pose proof clight_pos. pose proof Ggrav_pos. pose proof PI_RGT_0. rewrite sqrt_1.
    assert (0 < sqrt (Rpower 2 (28 / 3) / 5)) by (apply sqrt_lt_R0; pos). pos; lra. }
  assert (Z1 : forall L, total (fun _ => 0) L = 0).
  { intros L. pose proof (total_scal 0 (fun _ => 0) L) as E. rewrite Rmult_0_l in E. erewrite map_ext; [exact E|]. intros x. cbn. ring. }
  exists N, f. assert (Z0 : total (fun n => (2 * hc) ^ 2 * t * (g n * (q n / IZR n ^ 2))) N = 0).
  { apply Rle_antisym.
    - pose proof (total_le (fun n => (2 * hc) ^ 2 * t * (g n * (q n / IZR n ^ 2))) (fun _ => 0) 0 N ltac:(lia)) as H. rewrite Z1, !total_0, !Rminus_0_r in H. apply H. intros n Hn. destruct (A (Z.of_nat n) ltac:(lia)) as (_ & _ & I & _).
      assert (nf : IZR (Z.of_nat n) * f < lo).
      { rewrite <- INR_IZR_INZ, <- fN. apply Rmult_lt_compat_r; [exact Hf|]. apply lt_INR. lia. }
      assert (E : p (Fin (IZR (Z.of_nat n) * f)) = PInf).
      { apply Out; [|lra]. apply Rmult_lt_0_compat; [apply (IZR_lt 0); lia|exact Hf]. }
      destruct I as [(_ & ->)|(s & Es & _)]; [unfold Rdiv; lra|congruence].
    - pose proof (total_le (fun _ => 0) (fun n => (2 * hc) ^ 2 * t * (g n * (q n / IZR n ^ 2))) 0 N ltac:(lia)) as H. rewrite Z1, !total_0, !Rminus_0_r in H. apply H. intros n Hn. destruct (A (Z.of_nat n) ltac:(lia)) as (_ & P1 & _ & P2).
      apply Rmult_le_pos; [apply Rmult_le_pos; [apply pow2_ge_0|lra]|]. apply Rmult_le_pos; [exact P1|]. apply Rmult_le_pos; [exact P2|].
      left. apply Rinv_0_lt_compat, pow_lt, (IZR_lt 0). lia. }
  exists (sqrt ((2 * hc) ^ 2 * t * (g (Z.of_nat (N + 1)) * (q (Z.of_nat (N + 1)) / IZR (Z.of_nat (N + 1)) ^ 2)))).
  split; [|split; [exact Hf|split; [|split]]].
  - exists g0, F. split; [exact G0|]. split; [exact HF|]. apply (EN N). lia.
  - rewrite S, Z0, sqrt_0. reflexivity.
  - rewrite S. replace (N + 1)%nat with (Datatypes.S N) by lia. rewrite total_S, Z0, Rplus_0_l. reflexivity.
  - apply sqrt_lt_R0. destruct (A (Z.of_nat (N + 1)) ltac:(lia)) as (G & P1 & I & P2).
    destruct (every_harmonic jv (Z.of_nat (N + 1)) e J ltac:(lia) He) as (g' & E & P). rewrite G in E. injection E as <-.
    rewrite <- INR_IZR_INZ, fN in I. destruct I as [(E & _)|(s & Es & ->)].
    + exfalso. apply (proj1 (Out lo Hlo) E). lra.
    + destruct (Hq lo Hlo) as [E|(s' & E & Ps)]; [congruence|]. rewrite Es in E. injection E as <-.
      rewrite <- INR_IZR_INZ. repeat apply Rmult_lt_0_compat; try lra; try (apply Rinv_0_lt_compat; try apply pow_lt; lra).
Qed.
