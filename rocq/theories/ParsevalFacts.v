(** ParsevalFacts.v -- the harmonics of a Kepler orbit carry its whole power: sum of g(n, e) over n. *)
From Coq Require Import Reals ZArith List Lra Lia.
From Coquelicot Require Import Coquelicot.
From Verif Require Import Spec UtilsFacts Bessel BesselFacts FourierFacts.
Open Scope R_scope.

(** ** Functions that are continuous, bounded and Lipschitz on the circle *)
Definition tame (f : R -> R) : Prop := (forall u, continuous f u) /\ (exists M, forall u, Rabs (f u) <= M) /\
  (exists K, 0 <= K /\ forall u v, (f u - f v) ^ 2 <= K * (1 - cos (u - v))).
Lemma one_cos x : 0 <= 1 - cos x.
Proof. pose proof (COS_bound x). lra. Qed.
Lemma tame_const c : tame (fun _ => c).
Proof.
  split; [intros; apply continuous_const|]. split; [exists (Rabs c); intros; lra|]. exists 0. split; [lra|]. intros. pose proof (one_cos (u - v)).
  replace ((c - c) ^ 2) with 0 by ring. lra.
Qed.
Lemma tame_ext f g : (forall u, f u = g u) -> tame f -> tame g.
Proof.
  intros E [A [[M B] [K [C D]]]]. split; [intros u; apply (continuous_ext f); auto|]. split; [exists M; intros; rewrite <- E; auto|].
  exists K. split; auto. intros. rewrite <- !E. auto.
Qed.
Lemma chord u v : (cos u - cos v) ^ 2 + (sin u - sin v) ^ 2 = 2 * (1 - cos (u - v)).
Proof.
  rewrite cos_minus. pose proof (sin2_cos2 u) as A. pose proof (sin2_cos2 v) as B. unfold Rsqr in *. 
  replace ((cos u - cos v) ^ 2 + (sin u - sin v) ^ 2) with ((sin u * sin u + cos u * cos u) + (sin v * sin v + cos v * cos v) - 2 * (cos u * cos v + sin u * sin v)) by ring.
  rewrite A, B. ring.
Qed.
Lemma tame_cos : tame cos.
Proof.
  split; [intros; apply continuous_cos|]. split; [exists 1; intros; apply Rabs_le; apply COS_bound|]. exists 2. split; [lra|]. intros.
  rewrite <- chord. pose proof (pow2_ge_0 (sin u - sin v)). lra.
Qed.
Lemma tame_sin : tame sin.
Proof.
  split; [intros; apply continuous_sin|]. split; [exists 1; intros; apply Rabs_le; apply SIN_bound|]. exists 2. split; [lra|]. intros.
  rewrite <- chord. pose proof (pow2_ge_0 (cos u - cos v)). lra.
Qed.
Lemma sq_sum x y : (x + y) ^ 2 <= 2 * x ^ 2 + 2 * y ^ 2.
Proof. pose proof (pow2_ge_0 (x - y)). nra. Qed.
Lemma tame_plus f g : tame f -> tame g -> tame (fun u => f u + g u).
Proof.
  intros [A [[M B] [K [C D]]]] [A' [[M' B'] [K' [C' D']]]]. split; [intros; apply c_plus; auto|]. split.
  - exists (M + M'). intros u. eapply Rle_trans; [apply Rabs_triang|]. specialize (B u). specialize (B' u). lra.
  - exists (2 * K + 2 * K'). split; [lra|]. intros u v. replace (f u + g u - (f v + g v)) with ((f u - f v) + (g u - g v)) by ring.
    eapply Rle_trans; [apply sq_sum|]. specialize (D u v). specialize (D' u v). lra.
Qed.
Lemma sq_bound x M : Rabs x <= M -> x ^ 2 <= M ^ 2.
Proof. intros H. rewrite <- (pow2_abs x). apply pow_incr. split; auto. apply Rabs_pos. Qed.
Lemma tame_mult f g : tame f -> tame g -> tame (fun u => f u * g u).
Proof.
  intros [A [[M B] [K [C D]]]] [A' [[M' B'] [K' [C' D']]]]. split; [intros; apply c_mult; auto|]. split.
  - exists (M * M'). intros u. rewrite Rabs_mult. apply Rmult_le_compat; auto; apply Rabs_pos.
  - exists (2 * (M ^ 2 * K') + 2 * (M' ^ 2 * K)). pose proof (pow2_ge_0 M). pose proof (pow2_ge_0 M'). split; [nra|].
    intros u v. replace (f u * g u - f v * g v) with (f u * (g u - g v) + g v * (f u - f v)) by ring.
    eapply Rle_trans; [apply sq_sum|]. rewrite !Rpow_mult_distr. specialize (D u v). specialize (D' u v).
    pose proof (sq_bound _ _ (B u)). pose proof (sq_bound _ _ (B' v)).
    assert (f u ^ 2 * (g u - g v) ^ 2 <= M ^ 2 * (K' * (1 - cos (u - v)))) by (apply Rmult_le_compat; auto; apply pow2_ge_0).
    assert (g v ^ 2 * (f u - f v) ^ 2 <= M' ^ 2 * (K * (1 - cos (u - v)))) by (apply Rmult_le_compat; auto; apply pow2_ge_0). lra.
Qed.
Lemma tame_inv f m : 0 < m -> (forall u, m <= f u) -> tame f -> tame (fun u => / f u).
Proof.
  intros Hm F [A [_ [K [C D]]]]. assert (P : forall u, 0 < / f u <= / m).
  { intros u. specialize (F u). split; [apply Rinv_0_lt_compat; lra|apply Rinv_le_contravar; lra]. }
  split; [|split].
  - intros u. apply (continuous_comp f Rinv); auto. specialize (F u). apply (ex_derive_continuous (K := R_AbsRing) (V := R_NormedModule) Rinv).
    apply (ex_derive_ext (fun x => / x)); [reflexivity|]. auto_derive. lra.
  - exists (/ m). intros u. specialize (P u). rewrite Rabs_pos_eq; lra.
  - exists ((/ m) ^ 2 * (/ m) ^ 2 * K). assert (0 < / m) by (now apply Rinv_0_lt_compat). assert (0 < (/ m) ^ 2) by (now apply pow_lt). split.
    + apply Rmult_le_pos; auto. apply Rlt_le. now apply Rmult_lt_0_compat.
    + intros u v. pose proof (F u). pose proof (F v). replace (/ f u - / f v) with (/ f u * / f v * (f v - f u)) by (field; lra).
      rewrite !Rpow_mult_distr. rewrite (Rmult_assoc _ K). apply Rmult_le_compat; [|apply pow2_ge_0| |].
      * apply Rmult_le_pos; apply pow2_ge_0.
      * apply Rmult_le_compat; try apply pow2_ge_0; apply pow_incr; specialize (P u) as P1; specialize (P v) as P2; lra.
      * replace ((f v - f u) ^ 2) with ((f u - f v) ^ 2) by ring. auto.
Qed.

Section Kepler.
Variable e : R.
Hypothesis He : 0 < e < 1.
(** Mean anomaly and distance as functions of the eccentric anomaly *)
Definition ml (u : R) : R := u - e * sin u.
Definition rr (u : R) : R := 1 - e * cos u.
Lemma rr_low u : 1 - e <= rr u.
Proof. unfold rr. pose proof (COS_bound u). nra. Qed.
Lemma rr_pos u : 0 < rr u.
Proof. pose proof (rr_low u). lra. Qed.
Lemma ml_derive u : is_derive ml u (rr u).
Proof. unfold ml, rr. auto_derive; auto. ring. Qed.
Lemma rr_cont u : continuous rr u.
Proof. apply (continuous_of_derive _ _ (e * sin u)). unfold rr. auto_derive; auto. ring. Qed.
Lemma ml_lo : ml (- PI) = - PI.
Proof. unfold ml. rewrite sin_neg, sin_PI. ring. Qed.
Lemma ml_hi : ml PI = PI.
Proof. unfold ml. rewrite sin_PI. ring. Qed.
(** Positions on the circle of mean anomalies are close only if those of eccentric anomalies are *)
Lemma half_cos x : 1 - cos x = 2 * sin (x / 2) ^ 2.
Proof. replace x with (2 * (x / 2)) at 1 by field. rewrite cos_2a_sin. ring. Qed.
Lemma cos_lower x : 1 - x ^ 2 / 2 <= cos x.
Proof.
  pose proof (half_cos x) as H. assert (sin (x / 2) ^ 2 <= (x / 2) ^ 2); [|lra].
  rewrite <- (pow2_abs (sin _)), <- (pow2_abs (x / 2)). apply pow_incr. split; [apply Rabs_pos|].
  destruct (Rle_dec 0 (x / 2)) as [P|P].
  - rewrite (Rabs_pos_eq (x / 2)) by auto. apply Rabs_le. destruct (Req_dec (x / 2) 0) as [-> |N]; [rewrite sin_0; lra|].
    pose proof (sin_lt_x (x / 2) ltac:(lra)). split; [|lra]. pose proof (SIN_bound (x / 2)). destruct (Rle_dec (x / 2) PI) as [Q|Q].
    + pose proof (sin_ge_0 (x / 2) ltac:(lra) Q). lra.
    + pose proof PI2_3_2. lra.
  - set (y := - (x / 2)). assert (E : sin (x / 2) = - sin y) by (unfold y; rewrite sin_neg; ring). rewrite E, Rabs_Ropp.
    assert (Y : 0 < y) by (unfold y; lra). rewrite (Rabs_left (x / 2)) by lra. fold y. apply Rabs_le. pose proof (sin_lt_x y Y). split; [|lra].
    pose proof (SIN_bound y). destruct (Rle_dec y PI) as [Q|Q].
    + pose proof (sin_ge_0 y ltac:(lra) Q). lra.
    + pose proof PI2_3_2. lra.
Qed.
Lemma abs_sin_le x : Rabs (sin x) <= Rabs x.
Proof.
  apply Rsqr_incr_0; try apply Rabs_pos. unfold Rsqr. rewrite <- !Rabs_mult, !Rabs_pos_eq by nra.
  pose proof (cos_lower (2 * x)). pose proof (half_cos (2 * x)) as H0. replace (2 * x / 2) with x in H0 by field. lra.
Qed.
Lemma angle_bound u v : 1 - cos (u - v) <= / (1 - e) ^ 2 * (1 - cos (ml u - ml v)).
Proof.
  rewrite !half_cos. set (y := (u - v) / 2). set (s := sin y). set (k := e * cos ((u + v) / 2)).
  assert (E : (ml u - ml v) / 2 = y - k * s).
  { unfold ml, k, s, y. assert (H : sin u - sin v = 2 * cos ((u + v) / 2) * sin ((u - v) / 2)).
    { assert (Hu : u = (u + v) / 2 + (u - v) / 2) by field. assert (Hv : v = (u + v) / 2 - (u - v) / 2) by field.
      rewrite (f_equal sin Hu), (f_equal sin Hv) at 1. rewrite sin_plus, sin_minus. ring. }
    replace (u - e * sin u - (v - e * sin v)) with ((u - v) - e * (sin u - sin v)) by ring. rewrite H. field. }
  rewrite E. assert (K : Rabs k <= e).
  { unfold k. rewrite Rabs_mult, (Rabs_pos_eq e) by lra. assert (Rabs (cos ((u + v) / 2)) <= 1) by (apply Rabs_le; apply COS_bound). nra. }
  assert (M : (1 - e) * Rabs s <= Rabs (sin (y - k * s))).
  { rewrite sin_minus. fold s. assert (C1 : 1 - e ^ 2 * s ^ 2 / 2 <= cos (k * s)).
    { pose proof (cos_lower (k * s)) as C. assert ((k * s) ^ 2 <= e ^ 2 * s ^ 2); [|lra].
      rewrite Rpow_mult_distr. apply Rmult_le_compat_r; [apply pow2_ge_0|]. now apply sq_bound. }
    assert (C2 : Rabs (sin (k * s)) <= e * Rabs s). { eapply Rle_trans; [apply abs_sin_le|]. rewrite Rabs_mult. apply Rmult_le_compat_r; [apply Rabs_pos|auto]. }
    pose proof (sin2_cos2 y) as T. unfold Rsqr in T. fold s in T. set (c := cos y) in *.
    assert (S2 : s ^ 2 <= 1) by nra. assert (Cc : Rabs c <= 1 - s ^ 2 / 2).
    { apply Rsqr_incr_0; [|apply Rabs_pos|lra]. unfold Rsqr. rewrite <- Rabs_mult, Rabs_pos_eq by nra. nra. }
    assert (D : Rabs (s * cos (k * s)) - Rabs (c * sin (k * s)) <= Rabs (s * cos (k * s) - c * sin (k * s))) by apply Rabs_triang_inv.
    rewrite !Rabs_mult in D. pose proof (Rabs_pos s). pose proof (Rabs_pos c).
    assert (CP : 1 - e ^ 2 * s ^ 2 / 2 <= Rabs (cos (k * s))) by (eapply Rle_trans; [exact C1|apply Rle_abs]).
    assert (P1 : Rabs s * (1 - e ^ 2 * s ^ 2 / 2) <= Rabs s * Rabs (cos (k * s))) by (now apply Rmult_le_compat_l).
    assert (P2 : Rabs c * Rabs (sin (k * s)) <= (1 - s ^ 2 / 2) * (e * Rabs s)) by (apply Rmult_le_compat; auto; apply Rabs_pos).
    assert (P3 : (1 - e) * Rabs s <= Rabs s * (1 - e ^ 2 * s ^ 2 / 2) - (1 - s ^ 2 / 2) * (e * Rabs s)).
    { assert (0 <= e * s ^ 2 * (1 - e) / 2 * Rabs s). { apply Rmult_le_pos; auto. pose proof (pow2_ge_0 s). assert (0 <= e * s ^ 2) by nra. nra. } nra. }
    lra. }
  assert (Q : (1 - e) ^ 2 * s ^ 2 <= sin (y - k * s) ^ 2).
  { rewrite <- (pow2_abs s), <- (pow2_abs (sin (y - k * s))), <- Rpow_mult_distr. apply pow_incr. split; auto. apply Rmult_le_pos; [lra|apply Rabs_pos]. }
  assert (P : 0 < (1 - e) ^ 2) by (apply pow_lt; lra).
  apply (Rmult_le_reg_l ((1 - e) ^ 2)); auto.
  replace ((1 - e) ^ 2 * (/ (1 - e) ^ 2 * (2 * sin (y - k * s) ^ 2))) with (2 * sin (y - k * s) ^ 2) by (field; lra). fold s. lra.
Qed.
Lemma tame_mean f : tame f -> exists C, forall u v, (f u - f v) ^ 2 <= C * (1 - cos (ml u - ml v)).
Proof.
  intros [_ [_ [K [A B]]]]. exists (K * / (1 - e) ^ 2). intros u v. eapply Rle_trans; [apply B|]. rewrite Rmult_assoc. apply Rmult_le_compat_l; auto. apply angle_bound.
Qed.

(** ** Third derivatives with respect to the mean anomaly *)
Section Third.
Variables p1 p2 p3 : R -> R.
Hypothesis D1 : forall u, is_derive p1 u (p2 u).
Hypothesis D2 : forall u, is_derive p2 u (p3 u).
Hypothesis t1 : tame p1.
Hypothesis t2 : tame p2.
Hypothesis t3 : tame p3.
Hypothesis per1 : p1 (- PI) = p1 PI.
Hypothesis per2 : p2 (- PI) = p2 PI.
Definition third (u : R) : R :=
  p3 u / rr u ^ 3 - 3 * e * sin u * p2 u / rr u ^ 4 - e * cos u * p1 u / rr u ^ 4 + 3 * e ^ 2 * sin u ^ 2 * p1 u / rr u ^ 5.
Lemma tame_rr : tame rr.
Proof. apply (tame_ext (fun u => 1 + - e * cos u)); [intros; unfold rr; ring|]. apply tame_plus; [apply tame_const|]. apply tame_mult; [apply tame_const|apply tame_cos]. Qed.
Lemma tame_third : tame third.
Proof.
  pose proof (tame_inv rr (1 - e) ltac:(lra) rr_low tame_rr) as I. set (i := fun u => / rr u) in I.
  apply (tame_ext (fun u => i u * (i u * (i u * (p3 u + i u * (-3 * e * (sin u * p2 u) + (- e) * (cos u * p1 u) + i u * (3 * e ^ 2 * (sin u * (sin u * p1 u))))))))).
  - intros u. unfold i, third. pose proof (rr_pos u). field. lra.
  - pose proof tame_sin. pose proof tame_cos. pose proof (fun a b => tame_mult (fun _ => a) b (tame_const a)) as SC.
    repeat first [apply (tame_mult i); [exact I|] | apply (tame_plus p3); [exact t3|]].
    apply (tame_plus (fun u => -3 * e * (sin u * p2 u) + - e * (cos u * p1 u))).
    + apply (tame_plus (fun u => -3 * e * (sin u * p2 u))); apply SC; now apply tame_mult.
    + apply (tame_mult i); auto. apply SC. apply tame_mult; auto. now apply tame_mult.
Qed.
Definition q1 (u : R) : R := p1 u / rr u.
Definition q2 (u : R) : R := p2 u / rr u ^ 2 - e * sin u * p1 u / rr u ^ 3.
Lemma dq1 u : is_derive q1 u (q2 u * rr u).
Proof.
  pose proof (rr_pos u) as P. unfold q1, q2, rr in *. auto_derive; [split; [eexists; apply D1|lra]|].
  replace (Derive (fun x : R => p1 x) u) with (p2 u) by (symmetry; apply is_derive_unique, D1). field. lra.
Qed.
Lemma dq2 u : is_derive q2 u (third u * rr u).
Proof.
  pose proof (rr_pos u) as P. unfold q2, third, rr in *. set (r := 1 - e * cos u) in *.
  auto_derive; [repeat split; try (eexists; apply D1); try (eexists; apply D2); first [exact (pow_nonzero r 2 ltac:(lra)) | exact (pow_nonzero r 3 ltac:(lra))]|].
  replace (Derive (fun x : R => p1 x) u) with (p2 u) by (symmetry; apply is_derive_unique, D1).
  replace (Derive (fun x : R => p2 x) u) with (p3 u) by (symmetry; apply is_derive_unique, D2). 
  change (1 + - (e * cos u)) with r. field. lra.
Qed.
Lemma cos_nPI_neg n : cos (INR n * - PI) = cos (INR n * PI).
Proof. replace (INR n * - PI) with (- (INR n * PI)) by ring. apply cos_neg. Qed.
Lemma sin_nPI_neg n : sin (INR n * - PI) = 0.
Proof. replace (INR n * - PI) with (- (INR n * PI)) by ring. rewrite sin_neg, sin_nPI. ring. Qed.
Lemma rr_ends : rr (- PI) = rr PI.
Proof. unfold rr. now rewrite cos_neg. Qed.
Lemma q1_ends : q1 (- PI) = q1 PI.
Proof. unfold q1. now rewrite per1, rr_ends. Qed.
Lemma q2_ends : q2 (- PI) = q2 PI.
Proof. unfold q2. rewrite per2, per1, rr_ends, sin_neg, sin_PI. f_equal. unfold Rdiv. ring. Qed.
Lemma cont_ml u : continuous ml u.
Proof. apply (continuous_of_derive _ _ (rr u)). apply ml_derive. Qed.
Lemma third_sin n v : is_RInt (fun u => p1 u * sin (INR n * ml u)) (- PI) PI v ->
  is_RInt (fun u => third u * sin (INR n * ml u) * rr u) (- PI) PI (- INR n ^ 2 * v).
Proof.
  intros H. set (k := INR n) in *.
  assert (D : is_RInt (fun u => third u * sin (k * ml u) * rr u + k ^ 2 * (p1 u * sin (k * ml u))) (- PI) PI 0).
  { set (F := fun u => q2 u * sin (k * ml u) - k * (q1 u * cos (k * ml u))).
    replace 0 with (F PI - F (- PI)).
    - apply (is_RInt_derive F).
      + intros u _. unfold F. pose proof (dq1 u) as A. pose proof (dq2 u) as B. pose proof (ml_derive u) as M.
        auto_derive; [repeat split; eexists; eassumption|].
        replace (Derive (fun x : R => q1 x) u) with (q2 u * rr u) by (symmetry; now apply is_derive_unique).
        replace (Derive (fun x : R => q2 x) u) with (third u * rr u) by (symmetry; now apply is_derive_unique).
        replace (Derive (fun x : R => ml x) u) with (rr u) by (symmetry; now apply is_derive_unique).
        assert (E : q1 u * rr u = p1 u) by (unfold q1; pose proof (rr_pos u); field; lra). rewrite <- E. ring.
      + intros u _. destruct tame_third as [T _]. destruct t1 as [T1 _]. assert (N : continuous (fun x => k * ml x) u) by (apply c_mult; [apply continuous_const|apply cont_ml]).
        apply c_plus; [apply c_mult; [apply c_mult; [apply T|]|apply rr_cont]|apply c_mult; [apply continuous_const|apply c_mult; [apply T1|]]]; now apply c_sin.
    - unfold F. rewrite ml_lo, ml_hi. unfold k. rewrite sin_nPI, sin_nPI_neg, cos_nPI_neg, q1_ends. ring. }
  pose proof (is_RInt_plus (V := R_NormedModule) _ _ _ _ _ _ D (is_RInt_scal (V := R_NormedModule) _ _ _ (- k ^ 2) _ H)) as X.
  replace (- k ^ 2 * v) with (plus 0 (scal (- k ^ 2) v)) by (cbn; unfold plus, scal; cbn; unfold mult; cbn; ring).
  refine (is_RInt_ext _ _ _ _ _ _ X). intros u _. unfold plus, scal; cbn; unfold mult; cbn. ring.
Qed.
Lemma third_cos n v : is_RInt (fun u => p1 u * cos (INR n * ml u)) (- PI) PI v ->
  is_RInt (fun u => third u * cos (INR n * ml u) * rr u) (- PI) PI (- INR n ^ 2 * v).
Proof.
  intros H. set (k := INR n) in *.
  assert (D : is_RInt (fun u => third u * cos (k * ml u) * rr u + k ^ 2 * (p1 u * cos (k * ml u))) (- PI) PI 0).
  { set (F := fun u => q2 u * cos (k * ml u) + k * (q1 u * sin (k * ml u))).
    replace 0 with (F PI - F (- PI)).
    - apply (is_RInt_derive F).
      + intros u _. unfold F. pose proof (dq1 u) as A. pose proof (dq2 u) as B. pose proof (ml_derive u) as M.
        auto_derive; [repeat split; eexists; eassumption|].
        replace (Derive (fun x : R => q1 x) u) with (q2 u * rr u) by (symmetry; now apply is_derive_unique).
        replace (Derive (fun x : R => q2 x) u) with (third u * rr u) by (symmetry; now apply is_derive_unique).
        replace (Derive (fun x : R => ml x) u) with (rr u) by (symmetry; now apply is_derive_unique).
        assert (E : q1 u * rr u = p1 u) by (unfold q1; pose proof (rr_pos u); field; lra). rewrite <- E. ring.
      + intros u _. destruct tame_third as [T _]. destruct t1 as [T1 _]. assert (N : continuous (fun x => k * ml x) u) by (apply c_mult; [apply continuous_const|apply cont_ml]).
        apply c_plus; [apply c_mult; [apply c_mult; [apply T|]|apply rr_cont]|apply c_mult; [apply continuous_const|apply c_mult; [apply T1|]]]; now apply c_cos.
    - unfold F. rewrite ml_lo, ml_hi. unfold k. rewrite sin_nPI, sin_nPI_neg, cos_nPI_neg, q2_ends. ring. }
  pose proof (is_RInt_plus (V := R_NormedModule) _ _ _ _ _ _ D (is_RInt_scal (V := R_NormedModule) _ _ _ (- k ^ 2) _ H)) as X.
  replace (- k ^ 2 * v) with (plus 0 (scal (- k ^ 2) v)) by (cbn; unfold plus, scal; cbn; unfold mult; cbn; ring).
  refine (is_RInt_ext _ _ _ _ _ _ X). intros u _. unfold plus, scal; cbn; unfold mult; cbn. ring.
Qed.
End Third.
End Kepler.
