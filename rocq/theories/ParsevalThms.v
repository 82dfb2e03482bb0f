(** ParsevalThms.v -- sum of the relative powers of all harmonics. *)
From Coq Require Import Reals ZArith List Lra Lia.
From Coquelicot Require Import Coquelicot.
From Verif Require Import Num NumFacts Utils Spec UtilsFacts EvolSpec Bessel BesselFacts FourierFacts ParsevalFacts.
Import ListNotations.
Open Scope R_scope.

(** ** Bessel's integral over the full circle *)
Lemma int_even (f : R -> R) v : (forall u, f (- u) = f u) -> is_RInt f 0 PI v -> is_RInt f (- PI) PI (2 * v).
Proof.
  intros E H. assert (L : is_RInt f (- PI) 0 v).
  { pose proof (is_RInt_swap (V := R_NormedModule) f PI 0 v H) as S.
    assert (S' : is_RInt f (- - PI) (- 0) (opp v)) by (rewrite Ropp_involutive, Ropp_0; exact S).
    pose proof (is_RInt_comp_opp (V := R_NormedModule) f (- PI) 0 (opp v) S') as C.
    pose proof (is_RInt_opp (V := R_NormedModule) _ _ _ _ C) as O. rewrite opp_opp in O.
    refine (is_RInt_ext _ _ _ _ _ _ O). intros u _. unfold opp; cbn. rewrite E. ring. }
  replace (2 * v) with (plus v v) by (unfold plus; cbn; ring). exact (is_RInt_Chasles (V := R_NormedModule) f (- PI) 0 PI v v L H).
Qed.
Lemma int_odd (f : R -> R) : (forall u, continuous f u) -> (forall u, f (- u) = - f u) -> is_RInt f (- PI) PI 0.
Proof.
  intros C E. destruct (ex_RInt_all f 0 PI C) as [v H]. assert (L : is_RInt f (- PI) 0 (- v)).
  { pose proof (is_RInt_swap (V := R_NormedModule) f PI 0 v H) as S.
    assert (S' : is_RInt f (- - PI) (- 0) (opp v)) by (rewrite Ropp_involutive, Ropp_0; exact S).
    pose proof (is_RInt_comp_opp (V := R_NormedModule) f (- PI) 0 (opp v) S') as D.
    refine (is_RInt_ext _ _ _ _ _ _ D). intros u _. unfold opp; cbn. rewrite E. ring. }
  replace 0 with (plus (- v) v) by (unfold plus; cbn; ring). exact (is_RInt_Chasles (V := R_NormedModule) f (- PI) 0 PI (- v) v L H).
Qed.
Lemma full_cos m x : is_RInt (fun u => cos (ph m x u)) (- PI) PI (2 * PI * besselJ m x).
Proof.
  pose proof PI_RGT_0. rewrite besselJ_ph. replace (2 * PI * (/ PI * RInt (fun t => cos (ph m x t)) 0 PI)) with (2 * RInt (fun t => cos (ph m x t)) 0 PI) by (field; lra).
  apply int_even.
  - intros u. unfold ph. rewrite sin_neg. replace (IZR m * - u + - (x * - sin u)) with (- (IZR m * u + - (x * sin u))) by ring. apply cos_neg.
  - apply (RInt_correct (V := R_CompleteNormedModule)). apply ex_RInt_all. intros; apply continuous_cos_ph.
Qed.
Lemma full_sin m x : is_RInt (fun u => sin (ph m x u)) (- PI) PI 0.
Proof.
  apply int_odd.
  - intros u. apply (continuous_of_derive _ _ (cos (ph m x u) * (IZR m - x * cos u))). unfold ph. auto_derive; auto. ring.
  - intros u. unfold ph. rewrite sin_neg. replace (IZR m * - u + - (x * - sin u)) with (- (IZR m * u + - (x * sin u))) by ring. apply sin_neg.
Qed.
Lemma lin (f g h : R -> R) a b x y : is_RInt f (- PI) PI x -> is_RInt g (- PI) PI y -> (forall u, h u = a * f u + b * g u) -> is_RInt h (- PI) PI (a * x + b * y).
Proof.
  intros F G E. pose proof (is_RInt_plus (V := R_NormedModule) _ _ _ _ _ _ (is_RInt_scal (V := R_NormedModule) _ _ _ a _ F) (is_RInt_scal (V := R_NormedModule) _ _ _ b _ G)) as X.
  refine (is_RInt_ext _ _ _ _ _ _ X). intros u _. rewrite E. reflexivity.
Qed.
Section Waves.
Variables (e : R) (n : nat).
Let x := INR n * e.
Let N := Z.of_nat n.
Let J k := besselJ (N + k) x.
Lemma phase k u : ph (N + k) x u = INR n * ml e u + IZR k * u.
Proof. unfold ph, ml, x, N. rewrite plus_IZR, <- INR_IZR_INZ. ring. Qed.
Lemma ss k : is_RInt (fun u => sin (IZR k * u) * sin (INR n * ml e u)) (- PI) PI (PI * (J (- k) - J k)).
Proof.
  replace (PI * (J (- k) - J k)) with (/2 * (2 * PI * J (- k)%Z) + - /2 * (2 * PI * J k)) by field.
  apply (lin _ _ _ _ _ _ _ (full_cos (N + - k) x) (full_cos (N + k) x)). intros u. rewrite !phase, opp_IZR.
  replace (INR n * ml e u + - IZR k * u) with (INR n * ml e u - IZR k * u) by ring. rewrite cos_minus, cos_plus. field.
Qed.
Lemma cc k : is_RInt (fun u => cos (IZR k * u) * cos (INR n * ml e u)) (- PI) PI (PI * (J (- k) + J k)).
Proof.
  replace (PI * (J (- k) + J k)) with (/2 * (2 * PI * J (- k)%Z) + /2 * (2 * PI * J k)) by field.
  apply (lin _ _ _ _ _ _ _ (full_cos (N + - k) x) (full_cos (N + k) x)). intros u. rewrite !phase, opp_IZR.
  replace (INR n * ml e u + - IZR k * u) with (INR n * ml e u - IZR k * u) by ring. rewrite cos_minus, cos_plus. field.
Qed.
Lemma sc k : is_RInt (fun u => sin (IZR k * u) * cos (INR n * ml e u)) (- PI) PI 0.
Proof.
  replace 0 with (/2 * 0 + - /2 * 0) by ring.
  apply (lin _ _ _ _ _ _ _ (full_sin (N + k) x) (full_sin (N + - k) x)). intros u. rewrite !phase, opp_IZR.
  replace (INR n * ml e u + - IZR k * u) with (INR n * ml e u - IZR k * u) by ring. rewrite sin_minus, sin_plus. field.
Qed.
Lemma cs k : is_RInt (fun u => cos (IZR k * u) * sin (INR n * ml e u)) (- PI) PI 0.
Proof.
  replace 0 with (/2 * 0 + /2 * 0) by ring.
  apply (lin _ _ _ _ _ _ _ (full_sin (N + k) x) (full_sin (N + - k) x)). intros u. rewrite !phase, opp_IZR.
  replace (INR n * ml e u + - IZR k * u) with (INR n * ml e u - IZR k * u) by ring. rewrite sin_minus, sin_plus. field.
Qed.
End Waves.

(** ** Mean power of the orbit *)
Section Power.
Variable e : R.
Hypothesis He : 0 < e < 1.
Let q := sqrt (1 - e ^ 2).
Notation r := (rr e).
Lemma q_pos : 0 < q. Proof. apply sqrt_lt_R0. nra. Qed.
Lemma q_sq : q * q = 1 - e ^ 2. Proof. apply sqrt_sqrt. nra. Qed.
(** The true anomaly *)
Definition kk : R := e / (1 + q).
Definition psi (u : R) : R := u + 2 * atan (kk * sin u / (1 - kk * cos u)).
Lemma kk_range : 0 < kk < 1.
Proof.
  pose proof q_pos. unfold kk. split; [apply Rdiv_lt_0_compat; lra|]. apply (Rmult_lt_reg_r (1 + q)); [lra|].
  replace (e / (1 + q) * (1 + q)) with e by (field; lra). lra.
Qed.
Lemma kk_e : 2 * kk = e * (1 + kk ^ 2) /\ 1 - kk ^ 2 = q * (1 + kk ^ 2).
Proof.
  pose proof q_pos. pose proof q_sq as Q. unfold kk. assert (E : e * e = 1 - q * q) by (rewrite Q; ring). split.
  - apply (Rmult_eq_reg_r ((1 + q) ^ 2)); [|apply (pow_nonzero _ 2); lra].
    replace (2 * (e / (1 + q)) * (1 + q) ^ 2) with (2 * e * (1 + q)) by (field; lra).
    replace (e * (1 + (e / (1 + q)) ^ 2) * (1 + q) ^ 2) with (e * ((1 + q) ^ 2 + e * e)) by (field; lra). rewrite E. ring.
  - apply (Rmult_eq_reg_r ((1 + q) ^ 2)); [|apply (pow_nonzero _ 2); lra].
    replace ((1 - (e / (1 + q)) ^ 2) * (1 + q) ^ 2) with ((1 + q) ^ 2 - e * e) by (field; lra).
    replace (q * (1 + (e / (1 + q)) ^ 2) * (1 + q) ^ 2) with (q * ((1 + q) ^ 2 + e * e)) by (field; lra). rewrite E. ring.
Qed.
Lemma d_psi u : is_derive psi u (q / r u).
Proof.
  pose proof kk_range as K. destruct kk_e as [K1 K2]. pose proof (rr_pos e He u) as P. unfold psi. pose proof (COS_bound u).
  assert (B : 0 < 1 - kk * cos u) by nra. auto_derive; [lra|]. set (k := kk) in *. clearbody k.
  pose proof (sin2_cos2 u) as T. unfold Rsqr in T. set (s := sin u) in *. set (c := cos u) in *.
  unfold rr in *. fold c in P. fold c.
  assert (U : (1 - k * c) ^ 2 + k ^ 2 * (s * s) = (1 + k ^ 2) * (1 - e * c)).
  { replace ((1 - k * c) ^ 2 + k ^ 2 * (s * s)) with (1 - 2 * k * c + k ^ 2 * (s * s + c * c)) by ring. rewrite T, K1. ring. }
  assert (V : 0 < 1 + k ^ 2) by nra. assert (W : 0 < (1 - k * c) ^ 2 + k ^ 2 * (s * s)) by (rewrite U; now apply Rmult_lt_0_compat).
  replace (q / (1 - e * c)) with ((1 - k ^ 2) / ((1 - k * c) ^ 2 + k ^ 2 * (s * s))) by (rewrite U, K2; field; lra).
  assert (T2 : c * c = 1 - s * s) by lra.
  apply (Rmult_eq_reg_r ((1 - k * c) ^ 2 + k ^ 2 * (s * s))); [|lra].
  replace ((1 - k ^ 2) / ((1 - k * c) ^ 2 + k ^ 2 * (s * s)) * ((1 - k * c) ^ 2 + k ^ 2 * (s * s))) with (1 - k ^ 2) by (field; lra).
  match goal with |- ?L * ?M = _ => replace (L * M) with (M + 2 * (k * c * (1 - k * c) - k ^ 2 * (s * s))) end.
  - replace ((1 - k * c) ^ 2 + k ^ 2 * (s * s) + 2 * (k * c * (1 - k * c) - k ^ 2 * (s * s))) with (1 - k ^ 2 * (c * c + s * s)) by ring. rewrite T2. ring.
  - field. split; [|lra]. replace ((1 - k * c) ^ 2 + (k * s) ^ 2) with ((1 - k * c) ^ 2 + k ^ 2 * (s * s)) by ring. lra.
Qed.
Definition E (k : nat) (u : R) : R := e * sin u / r u ^ k.
Lemma e_cos u : e * cos u = 1 - r u. Proof. unfold rr. ring. Qed.
Lemma e_sin u : (e * sin u) * (e * sin u) = - (q * q) + 2 * r u - r u * r u.
Proof.
  rewrite q_sq. unfold rr. pose proof (sin2_cos2 u) as T. unfold Rsqr in T. replace (e * sin u * (e * sin u)) with (e ^ 2 * (sin u * sin u)) by ring.
  replace (sin u * sin u) with (1 - cos u * cos u) by lra. ring.
Qed.
Lemma d_E_raw k u : is_derive (E (S k)) u ((1 - r u) / r u ^ (S k) - INR (S k) * (- (q * q) + 2 * r u - r u * r u) / r u ^ (S (S k))).
Proof.
  pose proof (rr_pos e He u) as P. rewrite <- e_sin, <- e_cos. unfold E, rr in *.
  assert (NZ : forall m, (1 - e * cos u) ^ m <> 0) by (intros m; apply pow_nonzero; lra).
  assert (D1 : is_derive (fun u => 1 - e * cos u) u (e * sin u)) by (auto_derive; auto; ring).
  pose proof (is_derive_pow (fun u => 1 - e * cos u) (S k) u _ D1) as D2. cbn [pred] in D2.
  assert (D3 : is_derive (fun u => e * sin u) u (e * cos u)) by (auto_derive; auto; ring).
  pose proof (is_derive_div (fun u => e * sin u) (fun u => (1 - e * cos u) ^ S k) u _ _ D3 D2 (NZ (S k))) as D4.
  match type of D4 with is_derive _ _ ?v => match goal with |- is_derive _ _ ?t => replace t with v; [exact D4|] end end.
  set (x := 1 - e * cos u) in *. rewrite <- !tech_pow_Rmult. set (y := x ^ k). assert (Y : y <> 0) by apply NZ. assert (X : x <> 0) by lra.
  change (S k - 1)%nat with k || idtac. clearbody x y. field. auto.
Qed.
Definition R1 u := psi u / q.
Definition R2 u := (E 1 u + R1 u) / (q * q).
Definition R3 u := (E 2 u + 3 * R2 u - R1 u) / (2 * (q * q)).
Definition R4 u := (E 3 u + 5 * R3 u - 2 * R2 u) / (3 * (q * q)).
Definition R5 u := (E 4 u + 7 * R4 u - 3 * R3 u) / (4 * (q * q)).
Lemma d_lin (f g h F : R -> R) a b c u x y z v : is_derive f u x -> is_derive g u y -> is_derive h u z -> (forall t, F t = (f t + b * g t - c * h t) / a) ->
  v = (x + b * y - c * z) / a -> is_derive F u v.
Proof.
  intros A B C H ->. apply (is_derive_ext (fun t => (f t + b * g t - c * h t) / a)); [intros t; now rewrite H|].
  pose proof (is_derive_plus f (fun t => b * g t) u x (b * y) A (is_derive_scal g u b y B)) as P.
  pose proof (is_derive_minus _ (fun t => c * h t) u _ (c * z) P (is_derive_scal h u c z C)) as M.
  pose proof (is_derive_scal _ u (/ a) _ M) as S.
  apply (is_derive_ext (fun t => / a * minus (plus (f t) (b * g t)) (c * h t))); [intros t; unfold minus, plus, opp; cbn; unfold Rdiv; ring|].
  replace ((x + b * y - c * z) / a) with (/ a * minus (plus x (b * y)) (c * z)); [exact S|]. unfold minus, plus, opp; cbn. unfold Rdiv. ring.
Qed.
Lemma d_R1 u : is_derive R1 u (/ r u).
Proof.
  pose proof q_pos. pose proof (rr_pos e He u). apply (d_lin psi psi psi R1 q 0 0 u _ _ _ _ (d_psi u) (d_psi u) (d_psi u)); [intros; unfold R1; f_equal; ring|]. field. lra.
Qed.
Lemma d_R2 u : is_derive R2 u (/ r u ^ 2).
Proof.
  pose proof q_pos. pose proof (rr_pos e He u). assert (q * q <> 0) by nra.
  apply (d_lin (E 1) R1 R1 R2 (q * q) 1 0 u _ _ _ _ (d_E_raw 0 u) (d_R1 u) (d_R1 u)); [intros; unfold R2; f_equal; ring|]. cbn [INR]. field. lra.
Qed.
Lemma d_R3 u : is_derive R3 u (/ r u ^ 3).
Proof.
  pose proof q_pos. pose proof (rr_pos e He u). assert (q * q <> 0) by nra.
  apply (d_lin (E 2) R2 R1 R3 (2 * (q * q)) 3 1 u _ _ _ _ (d_E_raw 1 u) (d_R2 u) (d_R1 u)); [intros; unfold R3; f_equal; ring|]. cbn [INR]. field. lra.
Qed.
Lemma d_R4 u : is_derive R4 u (/ r u ^ 4).
Proof.
  pose proof q_pos. pose proof (rr_pos e He u). assert (q * q <> 0) by nra.
  apply (d_lin (E 3) R3 R2 R4 (3 * (q * q)) 5 2 u _ _ _ _ (d_E_raw 2 u) (d_R3 u) (d_R2 u)); [intros; unfold R4; f_equal; ring|]. cbn [INR]. field. lra.
Qed.
Lemma d_R5 u : is_derive R5 u (/ r u ^ 5).
Proof.
  pose proof q_pos. pose proof (rr_pos e He u). assert (q * q <> 0) by nra.
  apply (d_lin (E 4) R4 R3 R5 (4 * (q * q)) 7 3 u _ _ _ _ (d_E_raw 3 u) (d_R4 u) (d_R3 u)); [intros; unfold R5; f_equal; ring|]. cbn [INR]. field. lra.
Qed.
Lemma psi_hi : psi PI = PI.
Proof. unfold psi. rewrite sin_PI. replace (kk * 0 / (1 - kk * cos PI)) with 0 by (unfold Rdiv; ring). rewrite atan_0. ring. Qed.
Lemma psi_lo : psi (- PI) = - PI.
Proof. unfold psi. rewrite sin_neg, sin_PI. replace (kk * - 0 / (1 - kk * cos (- PI))) with 0 by (unfold Rdiv; ring). rewrite atan_0. ring. Qed.
Lemma E_hi k : E k PI = 0. Proof. unfold E. rewrite sin_PI. unfold Rdiv. ring. Qed.
Lemma E_lo k : E k (- PI) = 0. Proof. unfold E. rewrite sin_neg, sin_PI. unfold Rdiv. ring. Qed.
Lemma mean_power : is_RInt (fun u => 16 / 3 * (11 * (1 - e ^ 2) * / r u ^ 5 + 2 * / r u ^ 4 - / r u ^ 3)) (- PI) PI (128 * PI * enhancement e).
Proof.
  pose proof q_pos as Q. pose proof q_sq as Q2. pose proof PI_RGT_0.
  set (F := fun u => 16 / 3 * (11 * (1 - e ^ 2) * R5 u + 2 * R4 u - R3 u)).
  replace (128 * PI * enhancement e) with (F PI - F (- PI)).
  - apply (is_RInt_derive F).
    + intros u _. apply (d_lin R5 R4 R3 F (3 / (16 * 11 * (1 - e ^ 2))) (2 / (11 * (1 - e ^ 2))) (1 / (11 * (1 - e ^ 2))) u _ _ _ _ (d_R5 u) (d_R4 u) (d_R3 u)).
      * intros t. unfold F. field. nra.
      * pose proof (rr_pos e He u). assert (1 - e ^ 2 <> 0) by nra. assert (r u <> 0) by lra. field. auto.
    + intros u _. pose proof (rr_pos e He u) as P. apply (ex_derive_continuous (K := R_AbsRing) (V := R_NormedModule) (fun u => 16 / 3 * (11 * (1 - e ^ 2) * / r u ^ 5 + 2 * / r u ^ 4 - / r u ^ 3))).
      unfold rr in *. auto_derive. repeat split; first [exact (pow_nonzero (1 - e * cos u) 5 ltac:(lra)) | exact (pow_nonzero (1 - e * cos u) 4 ltac:(lra)) | exact (pow_nonzero (1 - e * cos u) 3 ltac:(lra))].
  - unfold F, R5, R4, R3, R2, R1. rewrite !E_hi, !E_lo, psi_hi, psi_lo. unfold enhancement. fold q. 
    replace (e ^ 4) with (e ^ 2 * e ^ 2) by ring. replace (e ^ 2) with (1 - q * q) by lra. field. lra.
Qed.
End Power.

(** ** Sums over the harmonics *)
Lemma tame_sin1 : tame (fun u => sin (1 * u)).
Proof. apply (tame_ext sin); [intros; now rewrite Rmult_1_l|apply tame_sin]. Qed.
Lemma tame_cos1 : tame (fun u => cos (1 * u)).
Proof. apply (tame_ext cos); [intros; now rewrite Rmult_1_l|apply tame_cos]. Qed.
Lemma tame_sin2 : tame (fun u => sin (2 * u)).
Proof.
  apply (tame_ext (fun u => 2 * (sin u * cos u))); [intros; rewrite sin_2a; ring|]. apply tame_mult; [apply tame_const|]. apply tame_mult; [apply tame_sin|apply tame_cos].
Qed.
Lemma tame_cos2 : tame (fun u => cos (2 * u)).
Proof.
  apply (tame_ext (fun u => 2 * (cos u * cos u) + -1)); [intros; rewrite cos_2a_cos; ring|]. apply tame_plus; [|apply tame_const].
  apply tame_mult; [apply tame_const|]. apply tame_mult; apply tame_cos.
Qed.
Definition sins (a b u : R) : R := a * sin (1 * u) + b * sin (2 * u).
Definition coss (a b u : R) : R := a * cos (1 * u) + b * cos (2 * u).
Lemma tame_sins a b : tame (sins a b).
Proof. apply (tame_plus (fun u => a * sin (1 * u))); (apply tame_mult; [apply tame_const|]); [apply tame_sin1|apply tame_sin2]. Qed.
Lemma tame_coss a b : tame (coss a b).
Proof. apply (tame_plus (fun u => a * cos (1 * u))); (apply tame_mult; [apply tame_const|]); [apply tame_cos1|apply tame_cos2]. Qed.
Lemma d_sins a b u : is_derive (sins a b) u (coss a (2 * b) u).
Proof. unfold sins, coss. auto_derive; auto. ring. Qed.
Lemma d_coss a b u : is_derive (coss a b) u (sins (- a) (- (2 * b)) u).
Proof. unfold sins, coss. auto_derive; auto. ring. Qed.
Lemma sin_2PI_0 : sin (2 * PI) = 0.
Proof. apply sin_2PI. Qed.
Lemma sins_ends a b : sins a b (- PI) = sins a b PI.
Proof. unfold sins. replace (1 * - PI) with (- (1 * PI)) by ring. replace (2 * - PI) with (- (2 * PI)) by ring. rewrite !sin_neg, Rmult_1_l, sin_PI, sin_2PI. ring. Qed.
Lemma coss_ends a b : coss a b (- PI) = coss a b PI.
Proof. unfold coss. replace (1 * - PI) with (- (1 * PI)) by ring. replace (2 * - PI) with (- (2 * PI)) by ring. now rewrite !cos_neg. Qed.

Section Sum.
Variable e : R.
Hypothesis He : 0 < e < 1.
Let J (n : nat) (k : Z) := besselJ (Z.of_nat n + k) (INR n * e).
Definition odd3 (a b : R) : R -> R := third e (sins a b) (coss a (2 * b)) (sins (- a) (- (2 * (2 * b)))).
Definition even3 (a b : R) : R -> R := third e (coss a b) (sins (- a) (- (2 * b))) (coss (- a) (2 * - (2 * b))).
Lemma odd3_tame a b : tame (odd3 a b).
Proof. apply tame_third; auto; first [apply tame_sins|apply tame_coss]. Qed.
Lemma even3_tame a b : tame (even3 a b).
Proof. apply tame_third; auto; first [apply tame_sins|apply tame_coss]. Qed.
Definition oddc (a b : R) (n : nat) : R := - INR n ^ 2 * (a * (PI * (J n (-1) - J n 1)) + b * (PI * (J n (-2) - J n 2))).
Definition evenc (a b : R) (n : nat) : R := - INR n ^ 2 * (a * (PI * (J n (-1) + J n 1)) + b * (PI * (J n (-2) + J n 2))).
Lemma odd3_sin a b n : is_RInt (fun u => odd3 a b u * sin (INR n * ml e u) * rr e u) (- PI) PI (oddc a b n).
Proof.
  apply third_sin; auto; try apply d_sins; try apply d_coss; try apply tame_sins; try apply tame_coss; try apply sins_ends.
  apply (lin _ _ _ _ _ _ _ (ss e n 1) (ss e n 2)). intros u. unfold sins. ring.
Qed.
Lemma odd3_cos a b n : is_RInt (fun u => odd3 a b u * cos (INR n * ml e u) * rr e u) (- PI) PI 0.
Proof.
  replace 0 with (- INR n ^ 2 * (a * 0 + b * 0)) by ring.
  apply third_cos; auto; try apply d_sins; try apply d_coss; try apply tame_sins; try apply tame_coss; try apply sins_ends; try apply coss_ends.
  apply (lin _ _ _ _ _ _ _ (sc e n 1) (sc e n 2)). intros u. unfold sins. ring.
Qed.
Lemma even3_cos a b n : is_RInt (fun u => even3 a b u * cos (INR n * ml e u) * rr e u) (- PI) PI (evenc a b n).
Proof.
  apply third_cos; auto; try apply d_sins; try apply d_coss; try apply tame_sins; try apply tame_coss; try apply sins_ends; try apply coss_ends.
  apply (lin _ _ _ _ _ _ _ (cc e n 1) (cc e n 2)). intros u. unfold coss. ring.
Qed.
Lemma even3_sin a b n : is_RInt (fun u => even3 a b u * sin (INR n * ml e u) * rr e u) (- PI) PI 0.
Proof.
  replace 0 with (- INR n ^ 2 * (a * 0 + b * 0)) by ring.
  apply third_sin; auto; try apply d_sins; try apply d_coss; try apply tame_sins; try apply tame_coss; try apply coss_ends.
  apply (lin _ _ _ _ _ _ _ (cs e n 1) (cs e n 2)). intros u. unfold coss. ring.
Qed.
(** Sums of squares *)
Fixpoint sum2 (c : nat -> R) (n : nat) : R := match n with O => 0 | S m => sum2 c m + c n ^ 2 end.
Lemma parseval (f : R -> R) (co si c : nat -> R) : tame f ->
  (forall n, is_RInt (fun u => f u * cos (INR n * ml e u) * rr e u) (- PI) PI (co n)) ->
  (forall n, is_RInt (fun u => f u * sin (INR n * ml e u) * rr e u) (- PI) PI (si n)) ->
  co 0%nat = 0 -> (forall n, co n ^ 2 + si n ^ 2 = c n ^ 2) ->
  exists sq K, is_RInt (fun u => f u ^ 2 * rr e u) (- PI) PI sq /\ forall n, sum2 c n <= PI * sq /\ ((1 <= n)%nat -> PI * sq - K / INR n <= sum2 c n).
Proof.
  intros Tf Hco Hsi C0 E. destruct (tame_mean e He f Tf) as [C HC]. destruct Tf as [Cf _].
  destruct (int_ex (rr e) (rr_cont e) (fun u => f u ^ 2)) as [sq Hsq].
  { intros u. apply (continuous_ext (fun x => f x * f x)); [intros; cbn; ring|now apply c_mult]. }
  exists sq, (PI ^ 2 * C). split; [exact Hsq|].
  assert (S : forall n, Psum co si n = sum2 c n). { induction n as [|n IH]; [reflexivity|]. cbn [Psum sum2]. rewrite IH. unfold power. now rewrite E. }
  intros n. pose proof (fun u => Rlt_le _ _ (rr_pos e He u)) as Pw. split.
  - pose proof (bessel_inequality (ml e) (rr e) (ml_derive e) (rr_cont e) Pw (ml_lo e) (ml_hi e) f Cf co si sq Hco Hsi Hsq n) as B.
    rewrite S in B. unfold L in B. rewrite C0 in B. lra.
  - intros Hn. pose proof (parseval_rate (ml e) (rr e) (ml_derive e) (rr_cont e) Pw (ml_lo e) (ml_hi e) f Cf co si sq Hco Hsi Hsq C HC n Hn) as B.
    rewrite S in B. unfold L in B. rewrite C0 in B. assert (0 < INR n) by (apply lt_0_INR; lia).
    replace (PI ^ 2 * C / INR n) with (2 * PI ^ 2 * C / INR n / 2) by (field; lra). lra.
Qed.
Lemma parseval_odd a b : exists sq K, is_RInt (fun u => odd3 a b u ^ 2 * rr e u) (- PI) PI sq /\
  forall n, sum2 (oddc a b) n <= PI * sq /\ ((1 <= n)%nat -> PI * sq - K / INR n <= sum2 (oddc a b) n).
Proof.
  apply (parseval (odd3 a b) (fun _ => 0) (oddc a b)); auto; [apply odd3_tame|apply odd3_cos|apply odd3_sin|]. intros n. ring.
Qed.
Lemma parseval_even a b : exists sq K, is_RInt (fun u => even3 a b u ^ 2 * rr e u) (- PI) PI sq /\
  forall n, sum2 (evenc a b) n <= PI * sq /\ ((1 <= n)%nat -> PI * sq - K / INR n <= sum2 (evenc a b) n).
Proof.
  apply (parseval (even3 a b) (evenc a b) (fun _ => 0)); auto; [apply even3_tame|apply even3_cos|apply even3_sin| |].
  - unfold evenc. cbn [INR]. ring.
  - intros n. ring.
Qed.

(** ** The power in each harmonic and the total power *)
Let q := sqrt (1 - e ^ 2).
Definition cA := oddc (2 * e) (- (2 - e ^ 2)).
Definition cB := evenc (-2 * e * q) (2 * q).
Definition cC := oddc (2 * e) (- e ^ 2).
Lemma harmonic n : (1 <= n)%nat -> cA n ^ 2 + cB n ^ 2 + cC n ^ 2 / 3 = 128 * PI ^ 2 * gR besselJ (Z.of_nat n) e.
Proof.
  intros Hn. assert (N0 : INR n <> 0) by (apply not_0_INR; lia). assert (Q : q * q = 1 - e ^ 2) by (apply sqrt_sqrt; nra).
  unfold cA, cB, cC, oddc, evenc, J, gR. rewrite INR_IZR_INZ in *. set (z := Z.of_nat n) in *. set (x := IZR z * e).
  replace (z + -1)%Z with (z - 1)%Z by lia. replace (z + -2)%Z with (z - 2)%Z by lia.
  pose proof (bessel_recurrence z x) as R0.
  pose proof (bessel_recurrence (z - 1) x) as R1. pose proof (bessel_recurrence (z + 1) x) as R2.
  replace (z - 1 - 1)%Z with (z - 2)%Z in R1 by lia. replace (z - 1 + 1)%Z with z in R1 by lia.
  replace (z + 1 - 1)%Z with z in R2 by lia. replace (z + 1 + 1)%Z with (z + 2)%Z in R2 by lia.
  rewrite minus_IZR in R1. rewrite plus_IZR in R2.
  set (j2 := besselJ (z - 2) x) in *. set (j1 := besselJ (z - 1) x) in *. set (j0 := besselJ z x) in *. set (k1 := besselJ (z + 1) x) in *. set (k2 := besselJ (z + 2) x) in *.
  change (IZR (z ^ 4)) with (IZR (z ^ Z.of_nat 4)). change (IZR (z ^ 2)) with (IZR (z ^ Z.of_nat 2)). rewrite <- !pow_IZR. set (m := IZR z) in *.
  assert (X : x <> 0) by (unfold x; nra). 
  assert (Ec : j0 = e * (j1 + k1) / 2). { apply (Rmult_eq_reg_l (2 * m)); [|lra]. rewrite <- R0. unfold x. field. }
  assert (Ea : j2 = 2 * (m - 1) * j1 / (m * e) - j0).
  { apply (Rmult_eq_reg_l x); auto. unfold x at 2. replace (m * e * (2 * (m - 1) * j1 / (m * e) - j0)) with (2 * (m - 1) * j1 - x * j0) by (unfold x; field; lra). lra. }
  assert (Ef : k2 = 2 * (m + 1) * k1 / (m * e) - j0).
  { apply (Rmult_eq_reg_l x); auto. unfold x at 2. replace (m * e * (2 * (m + 1) * k1 / (m * e) - j0)) with (2 * (m + 1) * k1 - x * j0) by (unfold x; field; lra). lra. }
  assert (EB : (- m ^ 2 * (-2 * e * q * (PI * (j1 + k1)) + 2 * q * (PI * (j2 + k2)))) ^ 2 = (q * q) * (m ^ 2 * (-2 * e * (PI * (j1 + k1)) + 2 * (PI * (j2 + k2)))) ^ 2) by ring.
  rewrite EB, Q. rewrite Ea, Ef, Ec. field. lra.
Qed.
Lemma energy u : odd3 (2 * e) (- (2 - e ^ 2)) u ^ 2 + even3 (-2 * e * q) (2 * q) u ^ 2 + odd3 (2 * e) (- e ^ 2) u ^ 2 / 3
  = 16 / 3 * (11 * (1 - e ^ 2) * / rr e u ^ 5 + 2 * / rr e u ^ 4 - / rr e u ^ 3) / rr e u.
Proof.
  pose proof (rr_pos e He u) as P. assert (Q : q * q = 1 - e ^ 2) by (apply sqrt_sqrt; nra).
  pose proof (sin2_cos2 u) as T. unfold Rsqr in T.
  unfold odd3, even3, third, sins, coss. rewrite !Rmult_1_l, sin_2a, cos_2a_cos.
  set (s := sin u) in *. set (c := cos u) in *. set (r := rr e u) in *.
  assert (C : c = (1 - r) / e) by (unfold r, rr; fold c; field; lra).
  assert (S : s * s = 1 - c * c) by lra.
  assert (O : forall a b, (- a * s + - (2 * (2 * b)) * (2 * s * c)) / r ^ 3 - 3 * e * s * (a * c + 2 * b * (2 * c * c - 1)) / r ^ 4
     - e * c * (a * s + b * (2 * s * c)) / r ^ 4 + 3 * e ^ 2 * s ^ 2 * (a * s + b * (2 * s * c)) / r ^ 5
     = s * ((- a - 8 * b * c) / r ^ 3 - 3 * e * (a * c + 2 * b * (2 * c * c - 1)) / r ^ 4 - e * c * (a + 2 * b * c) / r ^ 4 + 3 * e ^ 2 * (s * s) * (a + 2 * b * c) / r ^ 5)).
  { intros a b. field. lra. }
  rewrite !O.
  assert (V : forall X, (s * X) ^ 2 = (s * s) * X ^ 2) by (intros; ring). rewrite !V. rewrite S.
  match goal with |- _ + ?B ^ 2 + _ = _ => replace (B ^ 2) with ((q * q) * ((2 * e * c - 8 * (2 * c * c - 1)) / r ^ 3 - 3 * e * ((s * s) * (2 * e) - 8 * (s * s) * c) / r ^ 4
    - e * c * (-2 * e * c + 2 * (2 * c * c - 1)) / r ^ 4 + 3 * e ^ 2 * (s * s) * (-2 * e * c + 2 * (2 * c * c - 1)) / r ^ 5) ^ 2) by (field; lra) end.
  rewrite S, Q. clear O V S. rewrite C. clearbody r. clear C T. field. lra.
Qed.
End Sum.

Definition upto (g : Z -> R) (N : nat) : R := Rsum (map g (map Z.of_nat (seq 1 N))).
Lemma Rsum_app a b : Rsum (a ++ b) = Rsum a + Rsum b.
Proof. unfold Rsum. induction a as [|x a IH]; cbn [app fold_right]; [lra|]. rewrite IH. lra. Qed.
Lemma upto_S g N : upto g (S N) = upto g N + g (Z.of_nat (S N)).
Proof. unfold upto. rewrite seq_S, !map_app, Rsum_app. change (1 + N)%nat with (S N). cbn [map]. unfold Rsum. cbn [fold_right]. lra. Qed.
Lemma sum_harmonics e N : 0 < e < 1 -> sum2 (cA e) N + sum2 (cB e) N + sum2 (cC e) N / 3 = 128 * PI ^ 2 * upto (fun n => gR besselJ n e) N.
Proof.
  intros He. induction N as [|N IH]; [cbn; lra|]. rewrite upto_S, Rmult_plus_distr_l, <- IH, <- (harmonic e He) by lia. cbn [sum2]. lra.
Qed.
Lemma total_power e : 0 < e < 1 -> exists K, forall N, upto (fun n => gR besselJ n e) N <= enhancement e /\
  ((1 <= N)%nat -> enhancement e - K / INR N <= upto (fun n => gR besselJ n e) N).
Proof.
  intros He. pose proof PI_RGT_0 as P.
  destruct (parseval_odd e He (2 * e) (- (2 - e ^ 2))) as [sA [KA [IA HA]]].
  destruct (parseval_even e He (-2 * e * sqrt (1 - e ^ 2)) (2 * sqrt (1 - e ^ 2))) as [sB [KB [IB HB]]].
  destruct (parseval_odd e He (2 * e) (- e ^ 2)) as [sC [KC [IC HC]]].
  fold (cA e) in HA. fold (cB e) in HB. fold (cC e) in HC.
  assert (T : sA + sB + sC / 3 = 128 * PI * enhancement e).
  { pose proof (lin _ _ _ 1 1 _ _ IA IB (fun u => eq_refl)) as AB. pose proof (lin _ _ _ 1 (/3) _ _ AB IC (fun u => eq_refl)) as ABC.
    pose proof (mean_power e He) as M. apply (is_RInt_unique (V := R_CompleteNormedModule)) in ABC. apply (is_RInt_unique (V := R_CompleteNormedModule)) in M.
    replace (sA + sB + sC / 3) with (1 * (1 * sA + 1 * sB) + / 3 * sC) by field. rewrite <- ABC, <- M. apply RInt_ext. intros u _.
    pose proof (energy e He u) as E. pose proof (rr_pos e He u) as RP.
    match goal with |- ?a = ?b => change (@eq R a b) end.
    transitivity ((16 / 3 * (11 * (1 - e ^ 2) * / rr e u ^ 5 + 2 * / rr e u ^ 4 - / rr e u ^ 3) / rr e u) * rr e u); [rewrite <- E; field|field; lra]. }
  assert (Z : 0 < 128 * PI ^ 2) by nra.
  exists ((KA + KB + KC / 3) / (128 * PI ^ 2)). intros N. pose proof (sum_harmonics e N He) as S. set (G := upto _ N) in *.
  destruct (HA N) as [A1 A2]. destruct (HB N) as [B1 B2]. destruct (HC N) as [C1 C2].
  assert (TT : PI * sA + PI * sB + PI * sC / 3 = 128 * PI ^ 2 * enhancement e) by (replace (PI * sA + PI * sB + PI * sC / 3) with (PI * (sA + sB + sC / 3)) by field; rewrite T; ring).
  split.
  - apply (Rmult_le_reg_l (128 * PI ^ 2)); auto. lra.
  - intros HN. specialize (A2 HN). specialize (B2 HN). specialize (C2 HN). assert (0 < INR N) by (apply lt_0_INR; lia).
    apply (Rmult_le_reg_l (128 * PI ^ 2)); auto.
    replace (128 * PI ^ 2 * (enhancement e - (KA + KB + KC / 3) / (128 * PI ^ 2) / INR N)) with (128 * PI ^ 2 * enhancement e - KA / INR N - KB / INR N - KC / INR N / 3) by (field; lra). lra.
Qed.
Lemma upto_0 : forall N, upto (fun n => gR besselJ n 0) N = if (N <? 2)%nat then 0 else 1.
Proof.
  assert (G : forall n, (1 <= n)%nat -> gR besselJ (Z.of_nat n) 0 = if (n =? 2)%nat then 1 else 0).
  { intros n Hn. rewrite gR_at_0 by (try lia; intros k; apply besselJ_0). destruct (Nat.eqb_spec n 2) as [-> |X]; [reflexivity|].
    destruct (Z.eqb_spec (Z.of_nat n) 2); [lia|reflexivity]. }
  induction N as [|N IH]; [reflexivity|]. rewrite upto_S, IH, G by lia.
  destruct (Nat.ltb_spec N 2), (Nat.ltb_spec (S N) 2), (Nat.eqb_spec (S N) 2); try lia; lra.
Qed.
Lemma enhancement_0 : enhancement 0 = 1.
Proof. unfold enhancement. replace (1 - 0 ^ 2) with 1 by ring. rewrite sqrt_1. field. Qed.
Lemma sum_bounds e : 0 <= e < 1 -> exists K, forall N, upto (fun n => gR besselJ n e) N <= enhancement e /\
  ((1 <= N)%nat -> enhancement e - K / INR N <= upto (fun n => gR besselJ n e) N).
Proof.
  intros He. destruct (Req_dec e 0) as [-> |N0]; [|apply total_power; lra]. exists 1. intros N. rewrite upto_0, enhancement_0. split.
  - destruct (N <? 2)%nat; lra.
  - intros HN. assert (P : 0 < INR N) by (apply lt_0_INR; lia). assert (0 < 1 / INR N) by (apply Rdiv_lt_0_compat; lra).
    destruct (Nat.ltb_spec N 2); [|lra]. replace N with 1%nat by lia. cbn [INR]. lra.
Qed.
Lemma peters_sum jv e : (forall k x, jv k (Fin x) = Fin (besselJ k x)) -> 0 <= e < 1 -> exists (g : Z -> R) (F : R),
  (forall n, (1 <= n)%Z -> peters_g jv n (Fin e) = Fin (g n)) /\ peters_f (Fin e) = Fin F /\
  (forall N, Rsum (map g (map Z.of_nat (seq 1 N))) <= F) /\ Un_cv (fun N => Rsum (map g (map Z.of_nat (seq 1 N)))) F.
Proof.
  intros HJ He. exists (fun n => gR besselJ n e), (enhancement e). split; [intros n Hn; now apply peters_g_fin|]. split; [apply peters_f_fin; lra|].
  destruct (sum_bounds e He) as [K HK]. split; [intros N; apply HK|].
  intros eps Heps. destruct (archimed_cor1 (eps / (Rabs K + 1))) as [M [M1 M2]]; [apply Rdiv_lt_0_compat; auto; pose proof (Rabs_pos K); lra|].
  exists M. intros N HN. destruct (HK N) as [A B]. specialize (B ltac:(lia)). fold (upto (fun n => gR besselJ n e) N). unfold R_dist.
  assert (NP : 0 < INR M) by (now apply lt_0_INR). assert (NN : INR M <= INR N) by (now apply le_INR).
  pose proof (Rle_abs K). pose proof (Rabs_pos K).
  assert (Q : K / INR N < eps).
  { apply (Rmult_lt_compat_l (Rabs K + 1)) in M1; [|lra]. replace ((Rabs K + 1) * (eps / (Rabs K + 1))) with eps in M1 by (field; lra).
    assert (/ INR N <= / INR M) by (now apply Rinv_le_contravar). assert (0 < / INR N) by (apply Rinv_0_lt_compat; lra).
    unfold Rdiv. assert (K * / INR N <= (Rabs K + 1) * / INR M) by (apply Rle_trans with ((Rabs K + 1) * / INR N); nra). lra. }
  rewrite Rabs_left1; lra.
Qed.
Lemma enough_harmonics jv e tol : (forall k x, jv k (Fin x) = Fin (besselJ k x)) -> 0 <= e < 1 -> 0 < tol -> exists (g : Z -> R) (F : R) (N : nat),
  (forall n, (1 <= n)%Z -> peters_g jv n (Fin e) = Fin (g n)) /\ peters_f (Fin e) = Fin F /\
  forall M, (N <= M)%nat -> (1 - tol) * F <= Rsum (map g (map Z.of_nat (seq 1 M))) <= F.
Proof.
  intros HJ He Ht. destruct (peters_sum jv e HJ He) as [g [F [A [B [C D]]]]]. exists g, F.
  assert (FP : 0 < F). { rewrite peters_f_fin in B by lra. inversion B. unfold enhancement. apply Rdiv_lt_0_compat; [nra|]. apply pow_lt, sqrt_lt_R0. nra. }
  destruct (D (tol * F)) as [N HN]; [now apply Rmult_lt_0_compat|]. exists N. split; auto. split; auto. intros M HM. split; auto.
  specialize (HN M HM). unfold R_dist in HN. apply Rabs_def2 in HN. lra.
Qed.
