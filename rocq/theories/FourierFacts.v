(** FourierFacts.v -- Parseval's identity for functions on a circle that is parametrised with variable speed. *)
From Coq Require Import Reals ZArith List Lra Lia.
From Coquelicot Require Import Coquelicot.
From Verif Require Import BesselFacts.
Open Scope R_scope.

(** ** Fejer's kernel *)
Fixpoint dirichlet (n : nat) (x : R) : R := match n with O => 1 | S m => dirichlet m x + 2 * cos (INR n * x) end.
Fixpoint fejer (n : nat) (x : R) : R := match n with O => 1 | S m => fejer m x + dirichlet n x end.
Lemma dirichlet_closed n x : (1 - cos x) * dirichlet n x = cos (INR n * x) - cos (INR (S n) * x).
Proof.
  induction n as [|n IH].
  - cbn [dirichlet INR]. rewrite Rmult_0_l, cos_0, Rmult_1_l. ring.
  - cbn [dirichlet]. rewrite Rmult_plus_distr_l, IH.
    assert (E : cos (INR n * x) + cos (INR (S (S n)) * x) = 2 * cos x * cos (INR (S n) * x)).
    { rewrite !S_INR. replace (INR n * x) with ((INR n + 1) * x - x) by ring. replace ((INR n + 1 + 1) * x) with ((INR n + 1) * x + x) by ring.
      rewrite cos_minus, cos_plus. ring. }
    lra.
Qed.
Lemma fejer_closed n x : (1 - cos x) * fejer n x = 1 - cos (INR (S n) * x).
Proof.
  induction n as [|n IH].
  - cbn [fejer INR]. rewrite Rmult_1_l. ring.
  - cbn [fejer]. rewrite Rmult_plus_distr_l, IH, dirichlet_closed. ring.
Qed.
Lemma cos_multiple n x : cos x = 1 -> cos (INR n * x) = 1.
Proof.
  intros H. assert (S : sin x = 0). { pose proof (sin2_cos2 x) as K. unfold Rsqr in K. rewrite H in K. nra. }
  induction n as [|n IH]; [cbn [INR]; now rewrite Rmult_0_l, cos_0|]. rewrite S_INR.
  replace ((INR n + 1) * x) with (INR n * x + x) by ring. rewrite cos_plus, IH, H, S. ring.
Qed.
Lemma fejer_pos n x : 0 <= fejer n x.
Proof.
  destruct (Req_dec (cos x) 1) as [E|E].
  - assert (D : forall m, 0 <= dirichlet m x).
    { induction m as [|m IH]; cbn [dirichlet]; [lra|]. rewrite (cos_multiple (S m) x E). lra. }
    induction n as [|n IH]; cbn [fejer]; [lra|]. pose proof (D (S n)). cbn [dirichlet] in *. lra.
  - pose proof (COS_bound x). pose proof (COS_bound (INR (S n) * x)). pose proof (fejer_closed n x).
    apply Rnot_lt_le. intros N. assert (0 < 1 - cos x) by lra. assert ((1 - cos x) * fejer n x < 0) by nra. lra.
Qed.

Section Fourier.
(** [l] is the angle on the circle, [w] its speed. *)
Variables l w : R -> R.
Hypothesis Dl : forall u, is_derive l u (w u).
Hypothesis Cw : forall u, continuous w u.
Hypothesis Pw : forall u, 0 <= w u.
Hypothesis l_lo : l (- PI) = - PI.
Hypothesis l_hi : l PI = PI.

Notation int g v := (is_RInt (fun u => g u * w u) (- PI) PI v).

Lemma cl u : continuous l u.
Proof. apply (continuous_of_derive l u (w u)). apply Dl. Qed.
Lemma c_cos (g : R -> R) u : continuous g u -> continuous (fun x => cos (g x)) u.
Proof. intros H. apply (continuous_comp g cos); auto. apply continuous_cos. Qed.
Lemma c_sin (g : R -> R) u : continuous g u -> continuous (fun x => sin (g x)) u.
Proof. intros H. apply (continuous_comp g sin); auto. apply continuous_sin. Qed.
Lemma c_mult (f g : R -> R) u : continuous f u -> continuous g u -> continuous (fun x => f x * g x) u.
Proof. intros A B. exact (continuous_mult (K := R_AbsRing) f g u A B). Qed.
Lemma c_plus (f g : R -> R) u : continuous f u -> continuous g u -> continuous (fun x => f x + g x) u.
Proof. intros A B. exact (continuous_plus (K := R_AbsRing) (V := R_NormedModule) f g u A B). Qed.
Lemma c_minus (f g : R -> R) u : continuous f u -> continuous g u -> continuous (fun x => f x - g x) u.
Proof. intros A B. exact (continuous_minus (K := R_AbsRing) (V := R_NormedModule) f g u A B). Qed.
Lemma c_nl n u : continuous (fun x => INR n * l x) u.
Proof. apply c_mult; [apply continuous_const|apply cl]. Qed.

Lemma int_ex (g : R -> R) : (forall u, continuous g u) -> exists v, int g v.
Proof. intros H. apply ex_RInt_all. intros u. now apply c_mult. Qed.
Lemma int_ext (g h : R -> R) v : (forall u, g u = h u) -> int g v -> int h v.
Proof. intros E H. apply (is_RInt_ext (fun u => g u * w u)); auto. intros u _. now rewrite E. Qed.
Lemma int_plus g h a b : int g a -> int h b -> int (fun u => g u + h u) (a + b).
Proof.
  intros A B. apply (is_RInt_ext (fun u => g u * w u + h u * w u)); [intros; cbn; ring|]. exact (is_RInt_plus (V := R_NormedModule) _ _ _ _ _ _ A B).
Qed.
Lemma int_scal g k a : int g a -> int (fun u => k * g u) (k * a).
Proof.
  intros A. apply (is_RInt_ext (fun u => k * (g u * w u))); [intros; cbn; ring|]. exact (is_RInt_scal (V := R_NormedModule) _ _ _ k _ A).
Qed.
Lemma int_le g h a b : (forall u, g u <= h u) -> int g a -> int h b -> a <= b.
Proof.
  intros L A B. pose proof PI_RGT_0. apply (is_RInt_le (fun u => g u * w u) (fun u => h u * w u) (- PI) PI); auto; [lra|].
  intros u _. apply Rmult_le_compat_r; auto.
Qed.
Lemma int_unique g a b : int g a -> int g b -> a = b.
Proof. intros A B. apply (is_RInt_unique (V := R_CompleteNormedModule)) in A. apply (is_RInt_unique (V := R_CompleteNormedModule)) in B. congruence. Qed.

(** Integrals of the waves themselves *)
Lemma int_one : int (fun _ => 1) (2 * PI).
Proof.
  replace (2 * PI) with (l PI - l (- PI)) by (rewrite l_lo, l_hi; ring).
  apply (is_RInt_ext w); [intros; cbn; ring|]. apply (is_RInt_derive l w); auto.
Qed.
Lemma int_zero : int (fun _ => 0) 0.
Proof.
  pose proof (int_scal (fun _ => 1) 0 (2 * PI) int_one) as H. rewrite Rmult_0_l in H. apply (int_ext (fun _ => 0 * 1)); auto. intros _. ring.
Qed.
Lemma sin_nPI n : sin (INR n * PI) = 0.
Proof. rewrite INR_IZR_INZ. apply sin_IZR_PI. Qed.
Lemma int_cos n : (1 <= n)%nat -> int (fun u => cos (INR n * l u)) 0.
Proof.
  intros Hn. assert (N : INR n <> 0) by (apply not_0_INR; lia).
  set (F := fun u => sin (INR n * l u) / INR n).
  replace 0 with (F PI - F (- PI)).
  - apply (is_RInt_derive F (fun u => cos (INR n * l u) * w u)).
    + intros u _. unfold F. pose proof (Dl u) as D. auto_derive; [exists (w u); auto|]. replace (Derive (fun x : R => l x) u) with (w u) by (symmetry; apply is_derive_unique, D). field. auto.
    + intros u _. apply c_mult; auto. apply c_cos, c_nl.
  - unfold F. rewrite l_lo, l_hi. replace (INR n * - PI) with (- (INR n * PI)) by ring. rewrite sin_neg, sin_nPI. field. auto.
Qed.
Lemma int_sin n : int (fun u => sin (INR n * l u)) 0.
Proof.
  destruct n as [|n].
  - apply (int_ext (fun u => 0)); [intros u; cbn [INR]; now rewrite Rmult_0_l, sin_0|]. apply int_zero.
  - assert (N : INR (S n) <> 0) by (apply not_0_INR; lia). set (k := INR (S n)) in *.
    set (F := fun u => - cos (k * l u) / k).
    replace 0 with (F PI - F (- PI)).
    + apply (is_RInt_derive F (fun u => sin (k * l u) * w u)).
      * intros u _. unfold F. pose proof (Dl u) as D. auto_derive; [exists (w u); auto|]. replace (Derive (fun x : R => l x) u) with (w u) by (symmetry; apply is_derive_unique, D). field. auto.
      * intros u _. apply c_mult; auto. apply c_sin. unfold k. apply c_nl.
    + unfold F. rewrite l_lo, l_hi. replace (k * - PI) with (- (k * PI)) by ring. rewrite cos_neg. field. auto.
Qed.

Variable f : R -> R.
Hypothesis Cf : forall u, continuous f u.
(** The Fourier coefficients and the mean square of [f] *)
Variables co si : nat -> R.
Variable sq : R.
Hypothesis Hco : forall n, int (fun u => f u * cos (INR n * l u)) (co n).
Hypothesis Hsi : forall n, int (fun u => f u * sin (INR n * l u)) (si n).
Hypothesis Hsq : int (fun u => f u ^ 2) sq.
(** [f] is Lipschitz on the circle. *)
Variable C : R.
Hypothesis Lf : forall u v, (f u - f v) ^ 2 <= C * (1 - cos (l u - l v)).

(** [double K z]: the integral of (f u - f v)^2 K(l u - l v) over u and v. *)
Definition double (K : R -> R) (z : R) : Prop := exists G : R -> R,
  (forall u, int (fun v => (f u - f v) ^ 2 * K (l u - l v)) (G u)) /\ int G z.
Lemma double_plus K M a b : double K a -> double M b -> double (fun x => K x + M x) (a + b).
Proof.
  intros [G [A B]] [H [D E]]. exists (fun u => G u + H u). split; [|now apply int_plus].
  intros u. apply (int_ext (fun v => (f u - f v) ^ 2 * K (l u - l v) + (f u - f v) ^ 2 * M (l u - l v))); [intros; ring|]. now apply int_plus.
Qed.
Lemma double_scal K k a : double K a -> double (fun x => k * K x) (k * a).
Proof.
  intros [G [A B]]. exists (fun u => k * G u). split; [|now apply int_scal].
  intros u. apply (int_ext (fun v => k * ((f u - f v) ^ 2 * K (l u - l v)))); [intros; ring|]. now apply int_scal.
Qed.
Lemma double_ext K M a : (forall x, K x = M x) -> double K a -> double M a.
Proof. intros E [G [A B]]. exists G. split; auto. intros u. apply (int_ext (fun v => (f u - f v) ^ 2 * K (l u - l v))); auto. intros v. now rewrite E. Qed.

Definition power (n : nat) : R := co n ^ 2 + si n ^ 2.
Lemma co_0 : int f (co 0).
Proof. apply (int_ext (fun u => f u * cos (INR 0 * l u))); auto. intros u. cbn [INR]. rewrite Rmult_0_l, cos_0. ring. Qed.
Lemma double_one : double (fun _ => 1) (4 * PI * sq - 2 * co 0 ^ 2).
Proof.
  exists (fun u => f u ^ 2 * (2 * PI) + (-2 * f u) * co 0 + sq). split.
  - intros u. apply (int_ext (fun v => f u ^ 2 * 1 + (-2 * f u) * f v + f v ^ 2)); [intros; ring|].
    apply int_plus; auto. apply int_plus; apply int_scal; [apply int_one|apply co_0].
  - apply (int_ext (fun u => (2 * PI) * f u ^ 2 + (-2 * co 0) * f u + sq * 1)); [intros; ring|].
    replace (4 * PI * sq - 2 * co 0 ^ 2) with (2 * PI * sq + (-2 * co 0) * co 0 + sq * (2 * PI)) by ring.
    apply int_plus; [apply int_plus|]; apply int_scal; auto; [apply co_0|apply int_one].
Qed.
Lemma double_cos n : (1 <= n)%nat -> double (fun x => cos (INR n * x)) (- 2 * power n).
Proof.
  intros Hn.
  destruct (int_ex (fun u => f u ^ 2 * cos (INR n * l u))) as [a Ha]. { intros u. apply c_mult; [|apply c_cos, c_nl]. apply (continuous_ext (fun x => f x * f x)); [intros; cbn; ring|now apply c_mult]. }
  destruct (int_ex (fun u => f u ^ 2 * sin (INR n * l u))) as [b Hb]. { intros u. apply c_mult; [|apply c_sin, c_nl]. apply (continuous_ext (fun x => f x * f x)); [intros; cbn; ring|now apply c_mult]. }
  assert (X : forall u v, cos (INR n * (l u - l v)) = cos (INR n * l u) * cos (INR n * l v) + sin (INR n * l u) * sin (INR n * l v)).
  { intros u v. rewrite Rmult_minus_distr_l. apply cos_minus. }
  exists (fun u => (f u ^ 2 * cos (INR n * l u)) * 0 + (f u ^ 2 * sin (INR n * l u)) * 0 + (-2 * f u * cos (INR n * l u)) * co n + (-2 * f u * sin (INR n * l u)) * si n + cos (INR n * l u) * a + sin (INR n * l u) * b).
  split.
  - intros u. apply (int_ext (fun v => (f u ^ 2 * cos (INR n * l u)) * cos (INR n * l v) + (f u ^ 2 * sin (INR n * l u)) * sin (INR n * l v)
      + (-2 * f u * cos (INR n * l u)) * (f v * cos (INR n * l v)) + (-2 * f u * sin (INR n * l u)) * (f v * sin (INR n * l v))
      + cos (INR n * l u) * (f v ^ 2 * cos (INR n * l v)) + sin (INR n * l u) * (f v ^ 2 * sin (INR n * l v)))); [intros v; rewrite X; ring|].
    do 5 (apply int_plus; [|apply int_scal; first [exact (int_cos n Hn) | exact (int_sin n) | auto]]). apply int_scal; first [exact (int_cos n Hn) | auto].
  - apply (int_ext (fun u => (-2 * co n) * (f u * cos (INR n * l u)) + (-2 * si n) * (f u * sin (INR n * l u)) + a * cos (INR n * l u) + b * sin (INR n * l u))); [intros; ring|].
    replace (-2 * power n) with ((-2 * co n) * co n + (-2 * si n) * si n + a * 0 + b * 0) by (unfold power; ring).
    do 3 (apply int_plus; [|apply int_scal; first [exact (int_cos n Hn) | exact (int_sin n) | auto]]). apply int_scal; first [exact (int_cos n Hn) | auto].
Qed.

(** Z0 - 2 sum_(n<=N) power n, and sums of these: what the kernels give. *)
Fixpoint Psum (n : nat) : R := match n with O => 0 | S m => Psum m + power n end.
Fixpoint Csum (n : nat) : R := match n with O => 0 | S m => Csum m + Psum n end.
Definition L : R := 2 * PI * sq - co 0 ^ 2.
Lemma double_dirichlet n : double (dirichlet n) (2 * L - 4 * Psum n).
Proof.
  induction n as [|n IH].
  - apply (double_ext (fun _ => 1)); auto. cbn [Psum]. replace (2 * L - 4 * 0) with (4 * PI * sq - 2 * co 0 ^ 2) by (unfold L; ring). apply double_one.
  - cbn [dirichlet Psum]. replace (2 * L - 4 * (Psum n + power (S n))) with (2 * L - 4 * Psum n + 2 * (-2 * power (S n))) by ring.
    apply (double_plus (dirichlet n) (fun x => 2 * cos (INR (S n) * x))); auto. apply (double_scal (fun x => cos (INR (S n) * x))). apply double_cos. lia.
Qed.
Lemma double_fejer n : double (fejer n) (2 * INR (S n) * L - 4 * Csum n).
Proof.
  induction n as [|n IH].
  - apply (double_ext (fun _ => 1)); auto. cbn [Csum INR]. replace (2 * 1 * L - 4 * 0) with (4 * PI * sq - 2 * co 0 ^ 2) by (unfold L; ring). apply double_one.
  - cbn [fejer Csum]. replace (2 * INR (S (S n)) * L - 4 * (Csum n + Psum (S n))) with (2 * INR (S n) * L - 4 * Csum n + (2 * L - 4 * Psum (S n))) by (rewrite (S_INR (S n)); ring).
    apply (double_plus (fejer n) (dirichlet (S n))); auto. apply double_dirichlet.
Qed.
Lemma Csum_upper n : 2 * Csum n <= INR (S n) * L.
Proof.
  destruct (double_fejer n) as [G [A B]]. assert (P : forall u, 0 <= G u).
  { intros u. apply (int_le (fun _ => 0) (fun v => (f u - f v) ^ 2 * fejer n (l u - l v)) 0 (G u)); auto.
    - intros v. apply Rmult_le_pos; [apply pow2_ge_0|apply fejer_pos].
    - apply int_zero. }
  assert (Q : 0 <= 2 * INR (S n) * L - 4 * Csum n).
  { apply (int_le (fun _ => 0) G); auto. apply int_zero. }
  lra.
Qed.
Lemma Csum_lower n : INR (S n) * L - 2 * PI ^ 2 * C <= 2 * Csum n.
Proof.
  destruct (double_fejer n) as [G [A B]]. assert (P : forall u, G u <= C * (2 * PI)).
  { intros u. apply (int_le (fun v => (f u - f v) ^ 2 * fejer n (l u - l v)) (fun v => C * (1 + (- cos (INR (S n) * l u)) * cos (INR (S n) * l v) + (- sin (INR (S n) * l u)) * sin (INR (S n) * l v))) (G u)); auto.
    - intros v. assert (E : 1 + - cos (INR (S n) * l u) * cos (INR (S n) * l v) + - sin (INR (S n) * l u) * sin (INR (S n) * l v) = 1 - cos (INR (S n) * (l u - l v))).
      { rewrite Rmult_minus_distr_l, cos_minus. ring. }
      rewrite E, <- fejer_closed, <- Rmult_assoc. apply Rmult_le_compat_r; [apply fejer_pos|apply Lf].
    - apply int_scal. replace (2 * PI) with (2 * PI + (- cos (INR (S n) * l u)) * 0 + (- sin (INR (S n) * l u)) * 0) by ring.
      apply int_plus; [apply int_plus; [apply int_one|]|]; apply int_scal; [apply int_cos; lia|apply int_sin]. }
  assert (Q : 2 * INR (S n) * L - 4 * Csum n <= C * (2 * PI) * (2 * PI)).
  { apply (int_le G (fun _ => C * (2 * PI) * 1)); auto; [intros u; rewrite Rmult_1_r; auto|]. apply int_scal, int_one. }
  lra.
Qed.
Lemma power_pos n : 0 <= power n.
Proof. unfold power. pose proof (pow2_ge_0 (co n)). pose proof (pow2_ge_0 (si n)). lra. Qed.
Lemma Psum_incr n m : (n <= m)%nat -> Psum n <= Psum m.
Proof. induction 1 as [|m H IH]; [lra|]. cbn [Psum]. pose proof (power_pos (S m)). lra. Qed.
Lemma Psum_pos n : 0 <= Psum n.
Proof. apply (Psum_incr 0). lia. Qed.
Lemma Csum_tail n k : INR k * Psum n <= Csum (n + k).
Proof.
  induction k as [|k IH].
  - cbn [INR]. rewrite Rmult_0_l, Nat.add_0_r. clear. induction n as [|n IH]; cbn [Csum]; [lra|]. pose proof (Psum_pos (S n)). cbn [Psum] in *. lra.
  - rewrite Nat.add_succ_r. cbn [Csum]. rewrite S_INR. pose proof (Psum_incr n (S (n + k)) ltac:(lia)). cbn [Psum] in *. lra.
Qed.
Lemma Csum_head n : Csum n <= INR n * Psum n.
Proof.
  induction n as [|n IH]; [cbn; lra|]. cbn [Csum]. rewrite S_INR. pose proof (Psum_incr n (S n) ltac:(lia)). pose proof (pos_INR n).
  assert (INR n * Psum n <= INR n * Psum (S n)) by (apply Rmult_le_compat_l; auto). lra.
Qed.
Lemma L_pos : 0 <= L.
Proof. pose proof (Csum_upper 0) as H. cbn [Csum INR] in H. lra. Qed.
(** Bessel's inequality *)
Lemma bessel_inequality n : 2 * Psum n <= L.
Proof.
  apply Rnot_lt_le. intros N. set (d := 2 * Psum n - L) in *. assert (Hd : 0 < d) by (unfold d; lra).
  pose proof L_pos as LP. pose proof (pos_INR (S n)) as NP.
  assert (Y : 0 < INR (S n) * L + 1) by nra. destruct (archimed_cor1 (d / (INR (S n) * L + 1))) as [k [Hk0 Hk1]]; [now apply Rdiv_lt_0_compat|].
  assert (KP : 0 < INR k) by (now apply lt_0_INR).
  assert (Hk : INR (S n) * L + 1 < INR k * d).
  { apply (Rmult_lt_compat_r (INR k * (INR (S n) * L + 1))) in Hk0; [|now apply Rmult_lt_0_compat].
    replace (/ INR k * (INR k * (INR (S n) * L + 1))) with (INR (S n) * L + 1) in Hk0 by (field; lra).
    replace (d / (INR (S n) * L + 1) * (INR k * (INR (S n) * L + 1))) with (INR k * d) in Hk0 by (field; lra). auto. }
  pose proof (Csum_tail n k) as T. pose proof (Csum_upper (n + k)) as U. 
  assert (E : INR (S (n + k)) = INR k + INR (S n)) by (rewrite <- plus_INR; f_equal; lia). rewrite E in U.
  unfold d in Hk. nra.
Qed.
(** Parseval's identity *)
Lemma parseval_rate n : (1 <= n)%nat -> L - 2 * PI ^ 2 * C / INR n <= 2 * Psum n.
Proof.
  intros Hn. assert (N : 0 < INR n) by (apply lt_0_INR; lia). pose proof (Csum_lower n) as A. pose proof (Csum_head n) as B. rewrite S_INR in A. pose proof L_pos.
  apply (Rmult_le_reg_l (INR n)); auto. replace (INR n * (L - 2 * PI ^ 2 * C / INR n)) with (INR n * L - 2 * PI ^ 2 * C) by (field; lra). lra.
Qed.
End Fourier.
