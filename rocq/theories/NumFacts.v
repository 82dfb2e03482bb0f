(** NumFacts.v -- lemmas and tactics about the extended reals of Num.v. *)
From Coq Require Import Reals ZArith List Bool Lra Lia.
From Verif Require Import Num.
Import ListNotations.
Open Scope R_scope.
Open Scope num_scope.

(** ** Boolean comparisons *)
Lemma Rleb_true x y : Rleb x y = true <-> (x <= y)%R.
Proof. unfold Rleb; destruct (Rle_dec x y); split; auto; discriminate. Qed.
Lemma Rleb_false x y : Rleb x y = false <-> (y < x)%R.
Proof. unfold Rleb; destruct (Rle_dec x y); split; auto; try discriminate; lra. Qed.
Lemma Rltb_true x y : Rltb x y = true <-> (x < y)%R.
Proof. unfold Rltb; destruct (Rlt_dec x y); split; auto; discriminate. Qed.
Lemma Rltb_false x y : Rltb x y = false <-> (y <= x)%R.
Proof. unfold Rltb; destruct (Rlt_dec x y); split; auto; try discriminate; lra. Qed.
Lemma Reqb_true x y : Reqb x y = true <-> x = y.
Proof. unfold Reqb; destruct (Req_EM_T x y); split; auto; discriminate. Qed.
Lemma Reqb_false x y : Reqb x y = false <-> x <> y.
Proof. unfold Reqb; destruct (Req_EM_T x y); split; auto; try discriminate; tauto. Qed.

(** Case split on every real comparison in the goal. *)
Ltac rcase :=
  repeat match goal with
  | |- context [Rleb ?x ?y] =>
      let H := fresh "Hc" in destruct (Rleb x y) eqn:H;
      [apply Rleb_true in H | apply Rleb_false in H]
  | |- context [Rltb ?x ?y] =>
      let H := fresh "Hc" in destruct (Rltb x y) eqn:H;
      [apply Rltb_true in H | apply Rltb_false in H]
  | |- context [Reqb ?x ?y] =>
      let H := fresh "Hc" in destruct (Reqb x y) eqn:H;
      [apply Reqb_true in H | apply Reqb_false in H]
  end.

(** ** Reduction lemmas on finite numbers *)
Lemma nadd_fin a b : Fin a + Fin b = Fin (a + b).
Proof. reflexivity. Qed.
Lemma nsub_fin a b : Fin a - Fin b = Fin (a - b).
Proof. reflexivity. Qed.
Lemma nmul_fin a b : Fin a * Fin b = Fin (a * b).
Proof. reflexivity. Qed.
Lemma nneg_fin a : - Fin a = Fin (- a).
Proof. reflexivity. Qed.
Lemma ndiv_fin a b : b <> 0%R -> Fin a / Fin b = Fin (a / b).
Proof. intros H; simpl. apply Reqb_false in H. now rewrite H. Qed.
Lemma npowr_fin x y : (0 < x)%R -> Fin x ** y = Fin (Rpower x y).
Proof. intros H; simpl. apply Rltb_true in H. now rewrite H. Qed.
Lemma npowr_0_pos y : (0 < y)%R -> Fin 0 ** y = Fin 0.
Proof.
  intros H; simpl. rcase; try lra; reflexivity.
Qed.
Lemma npowr_0_neg y : (y <= 0)%R -> Fin 0 ** y = PInf.
Proof. intros H; simpl. rcase; try lra; reflexivity. Qed.
Lemma npowr_neg x y : (x < 0)%R -> Fin x ** y = NaN.
Proof. intros H; simpl. rcase; try lra; reflexivity. Qed.
Lemma npowi_fin x k : (0 <= k)%Z -> Fin x ^^ k = Fin (x ^ Z.to_nat k).
Proof. intros H; simpl. apply Z.leb_le in H. now rewrite H. Qed.
Lemma npowi_neg_fin x k : (k < 0)%Z -> x <> 0%R -> Fin x ^^ k = Fin (/ x ^ Z.to_nat (- k)).
Proof.
  intros H Hx; simpl. destruct (0 <=? k)%Z eqn:E; [apply Z.leb_le in E; lia|].
  apply Reqb_false in Hx. now rewrite Hx.
Qed.
Lemma npowi2 x : Fin x ^^ 2 = Fin (x ^ 2).
Proof. reflexivity. Qed.
Lemma npowi3 x : Fin x ^^ 3 = Fin (x ^ 3).
Proof. reflexivity. Qed.
Lemma npowi4 x : Fin x ^^ 4 = Fin (x ^ 4).
Proof. reflexivity. Qed.
Lemma npowi5 x : Fin x ^^ 5 = Fin (x ^ 5).
Proof. reflexivity. Qed.

Lemma nle_fin a b : nle (Fin a) (Fin b) = true <-> (a <= b)%R.
Proof. apply Rleb_true. Qed.
Lemma nlt_fin a b : nlt (Fin a) (Fin b) = true <-> (a < b)%R.
Proof. apply Rltb_true. Qed.
Lemma nle_fin_f a b : nle (Fin a) (Fin b) = false <-> (b < a)%R.
Proof. apply Rleb_false. Qed.
Lemma nlt_fin_f a b : nlt (Fin a) (Fin b) = false <-> (b <= a)%R.
Proof. apply Rltb_false. Qed.
Lemma neqb_fin a b : neqb (Fin a) (Fin b) = true <-> a = b.
Proof. apply Reqb_true. Qed.
Lemma neqb_fin_f a b : neqb (Fin a) (Fin b) = false <-> a <> b.
Proof. apply Reqb_false. Qed.

Lemma Fin_inj a b : Fin a = Fin b -> a = b.
Proof. congruence. Qed.
Lemma Fin_eq a b : a = b -> Fin a = Fin b.
Proof. congruence. Qed.

Lemma nmin_fin a b : nmin (Fin a) (Fin b) = Fin (Rmin a b).
Proof. simpl. unfold Rmin. rcase; destruct (Rle_dec a b); auto; lra. Qed.
Lemma nmax_fin a b : nmax (Fin a) (Fin b) = Fin (Rmax a b).
Proof. simpl. unfold Rmax. rcase; destruct (Rle_dec a b); auto; lra. Qed.

(** ** Extended-real algebra *)
Lemma nadd_comm x y : x + y = y + x.
Proof. destruct x, y; simpl; auto. f_equal; ring. Qed.
Lemma nadd_assoc x y z : x + (y + z) = (x + y) + z.
Proof. destruct x, y, z; simpl; auto. f_equal; ring. Qed.
Lemma nadd_0_l x : Fin 0 + x = x.
Proof. destruct x; simpl; auto. f_equal; ring. Qed.
Lemma nadd_0_r x : x + Fin 0 = x.
Proof. destruct x; simpl; auto. f_equal; ring. Qed.

(** ** Rpower facts *)
Lemma Rpower_pos x y : (0 < Rpower x y)%R.
Proof. apply exp_pos. Qed.
#[global] Hint Resolve Rpower_pos : core.

Lemma Rpower_neq0 x y : Rpower x y <> 0%R.
Proof. apply Rgt_not_eq, Rpower_pos. Qed.
#[global] Hint Resolve Rpower_neq0 : core.

Lemma ln_Rpower x y : ln (Rpower x y) = (y * ln x)%R.
Proof. unfold Rpower. now rewrite ln_exp. Qed.

Lemma Rpower_eq_ln x y z : (0 < z)%R -> (y * ln x = ln z)%R -> Rpower x y = z.
Proof. intros Hz H. unfold Rpower. rewrite H. now apply exp_ln. Qed.

(** positive reals are equal iff their logarithms are *)
Lemma eq_by_ln x y : (0 < x)%R -> (0 < y)%R -> ln x = ln y -> x = y.
Proof. intros; now apply ln_inv. Qed.

Lemma ln_div x y : (0 < x)%R -> (0 < y)%R -> ln (x / y) = (ln x - ln y)%R.
Proof.
  intros Hx Hy. unfold Rdiv. rewrite ln_mult; auto using Rinv_0_lt_compat.
  rewrite ln_Rinv; auto; try ring.
Qed.
Lemma ln_pow_n x n : (0 < x)%R -> ln (x ^ n) = (INR n * ln x)%R.
Proof.
  intros Hx. induction n as [|n IH].
  - simpl. rewrite ln_1. ring.
  - rewrite S_INR. simpl (x ^ S n)%R. rewrite ln_mult; auto using pow_lt. rewrite IH. ring.
Qed.
Lemma ln_pow2 x : (0 < x)%R -> ln (x ^ 2) = (2 * ln x)%R.
Proof. intros; rewrite ln_pow_n; auto; simpl; ring. Qed.
Lemma ln_pow3 x : (0 < x)%R -> ln (x ^ 3) = (3 * ln x)%R.
Proof. intros; rewrite ln_pow_n; auto; simpl; ring. Qed.
Lemma ln_pow4 x : (0 < x)%R -> ln (x ^ 4) = (4 * ln x)%R.
Proof. intros; rewrite ln_pow_n; auto; simpl; ring. Qed.
Lemma ln_pow5 x : (0 < x)%R -> ln (x ^ 5) = (5 * ln x)%R.
Proof. intros; rewrite ln_pow_n; auto; simpl; ring. Qed.

(** Positivity solver. *)
Ltac pos :=
  repeat first
  [ assumption
  | apply Rpower_pos
  | apply exp_pos
  | apply PI_RGT_0
  | apply Rmult_lt_0_compat
  | apply Rdiv_lt_0_compat
  | apply pow_lt
  | apply Rinv_0_lt_compat
  | lra
  | apply Rplus_lt_0_compat
  | nra ].
Ltac nz := apply Rgt_not_eq; pos.

(** Expand a logarithm of a product of powers into a linear combination of logarithms. *)
Ltac lnexp :=
  repeat first
  [ rewrite ln_mult by pos
  | rewrite ln_div by pos
  | rewrite ln_Rinv by pos
  | rewrite ln_Rpower
  | rewrite ln_pow2 by pos
  | rewrite ln_pow3 by pos
  | rewrite ln_pow4 by pos
  | rewrite ln_pow5 by pos ].

Lemma Ggrav_pos : (0 < Ggrav)%R.
Proof. unfold Ggrav; lra. Qed.
Lemma clight_pos : (0 < clight)%R.
Proof. unfold clight; lra. Qed.
Lemma yr_pos : (0 < yr)%R.
Proof. unfold yr; lra. Qed.
Lemma Myr_pos : (0 < Myr)%R.
Proof. unfold Myr, yr; lra. Qed.
Lemma Gyr_pos : (0 < Gyr)%R.
Proof. unfold Gyr, yr; lra. Qed.
#[global] Hint Resolve Ggrav_pos clight_pos yr_pos Myr_pos Gyr_pos : core.
#[global] Opaque Ggrav clight yr.

Lemma Rpower_mono_base x y a : (0 < x < y)%R -> (0 < a)%R -> (Rpower x a < Rpower y a)%R.
Proof.
  intros [Hx Hxy] Ha. unfold Rpower. apply exp_increasing.
  apply Rmult_lt_compat_l; auto. now apply ln_increasing.
Qed.
Lemma Rpower_mono_base_le x y a : (0 < x <= y)%R -> (0 <= a)%R -> (Rpower x a <= Rpower y a)%R.
Proof.
  intros [Hx Hxy] Ha. destruct Hxy as [Hxy| ->]; [|lra].
  destruct Ha as [Ha| <-].
  - left. now apply Rpower_mono_base.
  - rewrite !Rpower_O; lra.
Qed.
Lemma Rpower_anti_base x y a : (0 < x < y)%R -> (a < 0)%R -> (Rpower y a < Rpower x a)%R.
Proof.
  intros [Hx Hxy] Ha. unfold Rpower. apply exp_increasing.
  apply ln_increasing in Hxy; auto. nra.
Qed.
Lemma Rpower_anti_base_le x y a : (0 < x <= y)%R -> (a <= 0)%R -> (Rpower y a <= Rpower x a)%R.
Proof.
  intros [Hx Hxy] Ha. destruct Hxy as [Hxy| ->]; [|lra].
  destruct Ha as [Ha| ->].
  - left. now apply Rpower_anti_base.
  - rewrite !Rpower_O; lra.
Qed.

Lemma Rpower_lt_1 x a : (0 < x < 1)%R -> (0 < a)%R -> (Rpower x a < 1)%R.
Proof.
  intros Hx Ha. rewrite <- (Rpower_O 1) by lra.
  replace (Rpower 1 0) with (Rpower 1 a).
  - apply Rpower_mono_base; lra.
  - unfold Rpower. rewrite ln_1. f_equal. ring.
Qed.
Lemma Rpower_1_base a : Rpower 1 a = 1%R.
Proof. unfold Rpower. rewrite ln_1, Rmult_0_r. apply exp_0. Qed.
Lemma Rpower_2_sqr x : (0 < x)%R -> Rpower x 2 = (x * x)%R.
Proof. intros H. replace 2%R with (INR 2) by (simpl; ring). rewrite Rpower_pow; auto. simpl; ring. Qed.
Lemma Rpower_half_sqr x : (0 < x)%R -> (Rpower x (1/2) * Rpower x (1/2) = x)%R.
Proof.
  intros H. rewrite <- Rpower_plus. replace (1/2 + 1/2)%R with 1%R by lra. now apply Rpower_1.
Qed.
Lemma Rpower_half_sqrt x : (0 < x)%R -> Rpower x (1/2) = sqrt x.
Proof. intros H. replace (1/2)%R with (/2)%R by lra. now apply Rpower_sqrt. Qed.

(** nsqrt *)
Lemma nsqrt_fin x : (0 <= x)%R -> nsqrt (Fin x) = Fin (sqrt x).
Proof.
  intros H. unfold nsqrt. destruct H as [H| <-].
  - rewrite npowr_fin by auto. f_equal. now apply Rpower_half_sqrt.
  - rewrite npowr_0_pos by lra. now rewrite sqrt_0.
Qed.

(** Rewriting forms of the comparisons. *)
Lemma nle_t a b : (a <= b)%R -> nle (Fin a) (Fin b) = true.
Proof. apply nle_fin. Qed.
Lemma nle_f a b : (b < a)%R -> nle (Fin a) (Fin b) = false.
Proof. apply nle_fin_f. Qed.
Lemma nlt_t a b : (a < b)%R -> nlt (Fin a) (Fin b) = true.
Proof. apply nlt_fin. Qed.
Lemma nlt_f a b : (b <= a)%R -> nlt (Fin a) (Fin b) = false.
Proof. apply nlt_fin_f. Qed.
Lemma neqb_t a b : a = b -> neqb (Fin a) (Fin b) = true.
Proof. apply neqb_fin. Qed.
Lemma neqb_f a b : a <> b -> neqb (Fin a) (Fin b) = false.
Proof. apply neqb_fin_f. Qed.
