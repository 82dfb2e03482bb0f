(** ScaleFacts.v -- multiplying numbers by a positive real, through every operation used by the SNR functions. *)
From Coq Require Import Reals ZArith List Bool Lra Lia.
From Verif Require Import Num NumFacts Np NpFacts.
Import ListNotations.
Open Scope R_scope.

Lemma Rltb_t x y : x < y -> Rltb x y = true.
Proof. intros. unfold Rltb. destruct (Rlt_dec x y); auto; lra. Qed.
Lemma Rltb_f x y : y <= x -> Rltb x y = false.
Proof. intros. unfold Rltb. destruct (Rlt_dec x y); auto; lra. Qed.
Lemma Rltb_k0 k x : 0 < k -> Rltb 0 (k * x) = Rltb 0 x.
Proof. intros. destruct (Rlt_le_dec 0 x); [rewrite !Rltb_t|rewrite !Rltb_f]; auto; nra. Qed.
Lemma Rltb_k1 k x : 0 < k -> Rltb (k * x) 0 = Rltb x 0.
Proof. intros. destruct (Rlt_le_dec x 0); [rewrite !Rltb_t|rewrite !Rltb_f]; auto; nra. Qed.
Lemma Reqb_k k x : 0 < k -> Reqb (k * x) 0 = Reqb x 0.
Proof. intros. unfold Reqb. destruct (Req_EM_T (k * x) 0), (Req_EM_T x 0); auto; exfalso; nra. Qed.
Lemma inf_times_pos k : 0 < k -> inf_times (Fin k) = PInf.
Proof. intros. cbn. now rewrite Rltb_t. Qed.
Lemma nmul_pinf k : 0 < k -> nmul (Fin k) PInf = PInf.
Proof. intros. cbn. now rewrite Rltb_t. Qed.
Lemma nmul_ninf k : 0 < k -> nmul (Fin k) NInf = NInf.
Proof. intros. cbn. now rewrite Rltb_t. Qed.
Lemma nmul_nan k : nmul (Fin k) NaN = NaN.
Proof. reflexivity. Qed.

Ltac scal k := 
  repeat first [rewrite (nmul_pinf k) by auto | rewrite (nmul_ninf k) by auto | rewrite nmul_nan | rewrite nmul_fin].

Lemma sc_mul k x y : 0 < k -> nmul (nmul (Fin k) x) y = nmul (Fin k) (nmul x y).
Proof.
  intros Hk. destruct x as [a| | |]; scal k; auto.
  - destruct y as [b| | |]; scal k; auto.
    + f_equal. ring.
    + cbn. rewrite Rltb_k0, Rltb_k1 by auto. destruct (Rltb 0 a); [|destruct (Rltb a 0)]; auto; cbn; rewrite Rltb_t; auto.
    + cbn. rewrite Rltb_k0, Rltb_k1 by auto. destruct (Rltb 0 a); [|destruct (Rltb a 0)]; auto; cbn; rewrite Rltb_t; auto.
  - destruct y as [b| | |]; cbn; auto; try (destruct (Rltb 0 b); [|destruct (Rltb b 0)]); auto; cbn; rewrite ?Rltb_t; auto.
  - destruct y as [b| | |]; cbn; auto; try (destruct (Rltb 0 b); [|destruct (Rltb b 0)]); auto; cbn; rewrite ?Rltb_t; auto.
Qed.
Lemma nmul_comm x y : nmul x y = nmul y x.
Proof. destruct x, y; cbn; auto; rewrite Rmult_comm; auto. Qed.
Lemma sc_mul_r k x y : 0 < k -> nmul x (nmul (Fin k) y) = nmul (Fin k) (nmul x y).
Proof. intros. rewrite nmul_comm, sc_mul by auto. now rewrite (nmul_comm y x). Qed.
Lemma sc_div k x y : 0 < k -> ndiv (nmul (Fin k) x) y = nmul (Fin k) (ndiv x y).
Proof.
  intros Hk. destruct x as [a| | |]; scal k; auto.
  - destruct y as [b| | |]; auto.
    + cbn. rewrite Rltb_k0, Rltb_k1 by auto. destruct (Reqb b 0) eqn:E.
      * destruct (Rltb 0 a); [|destruct (Rltb a 0)]; auto; cbn; rewrite Rltb_t; auto.
      * f_equal. unfold Rdiv. ring.
    + cbn. f_equal. ring.
    + cbn. f_equal. ring.
  - destruct y as [b| | |]; auto. cbn. destruct (Rltb b 0); cbn; rewrite ?Rltb_t; auto.
  - destruct y as [b| | |]; auto. cbn. destruct (Rltb b 0); cbn; rewrite ?Rltb_t; auto.
Qed.
Lemma sc_divisor k x y : 0 < k -> ndiv x (nmul (Fin k) y) = nmul (Fin (/ k)) (ndiv x y).
Proof.
  intros Hk. pose proof (Rinv_0_lt_compat k Hk) as Hk'. destruct x as [a| | |]; auto.
  - destruct y as [b| | |]; cbn; rewrite ?Rltb_t by auto; cbn; auto; try (f_equal; ring).
    rewrite Reqb_k by auto. destruct (Reqb b 0) eqn:E.
    + destruct (Rltb 0 a); [|destruct (Rltb a 0)]; auto; cbn; rewrite Rltb_t; auto.
    + cbn. f_equal. unfold Rdiv. rewrite Rinv_mult_distr; [ring|lra|]. unfold Reqb in E. destruct (Req_EM_T b 0); auto; discriminate.
  - destruct y as [b| | |]; cbn; rewrite ?Rltb_t by auto; cbn; auto. rewrite Rltb_k1 by auto.
    destruct (Rltb b 0); cbn; rewrite ?Rltb_t; auto.
  - destruct y as [b| | |]; cbn; rewrite ?Rltb_t by auto; cbn; auto. rewrite Rltb_k1 by auto.
    destruct (Rltb b 0); cbn; rewrite ?Rltb_t; auto.
Qed.
Lemma sc_add k x y : 0 < k -> nadd (nmul (Fin k) x) (nmul (Fin k) y) = nmul (Fin k) (nadd x y).
Proof.
  intros Hk. destruct x as [a| | |], y as [b| | |]; scal k; cbn; rewrite ?Rltb_t by auto; auto. f_equal. ring.
Qed.
Lemma sc_sq k x : 0 < k -> npowi (nmul (Fin k) x) 2 = nmul (Fin (k ^ 2)) (npowi x 2).
Proof.
  intros Hk. assert (0 < k ^ 2) by (apply pow_lt; lra). destruct x as [a| | |]; scal k; auto.
  - rewrite !npowi2, nmul_fin. f_equal. ring.
  - change (npowi PInf 2) with PInf. now rewrite nmul_pinf.
  - change (npowi NInf 2) with PInf. now rewrite nmul_pinf.
Qed.
Lemma sc_sqrt k x : 0 < k -> nsqrt (nmul (Fin k) x) = nmul (Fin (sqrt k)) (nsqrt x).
Proof.
  intros Hk. assert (Hs : 0 < sqrt k) by now apply sqrt_lt_R0. destruct x as [a| | |]; scal k; auto.
  - destruct (Rlt_le_dec a 0) as [L|L].
    + unfold nsqrt, npowr. rewrite (Rltb_f 0 (k * a)) by nra. rewrite (Rltb_f 0 a) by lra. unfold Reqb. destruct (Req_EM_T (k * a) 0); [nra|]. destruct (Req_EM_T a 0); [lra|]. reflexivity.
    + assert (0 <= k * a) by nra. rewrite !nsqrt_fin by auto. rewrite nmul_fin. f_equal. apply sqrt_mult; lra.
  - unfold nsqrt, npowr. rewrite Rltb_t by lra. now rewrite nmul_pinf.
  - unfold nsqrt, npowr. rewrite Rltb_t by lra. now rewrite nmul_pinf.
Qed.
Lemma sc_sqrt2 k x : 0 < k -> nsqrt (nmul (Fin (k ^ 2)) x) = nmul (Fin k) (nsqrt x).
Proof. intros. rewrite sc_sqrt by (apply pow_lt; lra). now rewrite sqrt_pow2 by lra. Qed.
Lemma sc_sum k l : 0 < k -> nsum (map (nmul (Fin k)) l) = nmul (Fin k) (nsum l).
Proof.
  intros Hk. unfold nsum.
  assert (G : forall z, fold_left nadd (map (nmul (Fin k)) l) (nmul (Fin k) z) = nmul (Fin k) (fold_left nadd l z)).
  { induction l as [|x l IH]; intros z; cbn [map fold_left]; auto. rewrite sc_add by auto. apply IH. }
  rewrite <- G. f_equal. cbn. f_equal. ring.
Qed.
Lemma sc_trapz k : 0 < k -> forall y x, trapz (map (nmul (Fin k)) y) x = nmul (Fin k) (trapz y x).
Proof.
  intros Hk. induction y as [|y0 y IH]; intros x.
  - cbn. f_equal. ring.
  - destruct y as [|y1 y]; [cbn; f_equal; ring|]. destruct x as [|x0 [|x1 x]]; try (cbn; f_equal; ring).
    specialize (IH (x1 :: x)). cbn [map trapz] in IH |- *. rewrite IH. rewrite sc_add, sc_div, sc_mul_r, sc_add by auto. reflexivity.
Qed.
Lemma sc_nlt k x y : 0 < k -> nlt (nmul (Fin k) x) (nmul (Fin k) y) = nlt x y.
Proof.
  intros Hk. destruct x as [a| | |], y as [b| | |]; scal k; auto.
  destruct (Rlt_le_dec a b); [rewrite !nlt_t|rewrite !nlt_f]; auto; nra.
Qed.
Lemma sc_nan k x : 0 < k -> is_nan (nmul (Fin k) x) = is_nan x.
Proof. intros. destruct x; scal k; auto. Qed.
Lemma sc_argmax k l : 0 < k -> argmax (map (nmul (Fin k)) l) = argmax l.
Proof.
  intros Hk. destruct l as [|x l]; auto. cbn [map argmax]. generalize 0%nat 1%nat. revert x.
  induction l as [|y l IH]; intros x bi i; auto. cbn [map argmax_from]. rewrite !sc_nan, sc_nlt by auto.
  destruct (is_nan x); auto. destruct (is_nan y || nlt x y); apply IH.
Qed.
