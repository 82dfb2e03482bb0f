(** BesselPositive.v -- every harmonic of an eccentric binary carries power. *)
From Coq Require Import Reals ZArith List Lra Lia.
From Coquelicot Require Import Coquelicot.
From Verif Require Import Num NumFacts Utils Spec UtilsFacts EvolSpec Bessel BesselFacts.
Import ListNotations.
Open Scope R_scope.

(** ** J_0 and J_1 have no common zero *)
Definition both (x : R) : R := x ^ 2 * (besselJ 0 x ^ 2 + besselJ 1 x ^ 2).
Lemma bessel_minus_1 x : 0 < x -> besselJ (-1) x = - besselJ 1 x.
Proof. intros H. pose proof (bessel_recurrence 0 x) as E. cbn in E. nra. Qed.
Lemma both_derive x : 0 < x -> is_derive both x (2 * x * besselJ 0 x ^ 2).
Proof.
  intros H. pose proof (besselJ_derive 0 x) as D0. pose proof (besselJ_derive 1 x) as D1. cbn in D0, D1.
  rewrite bessel_minus_1 in D0 by exact H.
  assert (E : besselJ 2 x = 2 / x * besselJ 1 x - besselJ 0 x).
  { pose proof (bessel_recurrence 1 x) as E. cbn in E. apply (Rmult_eq_reg_l x); [|lra]. field_simplify; lra. }
  rewrite E in D1. unfold both.
  evar (v : R). replace (2 * x * besselJ 0 x ^ 2) with v. 
  - unfold v. apply (is_derive_mult (K := R_AbsRing) (fun x => x ^ 2) (fun x => besselJ 0 x ^ 2 + besselJ 1 x ^ 2) x).
    + exact (is_derive_pow (fun y => y) 2 x 1 (is_derive_id (K := R_AbsRing) x)).
    + apply (is_derive_plus (K := R_AbsRing) (V := R_NormedModule) (fun x => besselJ 0 x ^ 2) (fun x => besselJ 1 x ^ 2) x).
      * apply (is_derive_pow (besselJ 0) 2 x). exact D0.
      * apply (is_derive_pow (besselJ 1) 2 x). exact D1.
    + intros n m. apply Rmult_comm.
  - unfold v, plus, mult; cbn. field. lra.
Qed.
Lemma both_incr a b : 0 < a <= b -> both a <= both b.
Proof.
  intros [Ha Hb]. destruct (Rle_lt_or_eq_dec _ _ Hb) as [L|L]; [|subst; lra].
  destruct (MVT_gen both a b (fun x => 2 * x * besselJ 0 x ^ 2)) as (c & Hc & E).
  - intros x Hx. apply both_derive. rewrite Rmin_left in Hx by lra. lra.
  - intros x Hx. rewrite Rmin_left in Hx by lra. apply continuity_pt_filterlim. apply (continuous_of_derive both x (2 * x * besselJ 0 x ^ 2)). apply both_derive. lra.
  - rewrite Rmin_left in Hc by lra. assert (0 <= 2 * c * besselJ 0 c ^ 2) by (apply Rmult_le_pos; [lra|apply pow2_ge_0]). nra.
Qed.
Lemma no_common_zero x : 0 < x -> besselJ 0 x = 0 -> besselJ 1 x = 0 -> False.
Proof.
  intros Hx Z0 Z1. assert (C : continuous (besselJ 0) 0) by exact (continuous_of_derive _ _ _ (besselJ_derive 0 0)).
  assert (P : exists y, 0 < y <= x /\ 0 < besselJ 0 y).
  { assert (E0 : besselJ 0 0 = 1) by (rewrite besselJ_0; reflexivity).
    destruct (proj1 (filterlim_locally (besselJ 0) (besselJ 0 0)) C (mkposreal (1/2) ltac:(lra))) as (d & Hd).
    pose proof (cond_pos d) as Dp. exists (Rmin x (d / 2)). split; [split; [apply Rmin_pos; lra|apply Rmin_l]|].
    assert (A : Rabs (besselJ 0 (Rmin x (d / 2)) - besselJ 0 0) < 1 / 2).
    { apply (Hd (Rmin x (d / 2))). unfold ball; cbn; unfold AbsRing_ball, abs, minus, plus, opp; cbn. rewrite Ropp_0, Rplus_0_r.
      rewrite Rabs_pos_eq by (apply Rmin_glb; lra). pose proof (Rmin_r x (d / 2)). lra. }
    rewrite E0 in A. apply Rabs_def2 in A. lra. }
  destruct P as (y & Hy & P). pose proof (both_incr y x Hy) as M. unfold both in M at 2. rewrite Z0, Z1 in M.
  assert (0 < both y).
  { unfold both. apply Rmult_lt_0_compat; [apply pow_lt; lra|]. pose proof (pow2_ge_0 (besselJ 1 y)). assert (0 < besselJ 0 y ^ 2) by (apply pow_lt, P). lra. }
  replace (x ^ 2 * (0 ^ 2 + 0 ^ 2)) with 0 in M by ring. lra.
Qed.
Lemma neighbours_not_zero (n : nat) x : 0 < x -> besselJ (Z.of_nat n) x = 0 -> besselJ (Z.of_nat (S n)) x = 0 -> False.
Proof.
  intros Hx. induction n as [|n IH]; intros A B; [exact (no_common_zero x Hx A B)|].
  apply IH; [|exact A]. pose proof (bessel_recurrence (Z.of_nat (S n)) x) as E.
  replace (Z.of_nat (S n) - 1)%Z with (Z.of_nat n) in E by lia. replace (Z.of_nat (S n) + 1)%Z with (Z.of_nat (S (S n))) in E by lia.
  rewrite A, B in E. nra.
Qed.

Lemma every_harmonic jv n e : (forall k x, jv k (Fin x) = Fin (besselJ k x)) -> (1 <= n)%Z -> 0 < e < 1 ->
  exists g, peters_g jv n (Fin e) = Fin g /\ 0 < g.
Proof.
  intros HJ Hn He. destruct (published_g jv n e HJ Hn ltac:(lra)) as (D & HD & G). pose proof (IZR_le 1 n Hn) as Pn.
  eexists. split; [exact G|]. set (J := besselJ n (IZR n * e)) in *.
  assert (ED : D = (besselJ (n - 1) (IZR n * e) - besselJ (n + 1) (IZR n * e)) / 2).
  { rewrite <- (is_derive_unique _ _ _ HD). apply is_derive_unique, besselJ_derive. }
  unfold harmonic_power. apply Rmult_lt_0_compat; [apply Rmult_lt_0_compat; [apply pow_lt; lra|lra]|].
  pose proof (pow2_ge_0 (4 * D * (1 - e ^ 2) / e - 2 * J * (2 - e ^ 2) / (IZR n * e ^ 2))) as Q1.
  assert (E2 : 0 < 1 - e ^ 2) by nra.
  assert (Q2 : 0 <= (1 - e ^ 2) * (4 * J * (1 - e ^ 2) / e ^ 2 - 4 * D / (IZR n * e)) ^ 2) by (apply Rmult_le_pos; [lra|apply pow2_ge_0]).
  assert (N2 : 0 < / (3 * IZR n ^ 2)) by (apply Rinv_0_lt_compat; nra).
  destruct (Req_dec J 0) as [Z|Z].
  - assert (D0 : D <> 0).
    { intros D0. pose proof (bessel_recurrence n (IZR n * e)) as R0. fold J in R0. rewrite Z in R0.
      assert (X : 0 < IZR n * e) by nra. assert (A : besselJ (n - 1) (IZR n * e) = 0) by (rewrite D0 in ED; nra).
      apply (neighbours_not_zero (Z.to_nat (n - 1)) (IZR n * e) X).
      - rewrite Z2Nat.id by lia. exact A.
      - replace (Z.of_nat (S (Z.to_nat (n - 1)))) with n by lia. exact Z. }
    assert (0 < (1 - e ^ 2) * (4 * J * (1 - e ^ 2) / e ^ 2 - 4 * D / (IZR n * e)) ^ 2).
    { apply Rmult_lt_0_compat; [exact E2|]. rewrite Z. replace ((4 * 0 * (1 - e ^ 2) / e ^ 2 - 4 * D / (IZR n * e)) ^ 2) with ((4 * D / (IZR n * e)) ^ 2) by (field; lra).
      apply pow2_gt_0. intros Q. apply D0. apply (Rmult_eq_reg_r (4 / (IZR n * e))).
      - rewrite Rmult_0_l, <- Q. field. lra.
      - apply Rmult_integral_contrapositive_currified; [lra|]. apply Rinv_neq_0_compat. nra. }
    assert (0 <= 4 * J ^ 2 / (3 * IZR n ^ 2)) by (unfold Rdiv; apply Rmult_le_pos; [pose proof (pow2_ge_0 J); lra|lra]). lra.
  - assert (0 < 4 * J ^ 2 / (3 * IZR n ^ 2)) by (unfold Rdiv; apply Rmult_lt_0_compat; [pose proof (pow2_gt_0 J Z); lra|lra]). lra.
Qed.
