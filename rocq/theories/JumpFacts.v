(** JumpFacts.v -- the jump of merger times at the large tolerance (C117). *)
From Coq Require Import Reals ZArith QArith Qreals List Bool Lra Lia.
From Verif Require Import Num NumFacts Utils Spec UtilsFacts Evol EvolSpec EvolFacts MergeFacts CircFacts PosCheck
  AccuracyFacts AccuracySpec FitFacts AccuracyThms MonoFacts.
Import ListNotations.
Open Scope R_scope.

Lemma tlgR_sq b a e : 0 < b -> 0 < a -> 0 < e < 1 -> tlgR b a e = tmR b a * (768/425 * sq e ^ 7).
Proof.
  intros Hb Ha He. rewrite tlgR_alt by assumption. f_equal. f_equal. assert (P : 0 < 1 - e ^ 2) by nra. unfold sq.
  rewrite <- Rpower_sqrt by exact P. rewrite <- (Rpower_pow 7 (Rpower (1 - e ^ 2) (/ 2))) by (apply exp_pos). rewrite Rpower_mult. f_equal. cbn. lra.
Qed.
(** Peters' integral at 1 - 1/10000 is 1.8 % below the approximation. *)
Lemma pr_at_tolerance e : e = 1 - 1/10000 -> pr e <= 981/1000 * (768/425).
Proof.
  intros E. assert (He : 0 < e < 1) by lra. destruct (pr_mid e He) as (_ & U). eapply Rle_trans; [exact U|].
  pose proof (sq_pos e ltac:(lra)) as S0. pose proof (sq_2 e ltac:(lra)) as S2. set (s := sq e) in *. assert (V : s ^ 2 = 19999/100000000) by (rewrite S2, E; field).
  assert (S1 : 1414/100000 <= s <= 1415/100000) by (split; nra).
  cbn [pev p_mid]. rewrite !Q2R_frac.
  assert (A : s * (s * (-418121/100000 + s * (379983/100000 + s * (-43387/20000 + s * (1487/2500 + s * 0))))) <= 0).
  { assert (B : -418121/100000 + s * (379983/100000 + s * (-43387/20000 + s * (1487/2500 + s * 0))) <= 0) by nra. nra. }
  nra.
Qed.
Lemma jump_large b a e e' : 0 < b -> 0 < a -> e = 1 - 1/10000 -> 1 - 1/10000 < e' <= 1 - 995/10000000 -> 0 < texR b a e < tlgR b a e'.
Proof.
  intros Hb Ha E He'. assert (He : 0 < e < 1) by lra. pose proof (tmR_pos b a Hb Ha) as T. pose proof (pr_at_tolerance e E) as U. rewrite texR_pr, tlgR_sq by (auto; lra).
  pose proof (sq_pos e ltac:(lra)) as S0. pose proof (sq_2 e ltac:(lra)) as S2. pose proof (sq_pos e' ltac:(lra)) as S0'. pose proof (sq_2 e' ltac:(lra)) as S2'.
  set (s := sq e) in *. set (s' := sq e') in *.
  assert (R2 : 995/1000 * s ^ 2 <= s' ^ 2) by (rewrite S2, S2', E; nra).
  assert (R1 : 997/1000 * s <= s'). { apply Rnot_lt_le. intros L. nra. }
  assert (P : 0 < pr e). { unfold pr. apply Rdiv_lt_0_compat; [now apply I514_pos|]. apply Rmult_lt_0_compat; [now apply P4_pos|now apply pow_lt]. }
  assert (Q : 982/1000 * s ^ 7 <= s' ^ 7).
  { assert (Q6 : (995/1000 * s ^ 2) ^ 3 <= (s' ^ 2) ^ 3) by (apply pow_incr; split; [pose proof (pow_lt s 2 S0); lra|exact R2]).
    replace (s' ^ 7) with ((s' ^ 2) ^ 3 * s') by ring. pose proof (pow_lt s 7 S0). pose proof (pow_lt s 6 S0).
    apply Rle_trans with ((995/1000 * s ^ 2) ^ 3 * (997/1000 * s)); [|apply Rmult_le_compat; [|lra|exact Q6|exact R1]; apply pow_le; pose proof (pow_lt s 2 S0); lra].
    replace ((995/1000 * s ^ 2) ^ 3 * (997/1000 * s)) with ((995/1000) ^ 3 * (997/1000) * s ^ 7) by ring. apply Rmult_le_compat_r; lra. }
  pose proof (pow_lt s 7 S0) as S7. split; [apply Rmult_lt_0_compat; [exact T|now apply Rmult_lt_0_compat]|]. apply Rmult_lt_compat_l; [exact T|].
  apply Rle_lt_trans with (s ^ 7 * (981/1000 * (768/425))); [apply Rmult_le_compat_l; lra|]. nra.
Qed.
Lemma merger_jump_large quad m1 m2 a e : quad_exact quad -> 0 < m1 -> 0 < m2 -> 0 < a -> 1 - 1/10000 < e <= 1 - 995/10000000 ->
  exists t t', merger_time quad m1 m2 a (1 - 1/10000) small_e_tol_default large_e_tol_default true = Ok (Fin t) /\
    merger_time quad m1 m2 a e small_e_tol_default large_e_tol_default true = Ok (Fin t') /\ 0 < t < t'.
Proof.
  intros HQ H1 H2 Ha He. pose proof (betaR_pos m1 m2 H1 H2) as Hb. unfold small_e_tol_default, large_e_tol_default.
  rewrite (merger_exact quad m1 m2 a HQ H1 H2 (1 - 1/10000)) by lra. rewrite (merger_large quad m1 m2 a H1 H2 e) by lra.
  do 2 eexists. split; [reflexivity|]. split; [reflexivity|]. now apply jump_large.
Qed.
