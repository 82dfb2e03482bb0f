(** FloatIEEE.v -- rounding to nearest even with 53 bits, as specified by Flocq, is [ieee] double precision. *)
From Coq Require Import Reals ZArith List Lra Lia.
From Flocq Require Import Core Relative.
From Verif Require Import Num Float FloatSpec FloatFacts.
Open Scope R_scope.

Definition binary64 : R -> R := round radix2 (FLT_exp (-1074) 53) ZnearestE.
(** binary64 with a correctly rounded pow and cos (for negative numbers pow is the square). *)
Definition flocq : doubles :=
  mkDoubles binary64 (fun x y => if Req_EM_T x 0 then 0 else if Rlt_dec x 0 then binary64 (x * x) else binary64 (Rpower x y)) (fun x => binary64 (cos x)).
Lemma binary64_error x : within 1022 (Rabs x) -> Rabs (binary64 x - x) <= Rpower 2 (- 53) * Rabs x.
Proof.
  intros (L & _). unfold binary64. eapply Rle_trans; [apply relative_error_N_FLT; [reflexivity|]|].
  - apply Rle_trans with (2 := L). change (bpow radix2 (-1074 + 53 - 1)) with (bpow radix2 (- 1022)). rewrite bpow_powerRZ. rewrite powerRZ_Rpower by (cbn; lra). right. reflexivity.
  - apply Rmult_le_compat_r; [apply Rabs_pos|]. change (- (53) + 1)%Z with (- 52)%Z. rewrite bpow_powerRZ. rewrite powerRZ_Rpower by (cbn; lra).
    replace (IZR radix2) with 2 by reflexivity. rewrite half_eps. rewrite eps_def. lra.
Qed.
Lemma binary64_int z : (Z.abs z < 2 ^ 53)%Z -> binary64 (IZR z) = IZR z.
Proof.
  intros H. unfold binary64. apply round_generic; [apply valid_rnd_N|]. apply generic_format_FLT. exists (Float radix2 z 0); [unfold F2R; cbn; lra|exact H|cbn; lia].
Qed.
Lemma bpow_Rpower e : bpow radix2 e = Rpower 2 (IZR e).
Proof. rewrite bpow_powerRZ. rewrite powerRZ_Rpower by (cbn; lra). reflexivity. Qed.
Lemma binary64_underflow x : Rabs (binary64 x - x) <= Rpower 2 (- 53) * Rabs x + Rpower 2 (- 1075).
Proof.
  unfold binary64. destruct (error_N_FLT radix2 (-1074) 53 eq_refl (fun z => negb (Z.even z)) x) as (e & h & E & H & _ & ->).
  rewrite bpow_Rpower in E, H. replace (x * (1 + e) + h - x) with (e * x + h) by ring. eapply Rle_trans; [apply Rabs_triang|]. rewrite Rabs_mult. pose proof (Rabs_pos x).
  assert (E' : / 2 * Rpower 2 (IZR (- (53) + 1)) = Rpower 2 (- 53)).
  { replace (- 53) with (IZR (- (53) + 1) + - (1)) by (cbn; lra). rewrite Rpower_plus, (Rpower_Ropp 2 1), Rpower_1 by lra. ring. }
  assert (H' : / 2 * Rpower 2 (IZR (-1074)) = Rpower 2 (- 1075)).
  { replace (- 1075) with (IZR (-1074) + - (1)) by (cbn; lra). rewrite Rpower_plus, (Rpower_Ropp 2 1), Rpower_1 by lra. ring. }
  rewrite E' in E. rewrite H' in H. apply Rplus_le_compat; [now apply Rmult_le_compat_r|exact H].
Qed.
Lemma binary64_dyadic z k : (Z.abs z < 2 ^ 53)%Z -> (k <= 1000)%nat -> binary64 (IZR z / 2 ^ k) = IZR z / 2 ^ k.
Proof.
  intros H K. unfold binary64. apply round_generic; [apply valid_rnd_N|]. apply generic_format_FLT. exists (Float radix2 z (- Z.of_nat k)); [|exact H|cbn; lia].
  unfold F2R. cbn [Fnum Fexp]. rewrite bpow_opp. rewrite bpow_powerRZ. rewrite <- pow_powerRZ. reflexivity.
Qed.
Lemma Rpower_2 x : 0 < x -> Rpower x 2 = x ^ 2.
Proof. intros X. rewrite <- Rpower_pow by exact X. reflexivity. Qed.
Lemma tiny_1075 : Rpower 2 (- 1075) <= Rpower 2 (- 1022) /\ Rpower 2 (- 1075) <= eps / 4.
Proof.
  split; [apply Rle_Rpower; lra|]. apply Rle_trans with (Rpower 2 (- 54)); [apply Rle_Rpower; lra|]. right.
  replace (- 54) with (- 53 + - (1)) by lra. rewrite Rpower_plus, (Rpower_Ropp 2 1), Rpower_1, half_eps by lra. field.
Qed.
Lemma flocq_ieee : ieee flocq.
Proof.
  pose proof tiny_1075 as (T1 & T2). pose proof eps_pos as E0.
  split; [exact binary64_error|]. split; [exact binary64_int|]. split; [|split; [|split; [|split; [|split; [|split; [|split]]]]]]; cbn [pow_ cos_ rnd flocq].
  - intros x y X W. destruct (Req_EM_T x 0) as [E|_]; [lra|]. destruct (Rlt_dec x 0) as [E|_]; [lra|]. assert (P : 0 < Rpower x y) by apply exp_pos.
    assert (B : Rabs (binary64 (Rpower x y) - Rpower x y) <= Rpower 2 (- 53) * Rabs (Rpower x y)) by (apply binary64_error; now rewrite Rabs_right by lra).
    rewrite (Rabs_right (Rpower x y)) in B by lra. rewrite half_eps in B. rewrite eps_def. nra.
  - intros y _. destruct (Req_EM_T 0 0) as [_|N]; [reflexivity|now destruct N].
  - intros y. destruct (Req_EM_T 1 0) as [E|_]; [lra|]. destruct (Rlt_dec 1 0) as [E|_]; [lra|]. unfold Rpower. rewrite ln_1, Rmult_0_r, exp_0. apply (binary64_int 1). reflexivity.
  - intros x X. assert (F : Rpower 2 (- 50) = 4 * eps).
    { rewrite <- eps_def. replace (- 50) with (2 + - 52) by lra. rewrite Rpower_plus. rewrite Rpower_2 by lra. ring. }
    assert (Q : Rabs (binary64 (x ^ 2) - x ^ 2) <= Rpower 2 (- 50)).
    { eapply Rle_trans; [apply binary64_underflow|]. rewrite half_eps, F. assert (x ^ 2 <= 4) by (apply Rabs_le_inv in X; nra). pose proof (pow2_ge_0 x). rewrite Rabs_right by lra. nra. }
    destruct (Req_EM_T x 0) as [->|N]. { rewrite F. replace (0 - 0 ^ 2) with 0 by ring. rewrite Rabs_R0. lra. }
    destruct (Rlt_dec x 0) as [L|L]. { now replace (x * x) with (x ^ 2) by ring. }
    now rewrite Rpower_2 by lra.
  - intros x _. eapply Rle_trans; [apply binary64_underflow|]. rewrite half_eps, eps_def. pose proof (COS_bound x). assert (Rabs (cos x) <= 1) by (apply Rabs_le; lra). nra.
  - intros x _. pose proof (binary64_underflow x). lra.
  - intros x y X _. destruct (Req_EM_T x 0) as [E|_]; [lra|]. destruct (Rlt_dec x 0) as [E|_]; [lra|]. assert (P : 0 < Rpower x y) by apply exp_pos.
    pose proof (binary64_underflow (Rpower x y)) as B. rewrite (Rabs_right (Rpower x y)) in B by lra. rewrite half_eps in B. rewrite eps_def. nra.
  - exact binary64_dyadic.
Qed.
