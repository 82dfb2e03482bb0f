(** FloatEvol.v -- circular evolution in double precision. *)
From Coq Require Import Reals ZArith List Lra Lia Bool.
From Flocq Require Import Core.
From Verif Require Import Num NumFacts Np Utils Evol EvolFacts Float FloatSpec FloatFacts FloatThms FloatNoise FloatIEEE.
Import ListNotations.
Open Scope R_scope.

Section Evolution.
Variable d : doubles.
Hypothesis I : ieee d.
Lemma t_merge_accurate beta a : within 420 beta -> within 110 a ->
  exists x, t_merge_circ_elem (Fin beta) (Fin a) = Fin x /\ 0 < x /\ accurate (/ 10 ^ 14) x (computed d (args [beta; a]) t_merge_ex).
Proof.
  intros B A. exists (exact (args [beta; a]) t_merge_ex).
  assert (W : well (args [beta; a]) (args [beta; a]) (ws [420; 110]) none t_merge_ex) by (unfold t_merge_ex; checks).
  destruct (conclude d I _ _ _ _ _ (/ 10 ^ 14) 20 W) as (P & M & C); [unfold t_merge_ex; checks|rewrite eps_pow; lra|lra|].
  split; [exact M|]. now split.
Qed.
Lemma rnd_quarter : rnd d (1 / 4) = 1 / 4.
Proof. destruct I as (_ & _ & _ & _ & _ & _ & _ & _ & _ & H). replace (1 / 4) with (IZR 1 / 2 ^ 2) by lra. apply (H 1%Z 2%nat); [reflexivity|lia]. Qed.
(** The first entry. *)
Lemma start_accurate beta a : within 110 a -> accurate (/ 10 ^ 13) a (circ_a_computed d beta a 0).
Proof.
  intros A. assert (A0 : 0 < a) by (now apply ln_within in A). pose proof pow20 as (P1 & P2).
  assert (N : inv 3 443 (Rpower a (4 / 1)) (rnd d (pow_ d a (rnd d (4 / 1))))).
  { assert (Q : inv (2 + Rabs (4 / 1) * (0 + 0)) (Rabs (4 / 1) * 110 + 1) (Rpower a (4 / 1)) (pow_ d a (rnd d (4 / 1)))).
    { apply (pow_inv d 0 110 a a 4 1 I); [now apply exact_input|lra| |]; rewrite Rabs_right by lra; rewrite ?P1, ?P2; lra. }
    rewrite Rabs_right in Q by lra. replace 3 with (2 + 4 / 1 * (0 + 0) + 1) by lra. apply (inv_weaken (2 + 4 / 1 * (0 + 0) + 1) (4 / 1 * 110 + 1 + 1)); [|lra|lra]. apply round_inv; [exact I|exact Q|lra]. }
  unfold circ_a_computed. replace (computed d (args [beta; a; 0]) difference_ex) with (rnd d (pow_ d a (rnd d (4 / 1)))).
  - assert (Y : 0 < rnd d (pow_ d a (rnd d (4 / 1)))) by apply N. destruct (Rle_dec _ 0) as [L|_]; [lra|].
    assert (Q : inv (2 + Rabs (1 / 4) * (3 + 443 / 2)) (Rabs (1 / 4) * 443 + 1) (Rpower (Rpower a (4 / 1)) (1 / 4)) (pow_ d (rnd d (pow_ d a (rnd d (4 / 1)))) (rnd d (1 / 4)))).
    { apply (pow_inv d 3 443 _ _ 1 4 I N); [lra| |]; rewrite Rabs_right by lra; rewrite ?P1, ?P2; lra. }
    rewrite Rpower_mult in Q. replace (4 / 1 * (1 / 4)) with 1 in Q by lra. rewrite Rpower_1 in Q by exact A0. destruct Q as (Q & _). rewrite (Rabs_right (1 / 4)) in Q by lra.
    apply (near_relative _ _ _ _ Q); rewrite eps_pow; lra.
  - cbn [computed difference_ex args nth]. rewrite Rmult_0_r. replace (rnd d 0) with 0 by (symmetry; apply (rnd_int d I 0); reflexivity). now rewrite Rminus_0_r.
Qed.
(** Before the merger the error grows with the inverse of the fraction of the merger time that is left. *)
Lemma separation_accurate beta a t : within 420 beta -> within 110 a -> within 200 t -> Rpower 2 (- 30) <= 1 - t / (a ^ 4 / (4 * beta)) ->
  exists x, circ_a_elem (Fin a) (Fin beta) (Fin t) = Fin x /\ 0 < x /\ accurate (/ 10 ^ 13 / (1 - t / (a ^ 4 / (4 * beta)))) x (circ_a_computed d beta a t).
Proof.
  intros B A T Z. assert (A0 : 0 < a) by (now apply ln_within in A). assert (B0 : 0 < beta) by (now apply ln_within in B). assert (T0 : 0 < t) by (now apply ln_within in T).
  pose proof eps_pos as E0. pose proof eps_small as E1. pose proof ln_2 as L2. pose proof pow20 as (P1 & P2).
  assert (A4 : Rpower a (4 / 1) = a ^ 4). { rewrite Rdiv_1_r. rewrite <- Rpower_pow by exact A0. f_equal. cbn. lra. }
  assert (A40 : 0 < a ^ 4) by (now apply pow_lt).
  set (r := 1 - t / (a ^ 4 / (4 * beta))) in *. assert (R0 : 0 < Rpower 2 (- 30)) by apply exp_pos.
  assert (RD : a ^ 4 - 4 * beta * t = r * a ^ 4) by (unfold r; field; split; lra).
  assert (R1 : r < 1). { assert (0 < t / (a ^ 4 / (4 * beta))) by (apply Rdiv_lt_0_compat; [exact T0|apply Rdiv_lt_0_compat; lra]). unfold r. lra. }
  assert (Z' : Rpower 2 (- 30) = / 2 ^ 30). { replace (- 30) with (- (30)) by lra. rewrite Rpower_Ropp. f_equal. replace 30 with (INR 30) by (cbn; lra). now rewrite Rpower_pow by lra. }
  assert (IR : 1 <= / r <= 2 ^ 30). { split; [rewrite <- Rinv_1 at 1; apply Rinv_le_contravar; lra|]. rewrite <- (Rinv_inv (2 ^ 30)). apply Rinv_le_contravar; lra. }
  assert (LN : Rabs (ln (r * a ^ 4)) <= 470 * ln 2).
  { rewrite ln_mult by lra. apply ln_within in A. destruct A as (_ & A). assert (L4 : ln (a ^ 4) = 4 * ln a). { rewrite <- A4. unfold Rpower. rewrite ln_exp. lra. }
    assert (LR : Rabs (ln r) <= 30 * ln 2). { apply ln_within. split; [exact Z|]. apply Rle_trans with 1; [lra|]. replace 30 with (INR 30) by (cbn; lra). rewrite Rpower_pow by lra. lra. }
    rewrite L4. apply Rabs_le_inv in A. apply Rabs_le_inv in LR. apply Rabs_le. lra. }
  assert (LN' : Rabs (ln (a ^ 4 - 4 * beta * t)) / ln 2 <= 470). { rewrite RD. apply Rmult_le_reg_r with (ln 2); [lra|]. unfold Rdiv. rewrite Rmult_assoc, Rinv_l, Rmult_1_r by lra. exact LN. }
  set (v := args [beta; a; t]). set (D := / r) in *.
  assert (CS : (2 * a ^ 4 + 2 * (4 * beta * t)) / (a ^ 4 - 4 * beta * t) <= 4 * D).
  { rewrite RD. unfold Rdiv. rewrite Rinv_mult. fold D. assert (4 * beta * t <= a ^ 4) by nra. apply Rmult_le_reg_r with (a ^ 4); [exact A40|].
    replace ((2 * a ^ 4 + 2 * (4 * beta * t)) * (D * / a ^ 4) * a ^ 4) with (D * (2 * a ^ 4 + 2 * (4 * beta * t))) by (field; lra). nra. }
  assert (W : well v v (ws [420; 110; 200]) none difference_ex).
  { unfold v, difference_ex. checks; rewrite ?A4; try nra. }
  assert (N : inv (17 * D) 473 (r * a ^ 4) (computed d v difference_ex)).
  { rewrite <- RD. replace (a ^ 4 - 4 * beta * t) with (exact v difference_ex) by (cbn [exact difference_ex v args nth]; now rewrite A4).
    apply (inv_weaken _ _ _ _ _ _ (computed_inv _ _ _ _ d I _ W)); unfold v, difference_ex; checks; rewrite ?A4; try lra. }
  rewrite circ_a_fin. exists (acR a beta t). split; [reflexivity|]. unfold acR. rewrite RD. assert (RA : 0 < r * a ^ 4) by nra.
  destruct (Rle_dec (r * a ^ 4) 0) as [L|_]; [lra|]. split; [apply exp_pos|].
  assert (Y : 0 < computed d v difference_ex) by apply N. unfold circ_a_computed. fold v. destruct (Rle_dec _ 0) as [L|_]; [lra|].
  assert (Q : inv (2 + Rabs (1 / 4) * (17 * D + 473 / 2)) (Rabs (1 / 4) * 473 + 1) (Rpower (r * a ^ 4) (1 / 4)) (pow_ d (computed d v difference_ex) (rnd d (1 / 4)))).
  { apply (pow_inv d (17 * D) 473 _ _ 1 4 I N); [lra| |]; rewrite Rabs_right by lra; rewrite ?P1, ?P2; lra. }
  destruct Q as (Q & _). rewrite (Rabs_right (1 / 4)) in Q by lra. unfold Rdiv at 1. fold D. apply (near_relative _ _ _ _ Q); rewrite eps_pow; lra.
Qed.
(** Evolved to its merger time a binary ends at a separation that is small, though not necessarily 0. *)
Lemma last_accurate beta a : within 420 beta -> within 110 a ->
  Rabs (circ_a_computed d beta a (computed d (args [beta; a]) last_time_ex)) <= a / 1000.
Proof.
  intros B A. assert (A0 : 0 < a) by (now apply ln_within in A). assert (B0 : 0 < beta) by (now apply ln_within in B).
  pose proof eps_pos as E0. pose proof eps_small as E1. pose proof ln_2 as L2.
  assert (A4 : Rpower a (4 / 1) = a ^ 4). { rewrite Rdiv_1_r. rewrite <- Rpower_pow by exact A0. f_equal. cbn. lra. }
  assert (A40 : 0 < a ^ 4) by (now apply pow_lt). assert (A4W : within 440 (a ^ 4)).
  { apply within_ln; [exact A40|]. rewrite <- A4. unfold Rpower. rewrite ln_exp. apply ln_within in A. destruct A as (_ & A). apply Rabs_le_inv in A. apply Rabs_le. lra. }
  set (t := computed d (args [beta; a]) last_time_ex).
  assert (W : well (args [beta; a]) (args [beta; a]) (ws [420; 110]) none last_time_ex) by (unfold last_time_ex, t_merge_ex, gyr_s; checks).
  assert (T : inv 8 999 (exact (args [beta; a]) last_time_ex) t).
  { apply (inv_weaken _ _ _ _ _ _ (computed_inv _ _ _ _ d I _ W)); unfold last_time_ex, t_merge_ex, gyr_s; checks. }
  assert (TE : exact (args [beta; a]) last_time_ex = a ^ 4 / (4 * beta)).
  { unfold last_time_ex, t_merge_ex, gyr_s. cbn [exact args nth]. rewrite A4. field. lra. }
  rewrite TE in T.
  assert (Q : inv 1 500 (4 * beta) (rnd d (4 * beta))).
  { replace 1 with (0 + 1) by lra. replace 500 with (499 + 1) by lra. apply round_inv; [exact I| |lra]. apply (inv_weaken 0 423); [|lra|lra]. apply exact_input. apply within_ln; [lra|]. rewrite ln_mult by lra.
    apply ln_within in B. destruct B as (_ & B). apply Rabs_le_inv in B. replace (ln 4) with (2 * ln 2); [apply Rabs_le; lra|]. replace 4 with (2 * 2) by lra. rewrite ln_mult by lra. lra. }
  assert (M : inv 9 450 (a ^ 4) (rnd d (4 * beta) * t)).
  { destruct (mul_inv _ _ _ _ _ _ _ _ Q T) as (M & _). replace (4 * beta * (a ^ 4 / (4 * beta))) with (a ^ 4) in M by (field; lra). split; [replace 9 with (1 + 8) by lra; exact M|].
    apply ln_within in A4W. destruct M as (_ & _ & M), A4W as (_ & A4W). apply Rabs_le_inv in M. apply Rabs_le_inv in A4W. apply Rabs_le. lra. }
  apply (round_inv d) in M; [|exact I|lra].
  assert (P : inv 2 450 (a ^ 4) (pow_ d a (rnd d (4 / 1)))).
  { rewrite <- A4. pose proof pow20 as (P1 & P2). apply (inv_weaken (2 + Rabs (4 / 1) * (0 + 0)) (Rabs (4 / 1) * 110 + 1)); [|rewrite Rabs_right; lra|rewrite Rabs_right; lra].
    apply (pow_inv d 0 110 a a 4 1 I); [now apply exact_input|lra| |]; rewrite Rabs_right by lra; rewrite ?P1, ?P2; lra. }
  set (x := pow_ d a (rnd d (4 / 1))) in *. set (y := rnd d (rnd d (4 * beta) * t)) in *.
  assert (X : accurate (4 * eps) (a ^ 4) x) by (apply (near_relative 2); [apply P|lra|lra]). assert (Y : accurate (20 * eps) (a ^ 4) y) by (apply (near_relative (9 + 1)); [apply M|lra|lra]).
  unfold accurate in X, Y. rewrite (Rabs_right (a ^ 4)) in X, Y by lra.
  assert (D : Rabs (x - y) <= 24 * eps * a ^ 4). { replace (x - y) with ((x - a ^ 4) + - (y - a ^ 4)) by ring. eapply Rle_trans; [apply Rabs_triang|]. rewrite Rabs_Ropp. lra. }
  destruct I as (_ & _ & _ & Z0 & _ & _ & _ & RU & PU & _). rewrite half_eps in RU. rewrite eps_def in PU.
  assert (U : Rpower 2 (- 1022) <= eps * a ^ 4 /\ Rpower 2 (- 1022) <= a / 10000).
  { split.
    - destruct A4W as (L & _). apply Rle_trans with (Rpower 2 (- 52 + - 440)); [apply Rle_Rpower; lra|]. rewrite Rpower_plus, eps_def. apply Rmult_le_compat_l; [lra|exact L].
    - destruct A as (L & _). apply Rle_trans with (Rpower 2 (- 52 + - 110)); [apply Rle_Rpower; lra|]. rewrite Rpower_plus, eps_def. assert (0 < Rpower 2 (- 110)) by apply exp_pos. assert (L' : Rpower 2 (- 110) <= a) by exact L. apply Rle_trans with (/ 10000 * Rpower 2 (- 110)); [apply Rmult_le_compat_r; lra|lra]. }
  destruct U as (U1 & U2).
  assert (R : Rabs (rnd d (x - y)) <= 40 * eps * a ^ 4).
  { assert (B1 : Rabs (x - y) <= Rpower 2 1022). { apply Rle_trans with (1 := D). destruct A4W as (_ & L). apply Rle_trans with (Rpower 2 440); [|apply Rle_Rpower; lra]. apply Rle_trans with (1 * a ^ 4); [apply Rmult_le_compat_r; lra|lra]. }
    apply RU in B1. replace (rnd d (x - y)) with ((rnd d (x - y) - (x - y)) + (x - y)) by ring. eapply Rle_trans; [apply Rabs_triang|]. pose proof (Rabs_pos (x - y)).
    assert (eps / 2 * Rabs (x - y) <= Rabs (x - y) / 2) by nra. assert (EA : 0 < eps * a ^ 4) by (now apply Rmult_lt_0_compat). lra. }
  unfold circ_a_computed. change (computed d (args [beta; a; t]) difference_ex) with (rnd d (x - y)). set (z := rnd d (x - y)) in *.
  rewrite (rnd_quarter). destruct (Rle_dec z 0) as [L|L]; [rewrite Z0 by lra; rewrite Rabs_R0; lra|]. assert (Zp : 0 < z) by lra. rewrite Rabs_right in R by lra.
  assert (S : Rpower z (1 / 4) <= a / 2000).
  { apply Rle_trans with (Rpower (Rpower (a / 2000) 4) (1 / 4)).
    - apply Rle_Rpower_l; [lra|]. split; [exact Zp|]. replace (Rpower (a / 2000) 4) with ((a / 2000) ^ 4) by (rewrite <- Rpower_pow by lra; f_equal; cbn; lra).
      replace ((a / 2000) ^ 4) with (a ^ 4 / 16000000000000) by field. nra.
    - rewrite Rpower_mult. replace (4 * (1 / 4)) with 1 by lra. rewrite Rpower_1 by lra. lra. }
  assert (SP : 0 < Rpower z (1 / 4)) by apply exp_pos.
  assert (SB : Rpower z (1 / 4) <= Rpower 2 1022). { destruct A as (_ & L'). apply Rle_trans with (1 := S). apply Rle_trans with (Rpower 2 110); [lra|apply Rle_Rpower; lra]. }
  apply (PU z (1 / 4) Zp) in SB. apply Rabs_le_inv in SB. apply Rabs_le. nra.
Qed.
End Evolution.

(** *** A binary that does not merge at its merger time *)
Lemma binary64_up x m n : (0 <= n)%Z -> IZR (2 ^ (52 + n)) <= x < IZR (2 ^ (53 + n)) -> Rabs (x / IZR (2 ^ n) - IZR m) < / 2 -> binary64 x = IZR m * IZR (2 ^ n).
Proof.
  intros N B H. unfold binary64, round, scaled_mantissa.
  assert (C : cexp radix2 (FLT_exp (-1074) 53) x = n).
  { unfold cexp. rewrite (mag_unique radix2 x (53 + n)).
    - unfold FLT_exp. lia.
    - assert (0 < IZR (2 ^ (52 + n))) by (apply IZR_lt, Z.pow_pos_nonneg; lia). rewrite Rabs_right by lra. rewrite <- !(IZR_Zpower radix2) by lia. replace (53 + n - 1)%Z with (52 + n)%Z by lia. exact B. }
  rewrite C. rewrite bpow_opp, <- (IZR_Zpower radix2) by lia. unfold F2R. cbn [Fnum Fexp]. rewrite <- (IZR_Zpower radix2) by lia. change (radix_val radix2) with 2%Z.
  f_equal. f_equal. now apply Znearest_imp.
Qed.
Lemma binary64_down x m n : (0 <= n <= 1074)%Z -> IZR (2 ^ 52) <= x * IZR (2 ^ n) < IZR (2 ^ 53) -> Rabs (x * IZR (2 ^ n) - IZR m) < / 2 -> binary64 x = IZR m / IZR (2 ^ n).
Proof.
  intros N B H. unfold binary64, round, scaled_mantissa. assert (P : 0 < IZR (2 ^ n)) by (apply IZR_lt, Z.pow_pos_nonneg; lia).
  assert (X : x = x * IZR (2 ^ n) * bpow radix2 (- n)). { rewrite bpow_opp, <- (IZR_Zpower radix2) by lia. change (radix_val radix2) with 2%Z. field. lra. }
  assert (Q : 0 < bpow radix2 (- n)) by apply bpow_gt_0.
  assert (C : cexp radix2 (FLT_exp (-1074) 53) x = (- n)%Z).
  { unfold cexp. rewrite (mag_unique radix2 x (53 - n)).
    - unfold FLT_exp. lia.
    - rewrite X. rewrite (Rabs_right (_ * _)) by (apply Rle_ge, Rmult_le_pos; lra).
      replace (53 - n - 1)%Z with (52 + - n)%Z by lia. replace (53 - n)%Z with (53 + - n)%Z by lia. rewrite !bpow_plus. rewrite <- (IZR_Zpower radix2 52), <- (IZR_Zpower radix2 53) by lia.
      change (radix_val radix2) with 2%Z. split; [apply Rmult_le_compat_r; lra|apply Rmult_lt_compat_r; lra]. }
  rewrite C, Z.opp_involutive. rewrite <- (IZR_Zpower radix2) by lia. unfold F2R. cbn [Fnum Fexp]. rewrite bpow_opp, <- (IZR_Zpower radix2) by lia. change (radix_val radix2) with 2%Z.
  unfold Rdiv. f_equal. f_equal. now apply Znearest_imp.
Qed.
Ltac nums := repeat match goal with |- context [(2 ^ ?k)%Z] => let r := eval vm_compute in (2 ^ k)%Z in change (2 ^ k)%Z with r end.
Ltac value := nums; repeat split; try lia; try lra; apply Rabs_def1; lra.
Definition witness_beta : R := 23000000000000000000.
Definition witness_a : R := 1000000000.
Lemma Rpower_4 x : 0 < x -> Rpower x 4 = x ^ 4.
Proof. intros X. rewrite <- Rpower_pow by exact X. f_equal. cbn. lra. Qed.
Lemma witness_time : computed flocq (args [witness_beta; witness_a]) last_time_ex = 10869565217391304.
Proof.
  unfold last_time_ex, t_merge_ex, gyr_s, witness_beta, witness_a. cbn [computed args nth flocq rnd pow_]. rewrite Rdiv_1_r. replace (binary64 4) with 4 by (symmetry; apply (binary64_int 4); reflexivity).
  destruct (Req_EM_T 1000000000 0) as [E|_]; [lra|]. destruct (Rlt_dec 1000000000 0) as [E|_]; [lra|]. rewrite Rpower_4 by lra.
  rewrite (binary64_up (1000000000 ^ 4) 6776263578034403 67) by value.
  rewrite (binary64_up (4 * 23000000000000000000) 5615234375000000 14) by value.
  rewrite (binary64_up (_ / _) 5434782608695652 1) by value.
  rewrite (binary64_down (1 / _) 5141686212804946 107) by value.
  rewrite (binary64_down (_ * (_ / _)) 6204802629188884 54) by value.
  rewrite (binary64_up (_ / _ * _) 5434782608695652 1) by value.
  nums. lra.
Qed.
Lemma witness_difference : computed flocq (args [witness_beta; witness_a; 10869565217391304]) difference_ex = 147573952589676412928.
Proof.
  unfold difference_ex, witness_beta, witness_a. cbn [computed args nth flocq rnd pow_]. rewrite Rdiv_1_r. replace (binary64 4) with 4 by (symmetry; apply (binary64_int 4); reflexivity).
  destruct (Req_EM_T 1000000000 0) as [E|_]; [lra|]. destruct (Rlt_dec 1000000000 0) as [E|_]; [lra|]. rewrite Rpower_4 by lra.
  rewrite (binary64_up (1000000000 ^ 4) 6776263578034403 67) by value.
  rewrite (binary64_up (4 * 23000000000000000000) 5615234375000000 14) by value.
  rewrite (binary64_up (_ * 10869565217391304) 6776263578034402 67) by value.
  rewrite (binary64_up (_ - _) 4503599627370496 15) by value.
  nums. lra.
Qed.
(** The binary is left 110 km apart when it should have merged. *)
Lemma not_merged : binary64 witness_beta = witness_beta /\ binary64 witness_a = witness_a /\
  circ_a_elem (Fin witness_a) (Fin witness_beta) (t_merge_circ_elem (Fin witness_beta) (Fin witness_a)) = Fin 0 /\
  100000 < circ_a_computed flocq witness_beta witness_a (computed flocq (args [witness_beta; witness_a]) last_time_ex).
Proof.
  split; [unfold witness_beta; rewrite (binary64_up _ 5615234375000000 12) by value; nums; lra|].
  split; [unfold witness_a; change 1000000000 with (IZR 1000000000); apply binary64_int; reflexivity|]. split.
  - rewrite t_merge_circ_fin by (unfold witness_beta; lra). rewrite circ_a_fin. f_equal. apply acR_after; [unfold witness_beta; lra|right; reflexivity].
  - rewrite witness_time. unfold circ_a_computed. rewrite witness_difference. destruct (Rle_dec _ 0) as [L|_]; [lra|]. cbn [flocq rnd pow_].
    replace (binary64 (1 / 4)) with (1 / 4) by (symmetry; replace (1 / 4) with (IZR 1 / 2 ^ 2) by lra; apply binary64_dyadic; [reflexivity|lia]).
    destruct (Req_EM_T _ 0) as [E|_]; [lra|]. destruct (Rlt_dec _ 0) as [E|_]; [lra|]. set (x := Rpower 147573952589676412928 (1 / 4)).
    assert (X : 110000 <= x).
    { unfold x. replace 110000 with (Rpower (110000 ^ 4) (1 / 4)) at 1; [apply Rle_Rpower_l; lra|]. rewrite <- Rpower_4 by lra. rewrite Rpower_mult. replace (4 * (1 / 4)) with 1 by lra. apply Rpower_1. lra. }
    pose proof (binary64_underflow x) as B. rewrite half_eps in B. pose proof tiny_1075 as (_ & T). pose proof eps_small. rewrite (Rabs_right x) in B by lra. apply Rabs_le_inv in B. pose proof eps_pos. nra.
Qed.
Lemma not_merged_box : exists beta a, within 420 beta /\ within 110 a /\ binary64 beta = beta /\ binary64 a = a /\
  circ_a_elem (Fin a) (Fin beta) (t_merge_circ_elem (Fin beta) (Fin a)) = Fin 0 /\
  100000 < circ_a_computed flocq beta a (computed flocq (args [beta; a]) last_time_ex).
Proof.
  exists witness_beta, witness_a. split; [|split; [|exact not_merged]].
  - unfold witness_beta, within. split; [apply Rle_trans with (Rpower 2 0); [apply Rle_Rpower; lra|rewrite Rpower_O; lra]|]. apply Rle_trans with (Rpower 2 70); [|apply Rle_Rpower; lra].
    replace 70 with (INR 70) by (rewrite INR_IZR_INZ; reflexivity). rewrite Rpower_pow by lra. lra.
  - unfold witness_a, within. split; [apply Rle_trans with (Rpower 2 0); [apply Rle_Rpower; lra|rewrite Rpower_O; lra]|]. apply Rle_trans with (Rpower 2 70); [|apply Rle_Rpower; lra].
    replace 70 with (INR 70) by (rewrite INR_IZR_INZ; reflexivity). rewrite Rpower_pow by lra. lra.
Qed.
