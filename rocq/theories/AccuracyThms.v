(** AccuracyThms.v -- how far the approximate merger times are from Peters' integral. *)
From Coq Require Import Reals ZArith List Bool Lra Lia.
From Coquelicot Require Import Coquelicot.
From Verif Require Import Num NumFacts Np NpFacts Utils Spec UtilsFacts Evol EvolSpec EvolFacts MergeFacts CircFacts
  AccuracyFacts AccuracySpec FitFacts.
Import ListNotations.
Open Scope R_scope.

Lemma merger_eval quad m1 m2 a e small large exact : 0 < m1 -> 0 < m2 ->
  merger_time quad m1 m2 a e (Fin small) (Fin large) exact
  = Ok (get_t_merge_ecc_sc_core quad (Fin e) (Fin a) (Fin (betaR m1 m2)) (Fin small) (Fin large) exact).
Proof.
  intros H1 H2. unfold merger_time, get_t_merge_ecc_sc, check_sc, check_mass_freq_input. cbn [rbind fst snd].
  now rewrite beta_fin by auto.
Qed.
Section One.
Variable quad : quad_t.
Variables m1 m2 a : R.
Hypothesis HQ : quad_exact quad.
Hypotheses (H1 : 0 < m1) (H2 : 0 < m2) (Ha : 0 < a).
Let b := betaR m1 m2.
Let Hb : 0 < b.
Proof. now apply betaR_pos. Qed.
Lemma peters_0 : peters_time quad m1 m2 a 0 = Ok (Fin (tmR b a)).
Proof.
  unfold peters_time. rewrite merger_eval by auto. unfold get_t_merge_ecc_sc_core. rewrite neqb_t by auto.
  now rewrite t_merge_circ_fin.
Qed.
Lemma merger_0 small large exact : merger_time quad m1 m2 a 0 (Fin small) (Fin large) exact = Ok (Fin (tmR b a)).
Proof.
  rewrite merger_eval by auto. unfold get_t_merge_ecc_sc_core. rewrite neqb_t by auto. now rewrite t_merge_circ_fin.
Qed.
Lemma merger_exact e small large : 0 < e < 1 -> small <= e <= large ->
  merger_time quad m1 m2 a e (Fin small) (Fin large) true = Ok (Fin (texR b a e)).
Proof.
  intros He Hs. rewrite merger_eval by auto. unfold get_t_merge_ecc_sc_core. rewrite neqb_f by lra.
  rewrite c_0_fin, nlt_f by (auto; lra). unfold ngt. rewrite nlt_f by lra. rewrite t_exact_fin by (auto; lra). reflexivity.
Qed.
Lemma peters_eval e : 0 < e < 1 -> peters_time quad m1 m2 a e = Ok (Fin (texR b a e)).
Proof. intros He. unfold peters_time. apply merger_exact; lra. Qed.
Lemma merger_small e small large exact : 0 < e < 1 -> e < small ->
  merger_time quad m1 m2 a e (Fin small) (Fin large) exact = Ok (Fin (tsmR b a e)).
Proof.
  intros He Hs. rewrite merger_eval by auto. unfold get_t_merge_ecc_sc_core. rewrite neqb_f by lra.
  rewrite c_0_fin, nlt_t by (auto; lra). rewrite t_small_fin by (auto; lra). reflexivity.
Qed.
Lemma merger_large e small large exact : 0 < e < 1 -> small <= e -> large < e ->
  merger_time quad m1 m2 a e (Fin small) (Fin large) exact = Ok (Fin (tlgR b a e)).
Proof.
  intros He Hs Hl. rewrite merger_eval by auto. unfold get_t_merge_ecc_sc_core. rewrite neqb_f by lra.
  rewrite c_0_fin, nlt_f by (auto; lra). unfold ngt. rewrite nlt_t by lra. rewrite t_large_fin by (auto; lra). reflexivity.
Qed.
Lemma merger_fit e small large : 0 < e < 1 -> small <= e <= large ->
  merger_time quad m1 m2 a e (Fin small) (Fin large) false = Ok (Fin (tmR b a * mandel_2021 e / correction e)).
Proof.
  intros He Hs. rewrite merger_eval by auto. unfold get_t_merge_ecc_sc_core. rewrite neqb_f by lra.
  rewrite nlt_f by lra. unfold ngt. rewrite nlt_f by lra. pose proof (cor_pos e ltac:(lra)).
  fold b. rewrite t_fit_fin by (auto; lra). unfold mandel_2021, fitL, sq. do 2 f_equal. field. lra.
Qed.
Lemma small_branch e : 0 < e <= 15/100 -> tsmR b a e <= texR b a e <= tsmR b a e * (1 + 51/50 * e ^ 2).
Proof.
  intros He. pose proof (I514_small_low e ltac:(lra)) as L. pose proof (I514_small_up e He) as U.
  unfold texR, tsmR. pose proof (c0R_pos a e Ha ltac:(lra)) as Hc. assert (0 < c0R a e ^ 4) by now apply pow_lt.
  set (c := c0R a e ^ 4) in *. set (I := I514 e) in *. set (r := Rpower e (48/19)) in *. clearbody c I r.
  assert (K : 0 < c / b) by now apply Rdiv_lt_0_compat.
  replace (12/19 * c / b * I) with (c / b * (12/19 * I)) by (field; lra).
  replace (c / (4 * b) * r) with (c / b * (r / 4)) by (field; lra).
  set (k := c / b) in *. clearbody k. split.
  - apply Rmult_le_compat_l; lra.
  - rewrite Rmult_assoc. apply Rmult_le_compat_l; [lra|]. simpl pow in *. lra.
Qed.
Lemma large_branch e : 9/10 <= e < 1 -> (1 - 3/2 * sqrt (1 - e ^ 2)) * tlgR b a e <= texR b a e <= tlgR b a e.
Proof.
  intros He. rewrite tlgR_alt, texR_pr by (auto; lra). destruct (e_facts e ltac:(lra)) as [A B].
  rewrite Rpower_72 by auto. fold (sq e). pose proof (tmR_pos b a Hb Ha) as T. pose proof (sq_pos e ltac:(lra)) as S.
  pose proof (pr_top e ltac:(lra)) as U. pose proof (pr_low e He) as L. pose proof (pow_lt _ 7 S) as S7.
  set (k := sq e ^ 7) in *. set (p := pr e) in *. set (x := sq e) in *. clearbody k p x.
  assert (0 < tmR b a * k) by now apply Rmult_lt_0_compat. set (u := tmR b a) in *. clearbody u. split; nra.
Qed.
Lemma fit_branch e : 0 < e <= 1 - 1/10000 ->
  967/1000 * texR b a e <= tmR b a * mandel_2021 e / correction e <= 1033/1000 * texR b a e.
Proof.
  intros He. rewrite texR_pr by (auto; lra). pose proof (fit_ratio e He) as [L U]. pose proof (cor_pos e ltac:(lra)) as C.
  pose proof (tmR_pos b a Hb Ha) as T. pose proof (sq_pos e ltac:(lra)) as S. pose proof (pow_lt _ 7 S) as S7.
  unfold mandel_2021. fold (sq e). fold (fitL e).
  set (k := sq e ^ 7) in *. set (p := pr e) in *. set (c := correction e) in *. set (f := fitL e) in *. clearbody k p c f.
  assert (K : 0 < tmR b a * k) by now apply Rmult_lt_0_compat. set (u := tmR b a) in *. clearbody u.
  assert (F1 : 967/1000 * p <= f / c) by (apply Rmult_le_reg_r with c; [lra|]; replace (f / c * c) with f by (field; lra); lra).
  assert (F2 : f / c <= 1033/1000 * p) by (apply Rmult_le_reg_r with c; [lra|]; replace (f / c * c) with f by (field; lra); lra).
  replace (u * (f * k) / c) with (u * k * (f / c)) by (field; lra). split; nra.
Qed.
Lemma fit_worst : let e := 1866000 / 1870489 in tmR b a * mandel_2021 e / correction e <= 972/1000 * texR b a e.
Proof.
  pose proof fit_bad as U. cbv zeta in *. set (e := 1866000 / 1870489) in *. assert (He : 0 < e < 1) by (unfold e; lra). clearbody e.
  rewrite texR_pr by auto. pose proof (cor_pos e ltac:(lra)) as C.
  pose proof (tmR_pos b a Hb Ha) as T. pose proof (sq_pos e ltac:(lra)) as S. pose proof (pow_lt _ 7 S) as S7.
  unfold mandel_2021. fold (sq e). fold (fitL e).
  set (k := sq e ^ 7) in *. set (p := pr e) in *. set (c := correction e) in *. set (f := fitL e) in *. clearbody k p c f.
  assert (K : 0 < tmR b a * k) by now apply Rmult_lt_0_compat. set (u := tmR b a) in *. clearbody u.
  assert (F2 : f / c <= 972/1000 * p) by (apply Rmult_le_reg_r with c; [lra|]; replace (f / c * c) with f by (field; lra); lra).
  replace (u * (f * k) / c) with (u * k * (f / c)) by (field; lra). nra.
Qed.
Lemma sqrt_small e : 1 - 1/10000 < e < 1 -> 0 <= sqrt (1 - e ^ 2) <= 1415/100000.
Proof.
  intros He. split; [apply sqrt_pos|]. rewrite <- (sqrt_Rsqr (1415/100000)) by lra. apply sqrt_le_1_alt. unfold Rsqr. nra.
Qed.
Lemma tex_pos e : 0 < e < 1 -> 0 < texR b a e.
Proof. intros He. now destruct (texR_bounds b a e Hb Ha He). Qed.
Lemma small_close e : 0 < e <= 15/100 -> Rabs (tsmR b a e - texR b a e) <= 23/1000 * texR b a e.
Proof.
  intros He. destruct (small_branch e He) as [L U]. pose proof (tex_pos e ltac:(lra)).
  destruct (tsmR_bounds b a e Hb Ha ltac:(lra)) as [P _]. apply Rabs_le. assert (e ^ 2 <= 225/10000) by nra. split; nra.
Qed.
Lemma large_close e : 1 - 1/10000 < e < 1 -> Rabs (tlgR b a e - texR b a e) <= 23/1000 * texR b a e.
Proof.
  intros He. destruct (large_branch e ltac:(lra)) as [L U]. pose proof (tex_pos e ltac:(lra)). pose proof (sqrt_small e He).
  set (s := sqrt (1 - e ^ 2)) in *. set (x := tlgR b a e) in *. set (y := texR b a e) in *. clearbody s x y.
  apply Rabs_le. assert (x * s <= x * (1415/100000)) by (apply Rmult_le_compat_l; lra). split; lra.
Qed.

Theorem default_close e small large : 0 <= e < 1 -> small <= 15/100 -> 1 - 1/10000 <= large ->
  exists t T, merger_time quad m1 m2 a e (Fin small) (Fin large) true = Ok (Fin t) /\ peters_time quad m1 m2 a e = Ok (Fin T)
    /\ 0 < T /\ Rabs (t - T) <= 23/1000 * T.
Proof.
  intros [He0 He1] Hs Hl. pose proof (tmR_pos b a Hb Ha). destruct He0 as [He0|<-].
  - pose proof (tex_pos e ltac:(lra)) as P. destruct (Rlt_le_dec e small) as [L|L]; [|destruct (Rlt_le_dec large e) as [M|M]].
    + exists (tsmR b a e), (texR b a e). rewrite merger_small, peters_eval by lra. repeat split; auto. apply small_close; lra.
    + exists (tlgR b a e), (texR b a e). rewrite merger_large, peters_eval by lra. repeat split; auto. apply large_close; lra.
    + exists (texR b a e), (texR b a e). rewrite merger_exact, peters_eval by lra. repeat split; auto.
      replace (texR b a e - texR b a e) with 0 by ring. rewrite Rabs_R0. lra.
  - exists (tmR b a), (tmR b a). rewrite merger_0, peters_0. repeat split; auto.
    replace (tmR b a - tmR b a) with 0 by ring. rewrite Rabs_R0. lra.
Qed.
Theorem fit_close e small large : 0 <= e < 1 -> small <= 15/100 -> large = 1 - 1/10000 ->
  exists t T, merger_time quad m1 m2 a e (Fin small) (Fin large) false = Ok (Fin t) /\ peters_time quad m1 m2 a e = Ok (Fin T)
    /\ 0 < T /\ Rabs (t - T) <= 33/1000 * T.
Proof.
  intros [He0 He1] Hs ->. pose proof (tmR_pos b a Hb Ha). destruct He0 as [He0|<-].
  - pose proof (tex_pos e ltac:(lra)) as P. destruct (Rlt_le_dec e small) as [L|L]; [|destruct (Rlt_le_dec (1 - 1/10000) e) as [M|M]].
    + exists (tsmR b a e), (texR b a e). rewrite merger_small, peters_eval by lra. repeat split; auto.
      pose proof (small_close e ltac:(lra)). lra.
    + exists (tlgR b a e), (texR b a e). rewrite merger_large, peters_eval by lra. repeat split; auto.
      pose proof (large_close e ltac:(lra)). lra.
    + exists (tmR b a * mandel_2021 e / correction e), (texR b a e). rewrite merger_fit, peters_eval by lra. repeat split; auto.
      pose proof (fit_branch e ltac:(lra)). apply Rabs_le. lra.
  - exists (tmR b a), (tmR b a). rewrite merger_0, peters_0. repeat split; auto.
    replace (tmR b a - tmR b a) with 0 by ring. rewrite Rabs_R0. lra.
Qed.
Theorem fit_off : let e := 1866000 / 1870489 in exists t T,
  merger_time quad m1 m2 a e small_e_tol_default large_e_tol_default false = Ok (Fin t) /\
  peters_time quad m1 m2 a e = Ok (Fin T) /\ 0 < T /\ t <= 972/1000 * T.
Proof.
  pose proof fit_worst as W. cbv zeta in *. set (e := 1866000 / 1870489) in *.
  assert (He : 15/100 <= e <= 1 - 1/10000) by (unfold e; lra). clearbody e.
  exists (tmR b a * mandel_2021 e / correction e), (texR b a e).
  unfold small_e_tol_default, large_e_tol_default. rewrite merger_fit, peters_eval by lra. repeat split; auto. apply tex_pos. lra.
Qed.
Theorem small_formula e small large exact : 0 < e < small -> small <= 15/100 -> exists t T,
  merger_time quad m1 m2 a e (Fin small) (Fin large) exact = Ok (Fin t) /\
  peters_time quad m1 m2 a e = Ok (Fin T) /\ t <= T <= t * (1 + 102/100 * e ^ 2).
Proof.
  intros He Hs. exists (tsmR b a e), (texR b a e). rewrite merger_small, peters_eval by lra. repeat split; auto.
  - apply small_branch. lra.
  - replace (102/100) with (51/50) by lra. apply small_branch. lra.
Qed.
Theorem large_formula e small large exact : 9/10 <= e < 1 -> small <= e -> large < e -> exists t T,
  merger_time quad m1 m2 a e (Fin small) (Fin large) exact = Ok (Fin t) /\
  peters_time quad m1 m2 a e = Ok (Fin T) /\ (1 - 3/2 * sqrt (1 - e ^ 2)) * t <= T <= t.
Proof.
  intros He Hs Hl. exists (tlgR b a e), (texR b a e). rewrite merger_large, peters_eval by lra. repeat split; auto; now apply large_branch.
Qed.
Theorem fit_value e small large : 0 < e < 1 -> small <= e <= large ->
  exists Tc, get_t_merge_circ_sc None (Some (Fin m1)) (Some (Fin m2)) (Some (Fin a)) None = Ok (Fin Tc) /\ 9/10 <= correction e /\
    merger_time quad m1 m2 a e (Fin small) (Fin large) false = Ok (Fin (Tc * mandel_2021 e / correction e)).
Proof.
  intros He Hs. exists (tmR b a). split; [|split; [apply cor_pos; lra|now apply merger_fit]].
  unfold get_t_merge_circ_sc, check_sc, check_mass_freq_input. cbn [rbind fst snd]. rewrite beta_fin by auto.
  fold b. now rewrite t_merge_circ_fin.
Qed.
End One.
