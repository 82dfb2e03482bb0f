(** MonoFacts.v -- how merger times change with eccentricity, separation and masses. *)
From Coq Require Import Reals ZArith List Bool Lra Lia.
From Coquelicot Require Import Coquelicot.
From Verif Require Import Num NumFacts Np NpFacts Utils Spec UtilsFacts Evol EvolSpec EvolFacts MergeFacts CircFacts
  AccuracyFacts AccuracySpec FitFacts AccuracyThms.
Import ListNotations.
Open Scope R_scope.

(** ** Peters' integral over P4 falls *)
Lemma I514_lower_strict e : 0 < e < 1 -> P4 e < enhancement e * I514 e.
Proof.
  intros He. set (c := enhancement e). set (h := e / 2). assert (Hh : 0 < h < e) by (unfold h; lra).
  assert (M : enhancement h < c) by (apply enhancement_mono; lra). pose proof (I514_pos h ltac:(lra)) as Ih.
  assert (L : P4 h <= enhancement h * I514 h).
  { pose proof (I514_lower h ltac:(lra)) as L. pose proof (enhancement_pos h ltac:(lra)) as P.
    apply (Rmult_le_compat_l (enhancement h)) in L; [|lra]. replace (enhancement h * (P4 h / enhancement h)) with (P4 h) in L by (field; lra). exact L. }
  assert (D : forall x, 0 < x < 1 -> is_derive (fun x => P4 x - c * I514 x) x (p514 x * enhancement x - c * p514 x)).
  { intros x Hx. apply (is_derive_minus P4 (fun x => c * I514 x)); [apply is_derive_P4; lra|]. apply is_derive_scal, is_derive_I514, Hx. }
  destruct (MVT_gen (fun x => P4 x - c * I514 x) h e (fun x => p514 x * enhancement x - c * p514 x)) as (y & Hy & E).
  - intros x Hx. rewrite Rmin_left, Rmax_right in Hx by lra. apply D. lra.
  - intros x Hx. rewrite Rmin_left, Rmax_right in Hx by lra. apply continuity_pt_filterlim.
    apply (ex_derive_continuous (V := R_NormedModule) (fun x => P4 x - c * I514 x)). eexists. apply D. lra.
  - rewrite Rmin_left, Rmax_right in Hy by lra. pose proof (p514_nonneg y) as P.
    assert (enhancement y <= c). { destruct (Req_dec y e) as [->|N]; [unfold c; lra|]. left. apply enhancement_mono; lra. }
    assert (p514 y * enhancement y - c * p514 y <= 0) by nra. assert (P4 e - c * I514 e <= P4 h - c * I514 h) by nra. nra.
Qed.
Lemma ratio_falls a b : 0 < a < b -> b < 1 -> I514 b / P4 b < I514 a / P4 a.
Proof.
  intros Hab Hb. set (d := fun x => (p514 x * P4 x - p514 x * enhancement x * I514 x) / P4 x ^ 2).
  assert (D : forall x, 0 < x < 1 -> is_derive (fun x => I514 x / P4 x) x (d x)).
  { intros x Hx. pose proof (P4_pos x Hx). evar_last; [apply (is_derive_div I514 P4); [apply is_derive_I514, Hx|apply is_derive_P4; lra|lra]|].
    unfold d, Rdiv. f_equal. ring. }
  destruct (MVT_gen (fun x => I514 x / P4 x) a b d) as (y & Hy & E).
  - intros x Hx. rewrite Rmin_left, Rmax_right in Hx by lra. apply D. lra.
  - intros x Hx. rewrite Rmin_left, Rmax_right in Hx by lra. apply continuity_pt_filterlim.
    apply (ex_derive_continuous (V := R_NormedModule) (fun x => I514 x / P4 x)). eexists. apply D. lra.
  - rewrite Rmin_left, Rmax_right in Hy by lra. pose proof (I514_lower_strict y ltac:(lra)) as S. pose proof (p514_pos y ltac:(lra)) as P.
    pose proof (P4_pos y ltac:(lra)) as Q. assert (N : d y < 0).
    { unfold d. assert (0 < / P4 y ^ 2) by (apply Rinv_0_lt_compat, pow_lt, Q). unfold Rdiv.
      assert (p514 y * P4 y - p514 y * enhancement y * I514 y < 0) by nra. nra. }
    nra.
Qed.
Lemma texR_ratio b a e : 0 < b -> 0 < a -> 0 < e < 1 -> texR b a e = tmR b a * (I514 e / P4 e).
Proof.
  intros Hb Ha He. pose proof (P4_pos e He). pose proof (c0_P4 a e Ha He) as E. unfold texR, tmR.
  replace (a ^ 4 / (4 * b)) with (a ^ 4 / 4 / b) by (field; lra). rewrite <- E. field. lra.
Qed.
Lemma texR_falls b a e e' : 0 < b -> 0 < a -> 0 < e < e' -> e' < 1 -> texR b a e' < texR b a e.
Proof.
  intros Hb Ha He He'. rewrite !texR_ratio by (auto; lra). apply Rmult_lt_compat_l; [now apply tmR_pos|]. now apply ratio_falls.
Qed.
Lemma texR_below b a e : 0 < b -> 0 < a -> 0 < e < 1 -> texR b a e < tmR b a.
Proof.
  intros Hb Ha He. destruct (texR_bounds b a (e / 2) Hb Ha ltac:(lra)) as ((_ & U) & _). pose proof (texR_falls b a (e / 2) e Hb Ha ltac:(lra) ltac:(lra)). lra.
Qed.

(** ** The approximations fall *)
Lemma tsmR_falls b a e e' : 0 < b -> 0 < a -> 0 < e < e' -> e' < 1 -> tsmR b a e' < tsmR b a e.
Proof.
  intros Hb Ha He He'. rewrite !tsmR_alt by (auto; lra). apply Rmult_lt_compat_l; [now apply tmR_pos|].
  destruct (e_facts e ltac:(lra)) as [A B]. destruct (e_facts e' ltac:(lra)) as [A' B']. assert (S : e ^ 2 < e' ^ 2) by nra.
  assert (X : Rpower (1 - e' ^ 2) 4 < Rpower (1 - e ^ 2) 4).
  { unfold Rpower. apply exp_increasing. apply Rmult_lt_compat_l; [lra|]. apply ln_increasing; lra. }
  assert (Y : Rpower (1 + 121/304 * e' ^ 2) (-3480/2299) < Rpower (1 + 121/304 * e ^ 2) (-3480/2299)) by (apply Rpower_anti_base; lra).
  assert (0 < Rpower (1 - e' ^ 2) 4) by apply Rpower_pos. assert (0 < Rpower (1 + 121/304 * e' ^ 2) (-3480/2299)) by apply Rpower_pos. nra.
Qed.
Lemma tlgR_falls b a e e' : 0 < b -> 0 < a -> 0 < e < e' -> e' < 1 -> tlgR b a e' < tlgR b a e.
Proof.
  intros Hb Ha He He'. rewrite !tlgR_alt by (auto; lra). apply Rmult_lt_compat_l; [now apply tmR_pos|].
  destruct (e_facts e ltac:(lra)) as [A B]. destruct (e_facts e' ltac:(lra)) as [A' B']. assert (S : e ^ 2 < e' ^ 2) by nra.
  assert (X : Rpower (1 - e' ^ 2) (7/2) < Rpower (1 - e ^ 2) (7/2)); [|lra].
  unfold Rpower. apply exp_increasing. apply Rmult_lt_compat_l; [lra|]. apply ln_increasing; lra.
Qed.

(** ** The jump at the small tolerance *)
Lemma weight_low y : 0 <= y < 1 -> 1 + 3/2 * y <= Rpower (1 + 121/304 * y) (1181/2299) / Rpower (1 - y) (3/2).
Proof.
  intros Hy. assert (U : 1 <= Rpower (1 + 121/304 * y) (1181/2299)).
  { apply Rle_trans with (Rpower 1 (1181/2299)); [rewrite Rpower_1_base; lra|]. apply Rpower_mono_base_le; lra. }
  assert (V : 1 + 3/2 * y <= / Rpower (1 - y) (3/2)).
  { unfold Rpower. rewrite <- exp_Ropp.
    assert (L : ln (1 - y) <= - y).
    { rewrite <- (ln_exp (- y)). apply ln_le; [lra|]. pose proof (exp_ineq1_le (- y)). lra. }
    apply Rle_trans with (exp (3/2 * y)); [apply exp_ineq1_le|].
    assert (Q : 3/2 * y <= - (3/2 * ln (1 - y))) by lra. destruct Q as [Q|Q]; [left; now apply exp_increasing|right; now rewrite Q]. }
  unfold Rdiv. nra.
Qed.
Lemma I514_small_low2 e : 0 < e < 1 -> 19/48 * Rpower e (48/19) * (1 + 36/43 * e ^ 2) <= I514 e.
Proof.
  intros He. rewrite <- (pw_pos _ e) by lra.
  apply (I514_ge (fun x => 19/48 * pw (48/19) x * (1 + 36/43 * x ^ 2)) (fun x => pw (29/19) x * (1 + 3/2 * x ^ 2))); try lra.
  - rewrite pw_neg by lra. ring.
  - intros x Hx. evar_last.
    { apply (is_derive_mult (fun x => 19/48 * pw (48/19) x) (fun x => 1 + 36/43 * x ^ 2)); [|auto_derive; [auto|reflexivity]|intros; apply Rmult_comm].
      apply is_derive_scal, is_derive_pw; lra. }
    unfold plus, mult; cbn -[pow]. replace (48/19 - 1) with (29/19) by field.
    assert (E0 : pw (48/19) x = x * pw (29/19) x).
    { unfold pw. destruct (Rle_dec x 0); [ring|]. replace (48/19) with (1 + 29/19) by field.
      rewrite Rpower_plus, Rpower_1 by lra. reflexivity. }
    rewrite E0. simpl. field.
  - intros x Hx. apply (continuous_mult (pw (29/19)) (fun x => 1 + 3/2 * x ^ 2)); [apply continuous_pw; lra|].
    apply (ex_derive_continuous (V:=R_NormedModule)). auto_derive. auto.
  - intros x Hx. unfold p514.
    match goal with |- _ <= ?p * ?q / ?r => replace (p * q / r) with (p * (q / r)) by (unfold Rdiv; ring) end. apply Rmult_le_compat_l; [apply pw_nonneg|].
    apply (weight_low (x ^ 2)). split; [apply pow_le; lra|]. simpl. nra.
Qed.
Lemma texR_small_low b a e : 0 < b -> 0 < a -> 0 < e < 1 -> tsmR b a e * (1 + 36/43 * e ^ 2) <= texR b a e.
Proof.
  intros Hb Ha He. pose proof (I514_small_low2 e He) as L.
  unfold texR, tsmR. pose proof (c0R_pos a e Ha ltac:(lra)) as Hc. assert (0 < c0R a e ^ 4) by now apply pow_lt.
  set (c := c0R a e ^ 4) in *. set (I := I514 e) in *. set (r := Rpower e (48/19)) in *. clearbody c I r.
  assert (K : 0 < c / b) by now apply Rdiv_lt_0_compat.
  replace (12/19 * c / b * I) with (c / b * (12/19 * I)) by (field; lra).
  replace (c / (4 * b) * r * (1 + 36/43 * e ^ 2)) with (c / b * (r / 4 * (1 + 36/43 * e ^ 2))) by (field; lra).
  apply Rmult_le_compat_l; lra.
Qed.
Lemma small_drop b a : 0 < b -> 0 < a -> tsmR b a (14/100) < 1015/1000 * tsmR b a (15/100).
Proof.
  intros Hb Ha. rewrite !tsmR_alt by (auto; lra). pose proof (tmR_pos b a Hb Ha) as T.
  replace (1015/1000 * (tmR b a * (Rpower (1 - (15/100) ^ 2) 4 * Rpower (1 + 121/304 * (15/100) ^ 2) (-3480/2299))))
    with (tmR b a * (1015/1000 * (Rpower (1 - (15/100) ^ 2) 4 * Rpower (1 + 121/304 * (15/100) ^ 2) (-3480/2299)))) by ring.
  apply Rmult_lt_compat_l; [exact T|].
  set (u := 1 + 121/304 * (14/100) ^ 2). set (v := 1 + 121/304 * (15/100) ^ 2).
  assert (Hu : 0 < u) by (unfold u; lra). assert (Hv : 0 < v) by (unfold v; lra).
  assert (P : forall x, 0 < x -> Rpower x 4 = x ^ 4) by (intros x Hx; replace 4 with (INR 4) by (cbn; ring); now apply Rpower_pow).
  rewrite !P by lra.
  assert (X : Rpower u (-3480/2299) <= (v / u) ^ 2 * Rpower v (-3480/2299)).
  { assert (E : Rpower u (-3480/2299) = Rpower (v / u) (3480/2299) * Rpower v (-3480/2299)).
    { assert (LN : ln (v / u) = ln v - ln u) by (unfold Rdiv; rewrite ln_mult, ln_Rinv by (auto; now apply Rinv_0_lt_compat); ring).
      unfold Rpower. rewrite LN, <- exp_plus. f_equal. field. }
    rewrite E. apply Rmult_le_compat_r; [left; apply Rpower_pos|].
    assert (Q : 1 < v / u) by (apply (Rmult_lt_reg_r u); [exact Hu|]; unfold Rdiv; rewrite Rmult_assoc, Rinv_l, Rmult_1_r by lra; unfold u, v; lra).
    rewrite <- (Rpower_pow 2) by lra. replace (INR 2) with 2 by (cbn; ring). apply Rle_Rpower; lra. }
  pose proof (Rpower_pos v (-3480/2299)) as V. set (w := Rpower v (-3480/2299)) in *.
  assert (Q : v / u <= 10012/10000) by (apply (Rmult_le_reg_r u); [exact Hu|]; unfold Rdiv; rewrite Rmult_assoc, Rinv_l, Rmult_1_r by lra; unfold u, v; lra).
  assert (Q0 : 0 < v / u) by (now apply Rdiv_lt_0_compat).
  assert (Q2 : (v / u) ^ 2 <= (10012/10000) ^ 2) by (apply pow_incr; lra).
  clearbody w. assert (X' : Rpower u (-3480/2299) <= (10012/10000) ^ 2 * w) by nra.
  apply Rle_lt_trans with ((1 - (14/100) ^ 2) ^ 4 * ((10012/10000) ^ 2 * w)); [apply Rmult_le_compat_l; [lra|exact X']|]. nra.
Qed.
Lemma jump b a e : 0 < b -> 0 < a -> 14/100 <= e < 15/100 -> tsmR b a e < texR b a (15/100).
Proof.
  intros Hb Ha He. pose proof (texR_small_low b a (15/100) Hb Ha ltac:(lra)) as L. pose proof (small_drop b a Hb Ha) as D.
  pose proof (proj1 (tsmR_bounds b a (15/100) Hb Ha ltac:(lra))) as P.
  assert (tsmR b a e <= tsmR b a (14/100)). { destruct (Req_dec e (14/100)) as [->|N]; [lra|]. left. apply tsmR_falls; lra. }
  lra.
Qed.

(** ** Theorems *)
Section Merge.
Variable quad : quad_t.
Hypothesis HQ : quad_exact quad.

Lemma peters_falls m1 m2 a e e' : 0 < m1 -> 0 < m2 -> 0 < a -> 0 <= e < e' -> e' < 1 ->
  exists t t', peters_time quad m1 m2 a e = Ok (Fin t) /\ peters_time quad m1 m2 a e' = Ok (Fin t') /\ 0 < t' < t.
Proof.
  intros H1 H2 Ha He He'. pose proof (betaR_pos m1 m2 H1 H2) as Hb. rewrite (peters_eval quad m1 m2 a HQ H1 H2 e') by lra.
  destruct (texR_bounds (betaR m1 m2) a e' Hb Ha ltac:(lra)) as (_ & P).
  destruct (Rlt_le_dec 0 e) as [L|L].
  - rewrite (peters_eval quad m1 m2 a HQ H1 H2 e) by lra. do 2 eexists. split; [reflexivity|]. split; [reflexivity|]. split; [exact P|]. apply texR_falls; lra.
  - assert (e = 0) by lra. subst e. rewrite (peters_0 quad m1 m2 a H1 H2). do 2 eexists. split; [reflexivity|]. split; [reflexivity|]. split; [exact P|]. apply texR_below; lra.
Qed.
(** Both below the small tolerance, both between the tolerances or both above the large one. *)
Lemma merger_falls m1 m2 a e e' small large : 0 <= large -> 0 < m1 -> 0 < m2 -> 0 < a -> 0 <= e < e' -> e' < 1 ->
  (e' < small \/ small <= e /\ e' <= large \/ small <= e /\ large < e) ->
  exists t t', merger_time quad m1 m2 a e (Fin small) (Fin large) true = Ok (Fin t) /\
    merger_time quad m1 m2 a e' (Fin small) (Fin large) true = Ok (Fin t') /\ t' < t.
Proof.
  intros HL H1 H2 Ha He He' C. pose proof (betaR_pos m1 m2 H1 H2) as Hb.
  destruct (Rlt_le_dec 0 e) as [L|L].
  - destruct C as [C|[(C & D)|(C & D)]].
    + rewrite (merger_small quad m1 m2 a H1 H2 e), (merger_small quad m1 m2 a H1 H2 e') by lra.
      do 2 eexists. split; [reflexivity|]. split; [reflexivity|]. apply tsmR_falls; lra.
    + rewrite (merger_exact quad m1 m2 a HQ H1 H2 e), (merger_exact quad m1 m2 a HQ H1 H2 e') by lra.
      do 2 eexists. split; [reflexivity|]. split; [reflexivity|]. apply texR_falls; lra.
    + rewrite (merger_large quad m1 m2 a H1 H2 e), (merger_large quad m1 m2 a H1 H2 e') by lra.
      do 2 eexists. split; [reflexivity|]. split; [reflexivity|]. apply tlgR_falls; lra.
  - assert (e = 0) by lra. subst e. rewrite (merger_0 quad m1 m2 a H1 H2).
    destruct C as [C|[(C & D)|(C & D)]].
    + rewrite (merger_small quad m1 m2 a H1 H2 e') by lra. do 2 eexists. split; [reflexivity|]. split; [reflexivity|]. apply tsmR_bounds; lra.
    + rewrite (merger_exact quad m1 m2 a HQ H1 H2 e') by lra. do 2 eexists. split; [reflexivity|]. split; [reflexivity|]. apply texR_below; lra.
    + lra.
Qed.

(** *** The jump at the default small tolerance *)
Lemma merger_jump m1 m2 a e : 0 < m1 -> 0 < m2 -> 0 < a -> 14/100 <= e < 15/100 ->
  exists t t', merger_time quad m1 m2 a e small_e_tol_default large_e_tol_default true = Ok (Fin t) /\
    merger_time quad m1 m2 a (15/100) small_e_tol_default large_e_tol_default true = Ok (Fin t') /\ 0 < t < t'.
Proof.
  intros H1 H2 Ha He. pose proof (betaR_pos m1 m2 H1 H2) as Hb. unfold small_e_tol_default, large_e_tol_default.
  rewrite (merger_small quad m1 m2 a H1 H2 e) by lra. rewrite (merger_exact quad m1 m2 a HQ H1 H2 (15/100)) by lra.
  do 2 eexists. split; [reflexivity|]. split; [reflexivity|]. split; [apply tsmR_bounds; lra|]. now apply jump.
Qed.

(** *** A merger time is the circular one times a function of the eccentricity *)
Lemma circ_time m1 m2 a : 0 < m1 -> 0 < m2 ->
  get_t_merge_circ_sc None (Some (Fin m1)) (Some (Fin m2)) (Some (Fin a)) None = Ok (Fin (tmR (betaR m1 m2) a)).
Proof.
  intros H1 H2. unfold get_t_merge_circ_sc, check_sc, check_mass_freq_input. cbn [rbind fst snd]. rewrite beta_fin.
  now rewrite t_merge_circ_fin by now apply betaR_pos.
Qed.
Lemma same_ratio e small large exact : 0 <= e < 1 ->
  exists k, 0 < k /\ forall m1 m2 a, 0 < m1 -> 0 < m2 -> 0 < a ->
    exists c, get_t_merge_circ_sc None (Some (Fin m1)) (Some (Fin m2)) (Some (Fin a)) None = Ok (Fin c) /\
      merger_time quad m1 m2 a e (Fin small) (Fin large) exact = Ok (Fin (k * c)).
Proof.
  intros He. destruct (Rlt_le_dec 0 e) as [L|L].
  2:{ assert (e = 0) by lra. subst e. exists 1. split; [lra|]. intros. eexists. split; [now apply circ_time|]. rewrite merger_0 by auto. do 2 f_equal. ring. }
  assert (He' : 0 < e < 1) by lra.
  destruct (Rlt_le_dec e small) as [C|C].
  { exists (Rpower (1 - e ^ 2) 4 * Rpower (1 + 121/304 * e ^ 2) (-3480/2299)). split; [apply Rmult_lt_0_compat; apply Rpower_pos|].
    intros m1 m2 a H1 H2 Ha. eexists. split; [now apply circ_time|]. rewrite merger_small by auto. do 2 f_equal.
    rewrite tsmR_alt by (auto using betaR_pos). ring. }
  destruct (Rlt_le_dec large e) as [D|D].
  { exists (768/425 * Rpower (1 - e ^ 2) (7/2)). split; [pose proof (Rpower_pos (1 - e ^ 2) (7/2)); lra|].
    intros m1 m2 a H1 H2 Ha. eexists. split; [now apply circ_time|]. rewrite merger_large by auto. do 2 f_equal.
    rewrite tlgR_alt by (auto using betaR_pos). ring. }
  destruct exact.
  - exists (I514 e / P4 e). split; [apply Rdiv_lt_0_compat; [now apply I514_pos|now apply P4_pos]|].
    intros m1 m2 a H1 H2 Ha. eexists. split; [now apply circ_time|]. rewrite merger_exact by auto. do 2 f_equal.
    rewrite texR_ratio by (auto using betaR_pos). ring.
  - exists (mandel_2021 e / correction e). pose proof (cor_pos e ltac:(lra)) as P. split.
    { apply Rdiv_lt_0_compat; [|lra]. unfold mandel_2021. pose proof (e_facts e He') as [A _].
      assert (0 < sqrt (1 - e ^ 2)) by (apply sqrt_lt_R0; lra).
      assert (P10 : 0 <= e ^ 10) by (apply pow_le; lra). assert (P20 : 0 <= e ^ 20) by (apply pow_le; lra).
      assert (P1000 : 0 <= e ^ Z.to_nat 1000) by (apply pow_le; lra).
      apply Rmult_lt_0_compat; [|now apply pow_lt]. set (x := e ^ Z.to_nat 1000) in *. clearbody x. lra. }
    intros m1 m2 a H1 H2 Ha. eexists. split; [now apply circ_time|]. rewrite merger_fit by auto. do 2 f_equal. unfold Rdiv. ring.
Qed.
Lemma betaR_mono m1 m2 m1' m2' : 0 < m1' <= m1 -> 0 < m2' <= m2 -> betaR m1' m2' <= betaR m1 m2.
Proof.
  intros H1 H2. unfold betaR. pose proof Ggrav_pos as G. pose proof clight_pos as C.
  assert (K : 0 < 64/5 * Ggrav ^ 3 / clight ^ 5) by pos. set (k := 64/5 * Ggrav ^ 3 / clight ^ 5) in *. clearbody k.
  rewrite !Rmult_assoc. apply Rmult_le_compat_l; [lra|]. apply Rmult_le_compat; try nra.
Qed.
Lemma wider_lighter e small large exact m1 m2 a m1' m2' a' : 0 <= e < 1 ->
  0 < m1' <= m1 -> 0 < m2' <= m2 -> 0 < a <= a' ->
  exists t t', merger_time quad m1 m2 a e (Fin small) (Fin large) exact = Ok (Fin t) /\
    merger_time quad m1' m2' a' e (Fin small) (Fin large) exact = Ok (Fin t') /\ 0 < t <= t' /\
    (m1' < m1 \/ m2' < m2 \/ a < a' -> t < t').
Proof.
  intros He H1 H2 Ha. destruct (same_ratio e small large exact He) as (k & Hk & H).
  destruct (H m1 m2 a ltac:(lra) ltac:(lra) ltac:(lra)) as (c & E & F). destruct (H m1' m2' a' ltac:(lra) ltac:(lra) ltac:(lra)) as (c' & E' & F').
  rewrite circ_time in E by lra. rewrite circ_time in E' by lra. injection E as <-. injection E' as <-.
  do 2 eexists. split; [exact F|]. split; [exact F'|].
  pose proof (betaR_pos m1' m2' ltac:(lra) ltac:(lra)) as B'. pose proof (betaR_mono m1 m2 m1' m2' H1 H2) as B.
  pose proof (tmR_pos (betaR m1 m2) a ltac:(lra) ltac:(lra)) as T.
  assert (A4 : a ^ 4 <= a' ^ 4) by (apply pow_incr; lra). assert (A0 : 0 < a ^ 4) by (apply pow_lt; lra).
  assert (I1 : / (4 * betaR m1 m2) <= / (4 * betaR m1' m2')) by (apply Rinv_le_contravar; lra).
  assert (I0 : 0 < / (4 * betaR m1 m2)) by (apply Rinv_0_lt_compat; lra).
  assert (X : tmR (betaR m1 m2) a <= tmR (betaR m1' m2') a') by (unfold tmR, Rdiv; apply Rmult_le_compat; lra).
  split; [split; [now apply Rmult_lt_0_compat|now apply Rmult_le_compat_l; [lra|]]|].
  intros Q. apply Rmult_lt_compat_l; [exact Hk|]. unfold tmR, Rdiv.
  destruct (Rlt_le_dec a a') as [N|N].
  - assert (a ^ 4 < a' ^ 4) by (assert (a ^ 2 < a' ^ 2) by nra; replace (a ^ 4) with (a ^ 2 * a ^ 2) by ring; replace (a' ^ 4) with (a' ^ 2 * a' ^ 2) by ring; nra). apply Rlt_le_trans with (a' ^ 4 * / (4 * betaR m1 m2)); [now apply Rmult_lt_compat_r|]. apply Rmult_le_compat_l; lra.
  - assert (SB : betaR m1' m2' < betaR m1 m2).
    { unfold betaR. pose proof Ggrav_pos as G. pose proof clight_pos as C.
      assert (K : 0 < 64/5 * Ggrav ^ 3 / clight ^ 5) by pos. set (k' := 64/5 * Ggrav ^ 3 / clight ^ 5) in *. clearbody k'.
      rewrite !Rmult_assoc. apply Rmult_lt_compat_l; [lra|]. destruct Q as [Q|[Q|Q]]; [| |lra].
      - apply Rlt_le_trans with (m1 * (m2' * (m1' + m2'))); [apply Rmult_lt_compat_r; nra|]. apply Rmult_le_compat_l; nra.
      - apply Rle_lt_trans with (m1 * (m2' * (m1' + m2'))); [apply Rmult_le_compat_r; nra|]. apply Rmult_lt_compat_l; nra. }
    assert (/ (4 * betaR m1 m2) < / (4 * betaR m1' m2')) by (apply Rinv_lt_contravar; [apply Rmult_lt_0_compat; lra|lra]).
    apply Rlt_le_trans with (a ^ 4 * / (4 * betaR m1' m2')); [now apply Rmult_lt_compat_l|]. apply Rmult_le_compat_r; lra.
Qed.

(** *** Whatever the branches, never by more than 5% later *)
Lemma almost_falls m1 m2 a e e' small large : 0 < m1 -> 0 < m2 -> 0 < a -> 0 <= e < e' -> e' < 1 -> small <= 15/100 -> 1 - 1/10000 <= large ->
  exists t t', merger_time quad m1 m2 a e (Fin small) (Fin large) true = Ok (Fin t) /\
    merger_time quad m1 m2 a e' (Fin small) (Fin large) true = Ok (Fin t') /\ t' <= 105/100 * t.
Proof.
  intros H1 H2 Ha He He' Hs Hl.
  destruct (default_close quad m1 m2 a HQ H1 H2 Ha e small large ltac:(lra) Hs Hl) as (t & T & E & F & P & B).
  destruct (default_close quad m1 m2 a HQ H1 H2 Ha e' small large ltac:(lra) Hs Hl) as (t' & T' & E' & F' & P' & B').
  destruct (peters_falls m1 m2 a e e' H1 H2 Ha He He') as (u & u' & G & G' & L).
  rewrite F in G. rewrite F' in G'. injection G as <-. injection G' as <-.
  exists t, t'. split; [exact E|]. split; [exact E'|]. apply Rcomplements.Rabs_le_between in B. apply Rcomplements.Rabs_le_between in B'. lra.
Qed.
End Merge.
