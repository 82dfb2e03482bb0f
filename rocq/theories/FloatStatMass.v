(** FloatStatMass.v -- the decision whether a binary is stationary, in double precision, given the two masses (C118). *)
From Coq Require Import Reals ZArith List Lra Lia Bool.
From Verif Require Import Num NumFacts Np NpFacts Utils Spec UtilsFacts Evol EvolFacts Float FloatSpec FloatFacts FloatThms FloatStat FloatStatFacts.
Import ListNotations.
Open Scope R_scope.

(** How much the exact decision depends on the chirp mass. *)
Section Shift.
Variables f t e m m' s dl : R.
Hypothesis F : 0 < f <= 2 ^ 20.
Hypothesis T : 0 < t.
Hypothesis E : 0 <= e < 1.
Hypothesis M : 0 < m.
Hypothesis M' : 0 < m' <= m * (1 + / 10 ^ 12).
Hypothesis S : s <= 11 / 10.
Hypothesis D : / 10 ^ 9 <= dl <= / 100.
Let decide m s := determine_stationarity [Fin f] [Fin t] [Fin e] None None (Some [Fin m]) (Fin s).
Let A := Rpower f (-8 / 3).
Let B m := Rpower 2 (32/3) * Rpower PI (8/3) * t / (5 * clight ^ 5) * Rpower (Ggrav * m) (5/3) * enhancement e.
Let A0 : 0 < A. Proof. apply exp_pos. Qed.
Let inner x : 0 < x -> inner_part (Fin f) (Fin x) (Fin t) (Fin e) = Fin (A - B x).
Proof. intros X. rewrite inner_fin by lra. reflexivity. Qed.
Let B0 x : 0 < x -> 0 < B x.
Proof.
  intros X. unfold B, Rdiv. pose proof clight_pos as C. pose proof (pow_lt clight 5 C). assert (P : 0 < enhancement e) by (apply enhancement_pos; lra). set (q := enhancement e) in *. clearbody q.
  repeat apply Rmult_lt_0_compat; try apply exp_pos; auto; apply Rinv_0_lt_compat; lra.
Qed.
Let grow : B m' <= B m * (1 + 4 * / 10 ^ 12).
Proof.
  unfold B. pose proof clight_pos as C. pose proof Ggrav_pos as G. pose proof (pow_lt clight 5 C). assert (P : 0 < enhancement e) by (apply enhancement_pos; lra).
  set (K := Rpower 2 (32/3) * Rpower PI (8/3) * t / (5 * clight ^ 5)). assert (K0 : 0 < K).
  { unfold K, Rdiv. repeat apply Rmult_lt_0_compat; try apply exp_pos; auto; apply Rinv_0_lt_compat; lra. }
  assert (Q : Rpower (Ggrav * m') (5/3) <= Rpower (Ggrav * m) (5/3) * (1 + 4 * / 10 ^ 12)).
  { apply Rle_trans with (Rpower (Ggrav * m * (1 + / 10 ^ 12)) (5/3)).
    - apply Rle_Rpower_l; [lra|]. split; [nra|]. rewrite Rmult_assoc. apply Rmult_le_compat_l; lra.
    - rewrite <- Rpower_mult_distr by nra. apply Rmult_le_compat_l; [left; apply exp_pos|].
      apply Rle_trans with (Rpower (1 + / 10 ^ 12) (INR 2)); [apply Rle_Rpower; cbn; lra|]. rewrite Rpower_pow by lra. lra. }
  set (a := Rpower (Ggrav * m') (5/3)) in *. set (b := Rpower (Ggrav * m) (5/3)) in *.
  replace (K * b * enhancement e * (1 + 4 * / 10 ^ 12)) with (K * (b * (1 + 4 * / 10 ^ 12)) * enhancement e) by ring.
  apply Rmult_le_compat_r; [lra|]. apply Rmult_le_compat_l; lra.
Qed.
Let total x u : exists b, decide x u = Ok [b].
Proof.
  pose proof (determine_stationarity_map (fun _ : unit => Fin f) (fun _ => Fin x) (fun _ => Fin t) (fun _ => Fin e) None None (Fin u) [tt]) as Q.
  cbn [map] in Q. unfold decide. rewrite Q. eauto.
Qed.
Lemma shift : decide m s = Ok [true] -> decide m' (s + dl) = Ok [true].
Proof.
  intros H. unfold decide in H. apply (exact_decision f t e m s true (A - B m)) in H; [|lra|apply inner; lra].
  assert (F9 : f <= 1048576) by lra. pose proof (B0 m M) as B1. pose proof (B0 m' ltac:(lra)) as B2.
  destruct H as [(X & H)|[(_ & H)|(X & H)]]; [exfalso|discriminate H|].
  { symmetry in H. apply nle_fin in H. apply (Rmult_le_compat_r f) in H; [|lra]. unfold Rdiv in H. rewrite Rmult_assoc, Rinv_l, Rmult_1_r in H by lra. nra. }
  symmetry in H. apply nle_fin in H. apply (Rmult_le_compat_r f) in H; [|lra]. unfold Rdiv in H at 1. rewrite Rmult_assoc, Rinv_l, Rmult_1_r in H by lra.
  set (r := (A - B m) / A). assert (EX : A - B m = A * r) by (unfold r; field; lra). assert (R0 : 0 < r) by (unfold r; now apply Rdiv_lt_0_compat).
  rewrite EX in H. rewrite (power_of f A ltac:(lra) eq_refl r R0) in H. assert (H' : Rpower r (-3 / 8) <= 1 + s) by (apply Rmult_le_reg_l with f; lra).
  assert (R1 : r < 1) by (apply Rmult_lt_reg_l with A; lra).
  assert (S0 : 0 <= s). { pose proof (power_anti r 1 ltac:(lra)) as Q. replace (Rpower 1 (-3 / 8)) with 1 in Q by (unfold Rpower; rewrite ln_1, Rmult_0_r, exp_0; reflexivity). lra. }
  (* r is at least (1 + s)^(-8/3) *)
  destruct (sixteenth s ltac:(lra)) as ((G1 & G2) & G3). set (r0 := Rpower (1 + s) (-8 / 3)) in *.
  assert (RR : r0 <= r).
  { destruct (Rle_dec r0 r) as [G|G]; [exact G|exfalso]. assert (Q : Rpower r0 (-3 / 8) < Rpower r (-3 / 8)) by (unfold Rpower at 1 2; apply exp_increasing; pose proof (ln_increasing r r0 R0 ltac:(lra)); lra). lra. }
  destruct (total m' (s + dl)) as (b & Hb). rewrite Hb. unfold decide in Hb.
  apply (exact_decision f t e m' (s + dl) b (A - B m')) in Hb; [|lra|apply inner; lra].
  set (r' := (A - B m') / A). assert (EX' : A - B m' = A * r') by (unfold r'; field; lra).
  assert (RQ : r0 - 4 * / 10 ^ 12 <= r').
  { apply Rmult_le_reg_l with A; [exact A0|]. rewrite <- EX'. pose proof grow as GR. assert (EB : B m = A * (1 - r)) by lra. rewrite EB in GR. clearbody r r0. nra. }
  assert (R0' : 0 < r') by lra. assert (X' : 0 < A - B m') by (rewrite EX'; now apply Rmult_lt_0_compat).
  destruct Hb as [(N & _)|[(N & _)|(_ & ->)]]; [lra|lra|]. do 2 f_equal. apply nle_t.
  rewrite EX', (power_of f A ltac:(lra) eq_refl r' R0').
  assert (U : Rpower r' (-3 / 8) <= 1 + (s + dl)).
  { set (x := 100 * / 10 ^ 12). apply Rle_trans with (Rpower (r0 * (1 - x)) (-3 / 8)).
    - apply power_anti. unfold x. split; nra.
    - rewrite <- Rpower_mult_distr by (unfold x; lra). rewrite G3. apply Rle_trans with ((1 + s) * (1 + 2 * x)); [apply Rmult_le_compat_l; [lra|apply power_up; unfold x; lra]|]. unfold x. nra. }
  replace ((f * Rpower r' (-3 / 8) - f) / f) with (Rpower r' (-3 / 8) - 1) by (field; lra). lra.
Qed.
End Shift.
Lemma shift_back f t e m m' s dl : 0 < f <= 2 ^ 20 -> 0 < t -> 0 <= e < 1 -> 0 < m' -> 0 < m <= m' * (1 + / 10 ^ 12) -> s + dl <= 11 / 10 -> / 10 ^ 9 <= dl <= / 100 ->
  determine_stationarity [Fin f] [Fin t] [Fin e] None None (Some [Fin m]) (Fin (s + dl)) = Ok [false] ->
  determine_stationarity [Fin f] [Fin t] [Fin e] None None (Some [Fin m']) (Fin s) = Ok [false].
Proof.
  intros F T E M' M S D H.
  pose proof (determine_stationarity_map (fun _ : unit => Fin f) (fun _ => Fin m') (fun _ => Fin t) (fun _ => Fin e) None None (Fin s) [tt]) as Q.
  cbn [map] in Q. destruct (nle _ _) in Q; [|exact Q]. apply (shift f t e m' m s dl) in Q; auto; [|lra]. congruence.
Qed.
(** Chirp masses lie between the masses, up to a factor. *)
Lemma chirp_size m1 m2 : within 139 m1 -> within 139 m2 -> exists x, chirp_mass (Fin m1) (Fin m2) = Fin x /\ 0 < x /\ Rabs (ln x) <= (1392 / 10) * ln 2.
Proof.
  intros W1 W2. apply ln_within in W1. apply ln_within in W2. destruct W1 as (P1 & L1), W2 as (P2 & L2). rewrite chirp_mass_fin by auto.
  eexists. split; [reflexivity|]. split; [apply Rdiv_lt_0_compat; apply exp_pos|].
  assert (N : forall a b, 0 < b -> 0 < a -> ln (a / b) = ln a - ln b) by (intros a b Hb Ha; unfold Rdiv; rewrite ln_mult, ln_Rinv by (auto; now apply Rinv_0_lt_compat); ring).
  unfold chirpR. rewrite N by apply exp_pos. unfold Rpower. rewrite !ln_exp, ln_mult by auto.
  apply Rabs_le_inv in L1. apply Rabs_le_inv in L2. pose proof ln_2 as L.
  assert (Q : forall a b, 0 < a <= b -> ln b <= ln (a + b) <= ln 2 + ln b).
  { intros a b H. split; [left; apply ln_increasing; lra|]. rewrite <- ln_mult by lra. destruct (Req_dec a b) as [->|N0]; [right; f_equal; lra|left; apply ln_increasing; lra]. }
  apply Rabs_le. destruct (Rle_dec m1 m2) as [H|H].
  - destruct (Q m1 m2 ltac:(lra)). lra.
  - destruct (Q m2 m1 ltac:(lra)) as [Q1 Q2]. rewrite (Rplus_comm m2 m1) in Q1, Q2. lra.
Qed.
Section Masses.
Variable d : doubles.
Hypothesis I : ieee d.
Hypothesis I0 : least d.
Lemma chirp_computed m1 m2 : within 139 m1 -> within 139 m2 ->
  exists x, chirp_mass (Fin m1) (Fin m2) = Fin x /\ 0 < x /\ let y := computed d (args [m1; m2]) chirp_mass_ex in
    within 140 y /\ y <= x * (1 + / 10 ^ 12) /\ x <= y * (1 + / 10 ^ 12).
Proof.
  intros W1 W2. destruct (chirp_size m1 m2 W1 W2) as (x & C & X & L).
  assert (V : forall z, within 139 z -> within 140 z). { intros z (H1 & H2). split; [apply Rle_trans with (2 := H1)|apply Rle_trans with (1 := H2)]; apply Rle_Rpower; lra. }
  destruct (chirp_mass_accurate d I m1 m2 (V _ W1) (V _ W2)) as (x' & C' & _ & Q). rewrite C in C'. injection C' as <-.
  exists x. split; [exact C|]. split; [exact X|]. cbv zeta. set (y := computed d _ _) in *. unfold accurate in Q. rewrite (Rabs_right x) in Q by lra. apply Rabs_le_inv in Q.
  assert (Y : x * (1 - / 10 ^ 13) <= y <= x * (1 + / 10 ^ 13)) by lra. assert (Y0 : 0 < y) by nra.
  split; [|split; nra]. apply within_ln; [exact Y0|]. pose proof ln_2 as L2. apply Rabs_le_inv in L.
  assert (U : ln y <= ln x + 1 / 10). { pose proof (ln_le_pred (y / x) ltac:(now apply Rdiv_lt_0_compat)) as Z. unfold Rdiv in Z. rewrite ln_mult, ln_Rinv in Z by (auto; now apply Rinv_0_lt_compat).
    assert (y * / x <= 1 + / 10 ^ 13). { apply Rmult_le_reg_r with x; [exact X|]. rewrite Rmult_assoc, Rinv_l by lra. lra. } lra. }
  assert (U' : ln x <= ln y + 1 / 10). { pose proof (ln_le_pred (x / y) ltac:(now apply Rdiv_lt_0_compat)) as Z. unfold Rdiv in Z. rewrite ln_mult, ln_Rinv in Z by (auto; now apply Rinv_0_lt_compat).
    assert (x * / y <= 1 + / 10 ^ 12). { apply Rmult_le_reg_r with y; [exact Y0|]. rewrite Rmult_assoc, Rinv_l by lra. nra. } lra. }
  apply Rabs_le. lra.
Qed.
Section Binary.
Variables f t e m1 m2 tol : R.
Hypothesis F : within 60 f.
Hypothesis F20 : f <= 2 ^ 20.
Hypothesis T : within 200 t.
Hypothesis E : eccentricity e.
Hypothesis E6 : / 10 ^ 6 <= 1 - e ^ 2.
Hypothesis W1 : within 139 m1.
Hypothesis W2 : within 139 m2.
Hypothesis L : 0 < tol <= 1.
Let with_masses x s : chirp_mass (Fin m1) (Fin m2) = Fin x ->
  determine_stationarity [Fin f] [Fin t] [Fin e] (Some [Fin m1]) (Some [Fin m2]) None (Fin s) =
  determine_stationarity [Fin f] [Fin t] [Fin e] None None (Some [Fin x]) (Fin s).
Proof. intros C. unfold determine_stationarity. change (bzip chirp_mass [Fin m1] [Fin m2]) with (Ok [chirp_mass (Fin m1) (Fin m2)]). rewrite C. reflexivity. Qed.
Let delta := / 10 ^ 9 / (1 - e ^ 2).
Let D : / 10 ^ 9 <= delta <= / 100.
Proof.
  destruct (ecc_factor e E) as (D1 & _). assert (D2 : / (1 - e ^ 2) <= 10 ^ 6). { rewrite <- (Rinv_inv (10 ^ 6)). apply Rinv_le_contravar; [apply Rinv_0_lt_compat; lra|exact E6]. }
  unfold delta, Rdiv. lra.
Qed.
Let E1 : 0 <= e < 1.
Proof. destruct E as [->|((H & _) & _)]; [lra|]. pose proof (exp_pos (- (100) * ln 2)) as P. unfold Rpower in H. nra. Qed.
Lemma masses_true : determine_stationarity [Fin f] [Fin t] [Fin e] (Some [Fin m1]) (Some [Fin m2]) None (Fin (tol - 2 * delta)) = Ok [true] ->
  stationary_computed d f t e (computed d (args [m1; m2]) chirp_mass_ex) tol = true.
Proof.
  destruct (chirp_computed m1 m2 W1 W2) as (x & C & X & V & U1 & U2). cbv zeta in *. set (y := computed d _ _) in *. intros H. rewrite (with_masses x) in H by exact C.
  assert (Y : 0 < y) by (now apply ln_within in V). apply computed_true; auto. fold delta. replace (tol - delta) with (tol - 2 * delta + delta) by ring.
  assert (F0 : 0 < f) by (now apply ln_within in F). assert (T0 : 0 < t) by (now apply ln_within in T). apply (shift f t e x y); auto; lra.
Qed.
Lemma masses_false : determine_stationarity [Fin f] [Fin t] [Fin e] (Some [Fin m1]) (Some [Fin m2]) None (Fin (tol + 2 * delta)) = Ok [false] ->
  stationary_computed d f t e (computed d (args [m1; m2]) chirp_mass_ex) tol = false.
Proof.
  destruct (chirp_computed m1 m2 W1 W2) as (x & C & X & V & U1 & U2). cbv zeta in *. set (y := computed d _ _) in *. intros H. rewrite (with_masses x) in H by exact C.
  assert (Y : 0 < y) by (now apply ln_within in V). apply computed_false; auto. fold delta.
  assert (F0 : 0 < f) by (now apply ln_within in F). assert (T0 : 0 < t) by (now apply ln_within in T).
  apply (shift_back f t e x y (tol + delta) delta); auto; try lra. replace (tol + delta + delta) with (tol + 2 * delta) by ring. exact H.
Qed.
End Binary.
End Masses.

(** Two equal masses with a given chirp mass. *)
Lemma equal_masses x : 0 < x -> chirp_mass (Fin (x * Rpower 2 (1/5))) (Fin (x * Rpower 2 (1/5))) = Fin x.
Proof.
  intros X. assert (P : 0 < x * Rpower 2 (1/5)) by (apply Rmult_lt_0_compat; [exact X|apply exp_pos]). rewrite chirp_mass_fin by auto. f_equal. unfold chirpR.
  apply ln_inv; [apply Rdiv_lt_0_compat; apply exp_pos|exact X|].
  assert (N : forall a b, 0 < b -> 0 < a -> ln (a / b) = ln a - ln b) by (intros a b Hb Ha; unfold Rdiv; rewrite ln_mult, ln_Rinv by (auto; now apply Rinv_0_lt_compat); ring).
  rewrite N by apply exp_pos. assert (Q : ln (x * Rpower 2 (1/5)) = ln x + 1/5 * ln 2) by (rewrite ln_mult by (auto; apply exp_pos); unfold Rpower; now rewrite ln_exp).
  revert P Q. generalize (x * Rpower 2 (1/5)). intros m P Q. replace (m + m) with (2 * m) by ring. unfold Rpower. rewrite !ln_exp, !ln_mult by lra. lra.
Qed.
Lemma equal_size x : 2 ^ 99 <= x <= 2 ^ 110 -> within 139 (x * Rpower 2 (1/5)).
Proof.
  intros H. assert (A : 1 <= Rpower 2 (1/5) <= 2). { pose proof (Rle_Rpower 2 0 (1/5) ltac:(lra) ltac:(lra)) as Q. pose proof (Rle_Rpower 2 (1/5) 1 ltac:(lra) ltac:(lra)) as Q'. rewrite Rpower_O in Q by lra. rewrite Rpower_1 in Q' by lra. lra. }
  assert (B : Rpower 2 (- (139)) <= 1) by (rewrite <- (Rpower_O 2) by lra; apply Rle_Rpower; lra).
  assert (C : 2 ^ 111 <= Rpower 2 139). { rewrite <- Rpower_pow by lra. apply Rle_Rpower; [lra|]. rewrite INR_IZR_INZ. cbn. lra. }
  split; nra.
Qed.
