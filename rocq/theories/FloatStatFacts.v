(** FloatStatFacts.v -- proofs about the decision whether a binary is stationary, in double precision (C118). *)
From Coq Require Import Reals ZArith List Lra Lia Bool.
From Flocq Require Import Core.
From Verif Require Import Num NumFacts Np NpFacts Utils Spec Evol EvolFacts Float FloatSpec FloatFacts FloatThms FloatIEEE FloatStat FloatNoise.
Import ListNotations.
Open Scope R_scope.

Lemma flocq_least : least flocq.
Proof.
  intros x H. cbn [rnd flocq] in *. replace (- 1074) with (IZR (-1074)) by lra. rewrite <- bpow_Rpower.
  apply (generic_format_ge_bpow radix2 (FLT_exp (-1074) 53)); [intros e; unfold FLT_exp; lia|exact H|]. apply generic_format_round; [apply FLT_exp_valid; reflexivity|apply valid_rnd_N].
Qed.

Lemma power_up x : 0 <= x <= / 2 -> Rpower (1 - x) (-3 / 8) <= 1 + 2 * x.
Proof.
  intros H. apply Rle_trans with (/ (1 - x)).
  - rewrite <- (exp_ln (/ (1 - x))) by (apply Rinv_0_lt_compat; lra). rewrite ln_Rinv by lra. unfold Rpower.
    assert (L : ln (1 - x) <= 0) by (pose proof (ln_le_pred (1 - x) ltac:(lra)); lra).
    destruct (Req_dec (ln (1 - x)) 0) as [->|N]; [right; f_equal; lra|left; apply exp_increasing; lra].
  - apply Rmult_le_reg_r with (1 - x); [lra|]. rewrite Rinv_l by lra. nra.
Qed.
Lemma power_down y : 0 <= y -> 1 - y <= Rpower (1 + y) (-3 / 8).
Proof.
  intros H. apply Rle_trans with (/ (1 + y)).
  - apply Rmult_le_reg_r with (1 + y); [lra|]. rewrite Rinv_l by lra. nra.
  - rewrite <- (exp_ln (/ (1 + y))) by (apply Rinv_0_lt_compat; lra). rewrite ln_Rinv by lra. unfold Rpower.
    assert (L : 0 <= ln (1 + y)) by (rewrite <- ln_1; destruct H as [H|<-]; [left; apply ln_increasing; lra|right; f_equal; lra]).
    destruct (Req_dec (ln (1 + y)) 0) as [->|N]; [right; f_equal; lra|left; apply exp_increasing; lra].
Qed.
Lemma power_anti x y : 0 < x <= y -> Rpower y (-3 / 8) <= Rpower x (-3 / 8).
Proof.
  intros [X [H| ->]]; [|right; reflexivity]. left. unfold Rpower. apply exp_increasing. pose proof (ln_increasing x y X H). lra.
Qed.
Lemma tiny f : within 60 f -> 0 < Rpower 2 (- 1022) /\ Rpower 2 (- 1022) <= eps * f.
Proof.
  intros (W & _). split; [apply exp_pos|]. apply Rle_trans with (eps * Rpower 2 (- 60)); [|apply Rmult_le_compat_l; [left; apply eps_pos|exact W]].
  rewrite <- eps_def. rewrite <- Rpower_plus. apply Rle_Rpower; lra.
Qed.

Section Decision.
Variable d : doubles.
Hypothesis I : ieee d.
Hypothesis I0 : least d.
Lemma rnd_any x : Rabs x <= Rpower 2 1022 -> Rabs (rnd d x - x) <= eps / 2 * Rabs x + Rpower 2 (- 1022).
Proof. intros H. rewrite <- half_eps. revert x H. apply I. Qed.
Lemma below_1022 x n : n <= 1022 -> Rabs x <= Rpower 2 n -> Rabs x <= Rpower 2 1022.
Proof. intros N H. apply Rle_trans with (1 := H). apply Rle_Rpower; lra. Qed.
Lemma P2 (n : nat) : Rpower 2 (INR n) = 2 ^ n.
Proof. apply Rpower_pow. lra. Qed.
Lemma change_up f y s tol : within 60 f -> 0 < y -> y <= f * (1 + s) -> - 1 <= s <= 3 -> s + 20 * eps <= tol -> changes_little d y f tol = true.
Proof.
  intros F Y H S T. assert (F0 : 0 < f) by (now apply ln_within in F). destruct (tiny f F) as (T0 & T1). pose proof eps_pos as E0. pose proof eps_small as E1.
  unfold changes_little. set (z := y - f). assert (Z : Rabs z <= 4 * f) by (unfold z; apply Rabs_le; nra).
  assert (F1 : f <= 2 ^ 60). { destruct F as (_ & F). replace 60 with (INR 60) in F by (cbn; lra). now rewrite P2 in F. }
  assert (B : Rabs z <= Rpower 2 1022). { apply (below_1022 z (INR 100)); [cbn; lra|]. rewrite P2. lra. }
  apply rnd_any in B. set (z' := rnd d z) in *. assert (B' : Rabs (z' - z) <= 3 * eps * f) by (pose proof (Rabs_pos z); nra). apply Rabs_le_inv in Z. apply Rabs_le_inv in B'.
  set (w := z' / f). assert (W : w <= s + 3 * eps). { unfold w. apply Rmult_le_reg_r with f; [exact F0|]. unfold Rdiv. rewrite Rmult_assoc, Rinv_l by lra. unfold z in *. nra. }
  assert (W1 : - 5 <= w). { unfold w. apply Rmult_le_reg_r with f; [exact F0|]. unfold Rdiv. rewrite Rmult_assoc, Rinv_l by lra. unfold z in *. nra. }
  assert (A : Rabs w <= 5) by (apply Rabs_le; lra).
  assert (Q : Rabs w <= Rpower 2 1022). { apply (below_1022 w (INR 3)); [cbn; lra|]. rewrite P2. lra. }
  apply rnd_any in Q. assert (T2 : Rpower 2 (- 1022) <= eps) by (rewrite <- eps_def; apply Rle_Rpower; lra). apply Rabs_le_inv in Q.
  destruct (Rle_dec _ tol) as [_|N]; [reflexivity|]. elim N. nra.
Qed.
Lemma change_down f y s tol : within 60 f -> f * (1 + s) <= y -> y <= Rpower 2 900 -> 0 <= s <= 3 -> tol < s - 20 * eps -> changes_little d y f tol = false.
Proof.
  intros F H Y S T. assert (F0 : 0 < f) by (now apply ln_within in F). destruct (tiny f F) as (T0 & T1). pose proof eps_pos as E0. pose proof eps_small as E1.
  unfold changes_little. set (z := y - f). assert (Z : f * s <= z) by (unfold z; lra). assert (Z0 : 0 <= f * s) by nra.
  assert (B : Rabs z <= Rpower 2 1022). { apply (below_1022 z 900); [lra|]. rewrite Rabs_right by lra. unfold z. lra. }
  apply rnd_any in B. set (z' := rnd d z) in *. rewrite (Rabs_right z) in B by lra. apply Rabs_le_inv in B.
  set (w := z' / f).
  assert (W : s - 3 * eps <= w). { unfold w. apply Rmult_le_reg_r with f; [exact F0|]. unfold Rdiv. rewrite Rmult_assoc, Rinv_l by lra. nra. }
  assert (F2 : / f <= Rpower 2 60). { rewrite <- (Rinv_inv (Rpower 2 60)). apply Rinv_le_contravar; [apply Rinv_0_lt_compat, exp_pos|]. rewrite <- Rpower_Ropp. apply F. }
  assert (K1 : 1 <= Rpower 2 900). { rewrite <- (Rpower_O 2) by lra. apply Rle_Rpower; lra. }
  assert (TS : Rpower 2 (- 1022) <= 1). { rewrite <- (Rpower_O 2) by lra. apply Rle_Rpower; lra. }
  assert (Z' : z' <= 3 * Rpower 2 900) by (unfold z in *; nra).
  assert (W1 : w <= 3 * Rpower 2 960).
  { unfold w, Rdiv. replace 960 with (900 + 60) by lra. rewrite Rpower_plus. assert (0 < / f) by (now apply Rinv_0_lt_compat). assert (0 < Rpower 2 60) by apply exp_pos.
    destruct (Rle_dec z' 0) as [N|N]; [apply Rle_trans with 0; nra|]. apply Rle_trans with (3 * Rpower 2 900 * Rpower 2 60); [|lra]. apply Rmult_le_compat; lra. }
  assert (K2 : 1 <= Rpower 2 960). { rewrite <- (Rpower_O 2) by lra. apply Rle_Rpower; lra. }
  assert (Q : Rabs w <= Rpower 2 1022).
  { apply (below_1022 w (2 + 960)); [lra|]. rewrite Rpower_plus. replace (Rpower 2 2) with 4 by (replace 2 with (INR 2) at 2 by (cbn; lra); rewrite P2; lra). apply Rabs_le. lra. }
  apply rnd_any in Q. assert (T2 : Rpower 2 (- 1022) <= eps) by (rewrite <- eps_def; apply Rle_Rpower; lra). apply Rabs_le_inv in Q.
  destruct (Rle_dec _ tol) as [N|_]; [|reflexivity]. exfalso.
  destruct (Rle_dec 0 w) as [P|P].
  - rewrite (Rabs_right w) in Q by lra. nra.
  - rewrite (Rabs_left w) in Q by lra. nra.
Qed.
(** The two terms of the inner part. *)
Definition shrink_given : ex := (
  Pow (Int 2) 32 3 * Pow (Con CPi) 8 3 * Inp 1 / (Int 5 * Pow (Con CC) 5 1) * Pow (Con CG * Inp 3) 5 3 * Inp 4)%ex.
Lemma terms_accurate f t e mc : within 60 f -> within 200 t -> eccentricity e -> within 140 mc ->
  exists A B, inner_part (Fin f) (Fin mc) (Fin t) (Fin e) = Fin (A - B) /\ A = Rpower f (-8 / 3) /\ 0 < B /\
    accurate (/ 10 ^ 12 / (1 - e ^ 2)) A (computed d (args [f; t; e; mc]) (Pow (Inp 0) (-8) 3)) /\
    accurate (/ 10 ^ 12 / (1 - e ^ 2)) B (computed d (args [f; t; e; mc]) shrink_ex) /\ B <= Rpower 2 900.
Proof.
  intros F T E M. destruct (peters_f_float d I e E) as (p & MP & P & NP). destruct (ecc_factor e E) as (D1 & D2).
  set (q := computed d (args [e]) peters_f_ex) in *. unfold Rdiv in NP. unfold Rdiv. set (D := / (1 - e ^ 2)) in *.
  assert (W : well (args [f; t; 0; mc; p]) (args [f; t; e; mc; q]) (ws [60; 200; 0; 140; 110]) (ws [0; 0; 0; 0; 100 * D]) shrink_given) by (unfold shrink_given; checks).
  assert (V : well (args [f; t; 0; mc; p]) (args [f; t; e; mc; q]) (ws [60; 200; 0; 140; 110]) (ws [0; 0; 0; 0; 100 * D]) (Pow (Inp 0) (-8) 3)) by checks.
  destruct (conclude d I _ _ _ _ _ (/ 10 ^ 12 * D) (600 * D) W) as (X & MX & C); [unfold shrink_given; checks|rewrite eps_pow; lra|lra|].
  destruct (conclude d I _ _ _ _ _ (/ 10 ^ 12 * D) (600 * D) V) as (Y & MY & CA); [checks|rewrite eps_pow; lra|lra|].
  exists (exact (args [f; t; 0; mc; p]) (Pow (Inp 0) (-8) 3)), (exact (args [f; t; 0; mc; p]) shrink_given).
  split; [|split; [reflexivity|split; [exact X|split; [exact CA|split; [exact C|]]]]].
  - rewrite <- nsub_fin, <- MX, <- MY. unfold inner_part. rewrite MP. rewrite <- (npowr_fin 2 (32 / 3)) by lra. reflexivity.
  - pose proof (computed_inv _ _ _ _ d I _ W) as N. apply (inv_weaken _ _ (600 * D) 890) in N; [|unfold shrink_given; checks|unfold shrink_given; checks].
    destruct N as ((_ & _ & N) & S). pose proof eps_small. pose proof eps_pos. pose proof ln_2. apply Rabs_le_inv in N. apply Rabs_le_inv in S.
    set (x := exact _ shrink_given) in *. assert (L : ln x <= 900 * ln 2) by nra. unfold Rpower. rewrite <- (exp_ln x X). destruct L as [L|L]; [left; now apply exp_increasing|right; now f_equal].
Qed.
Lemma first_size f : within 60 f -> within 160 (Rpower f (-8 / 3)).
Proof.
  intros F. apply ln_within in F. destruct F as (F0 & F). apply within_ln; [apply exp_pos|]. unfold Rpower. rewrite ln_exp. apply Rabs_le_inv in F. apply Rabs_le. lra.
Qed.
Lemma inner_close f t e mc : within 60 f -> within 200 t -> eccentricity e -> within 140 mc -> / 10 ^ 6 <= 1 - e ^ 2 ->
  exists A B, inner_part (Fin f) (Fin mc) (Fin t) (Fin e) = Fin (A - B) /\ A = Rpower f (-8 / 3) /\ 0 < A /\ 0 < B /\
    / 10 ^ 12 <= / 10 ^ 12 / (1 - e ^ 2) <= / 10 ^ 6 /\
    Rabs (computed d (args [f; t; e; mc]) inner_part_ex - (A - B)) <= 2 * (/ 10 ^ 12 / (1 - e ^ 2)) * (A + B).
Proof.
  intros F T E M S. destruct (terms_accurate f t e mc F T E M) as (A & B & P & EA & B0 & CA & CB & BB). destruct (ecc_factor e E) as (D1 & _).
  assert (D2 : / (1 - e ^ 2) <= 10 ^ 6). { rewrite <- (Rinv_inv (10 ^ 6)). apply Rinv_le_contravar; [apply Rinv_0_lt_compat; lra|exact S]. }
  assert (A0 : 0 < A) by (rewrite EA; apply exp_pos). pose proof (first_size f F) as SA. rewrite <- EA in SA.
  exists A, B. split; [exact P|]. split; [exact EA|]. split; [exact A0|]. split; [exact B0|].
  unfold Rdiv in *. set (D := / (1 - e ^ 2)) in *. set (k := / 10 ^ 12 * D) in *. assert (K : / 10 ^ 12 <= k <= / 10 ^ 6) by (unfold k; lra). split; [exact K|].
  cbn [computed inner_part_ex]. change (computed d (args [f; t; e; mc]) (Inp 0)) with f in *. cbn [computed] in CA. change (computed d (args [f; t; e; mc]) (Inp 0)) with f in CA.
  change (args [f; t; e; mc] 0%nat) with f in *. set (A' := pow_ d f (rnd d (-8 / 3))) in *. fold A' in CA. unfold Rdiv in A'. fold A' in CA |- *.
  set (B' := computed d (args [f; t; e; mc]) shrink_ex) in *. unfold accurate in CA, CB. rewrite (Rabs_right A) in CA by lra. rewrite (Rabs_right B) in CB by lra.
  apply Rabs_le_inv in CA. apply Rabs_le_inv in CB. set (z := A' - B'). assert (Z : Rabs (z - (A - B)) <= k * (A + B)) by (unfold z; apply Rabs_le; lra).
  assert (Z2 : Rabs z <= 2 * (A + B)) by (unfold z; apply Rabs_le; nra).
  assert (Z3 : Rabs z <= Rpower 2 1022).
  { apply (below_1022 z (3 + 900)); [lra|]. rewrite Rpower_plus. assert (A <= Rpower 2 900) by (apply Rle_trans with (1 := proj2 SA); apply Rle_Rpower; lra).
    replace (Rpower 2 3) with 8 by (replace 3 with (INR 3) by (cbn; lra); rewrite P2; lra). assert (0 < Rpower 2 900) by apply exp_pos. lra. }
  apply rnd_any in Z3. assert (TI : Rpower 2 (- 1022) <= eps * A).
  { apply Rle_trans with (eps * Rpower 2 (- 160)); [|apply Rmult_le_compat_l; [left; apply eps_pos|apply SA]]. rewrite <- eps_def, <- Rpower_plus. apply Rle_Rpower; lra. }
  pose proof eps_small. pose proof eps_pos. apply Rabs_le_inv in Z. assert (Z4 : Rabs (rnd d z - z) <= 2 * eps * (A + B)) by (pose proof (Rabs_pos z); nra). apply Rabs_le_inv in Z4.
  assert (2 * eps * (A + B) <= k * (A + B)) by (apply Rmult_le_compat_r; lra). apply Rabs_le. lra.
Qed.
Lemma rnd_38 : rnd d (-3 / 8) = -3 / 8.
Proof. destruct I as (_ & _ & _ & _ & _ & _ & _ & _ & _ & H). replace (-3 / 8) with (IZR (-3) / 2 ^ 3) by lra. apply (H (-3)%Z 3%nat); [reflexivity|lia]. Qed.
Lemma power_of f A : 0 < f -> A = Rpower f (-8 / 3) -> forall x, 0 < x -> Rpower (A * x) (-3 / 8) = f * Rpower x (-3 / 8).
Proof.
  intros F -> x X. rewrite <- Rpower_mult_distr by (try apply exp_pos; exact X). rewrite Rpower_mult. replace (-8 / 3 * (-3 / 8)) with 1 by lra. now rewrite Rpower_1 by exact F.
Qed.
(** What the exact decision says. *)
Lemma exact_decision f t e mc s b x : determine_stationarity [Fin f] [Fin t] [Fin e] None None (Some [Fin mc]) (Fin s) = Ok [b] ->
  0 < f -> inner_part (Fin f) (Fin mc) (Fin t) (Fin e) = Fin x ->
  (x < 0 /\ b = nle (Fin ((1000000000 - f) / f)) (Fin s)) \/ (x = 0 /\ b = false) \/ (0 < x /\ b = nle (Fin ((Rpower x (-3 / 8) - f) / f)) (Fin s)).
Proof.
  intros E F X. pose proof (determine_stationarity_map (fun _ : unit => Fin f) (fun _ => Fin mc) (fun _ => Fin t) (fun _ => Fin e) None None (Fin s) [tt]) as D.
  cbn [map] in D. rewrite E in D. injection D as ->. unfold circ_f_elem. rewrite X. cbv zeta. unfold nge.
  destruct (Rtotal_order x 0) as [H|[H|H]].
  - left. split; [exact H|]. rewrite nle_f by lra. unfold merge_f_default. rewrite nsub_fin, ndiv_fin by lra. reflexivity.
  - right. left. split; [exact H|]. subst x. rewrite nle_t by lra. rewrite npowr_0_neg by lra. cbn. rewrite (proj2 (Rltb_false f 0)) by lra. reflexivity.
  - right. right. split; [lra|]. rewrite nle_t by lra. rewrite npowr_fin by lra. rewrite nsub_fin, ndiv_fin by lra. reflexivity.
Qed.
(** The power that is computed. *)
Lemma power_computed f A x : within 60 f -> A = Rpower f (-8 / 3) -> 0 < x -> x <= 4 * A -> Rpower 2 (- 1074) <= x ->
  Rabs (pow_ d x (rnd d (-3 / 8)) - f * Rpower (x / A) (-3 / 8)) <= eps * (f * Rpower (x / A) (-3 / 8)) /\ f * Rpower (x / A) (-3 / 8) <= Rpower 2 450.
Proof.
  intros F EA X U L. assert (F0 : 0 < f) by (now apply ln_within in F). assert (A0 : 0 < A) by (rewrite EA; apply exp_pos). pose proof ln_2 as L2.
  rewrite rnd_38. rewrite <- (power_of f A F0 EA) by (now apply Rdiv_lt_0_compat). replace (A * (x / A)) with x by (field; lra).
  pose proof (first_size f F) as SA. rewrite <- EA in SA. apply ln_within in SA. destruct SA as (_ & SA). apply Rabs_le_inv in SA.
  assert (M : forall a b, 0 < a -> a <= b -> ln a <= ln b). { intros a b Z [Q| ->]; [left; now apply ln_increasing|right; reflexivity]. }
  assert (X1 : - 1074 * ln 2 <= ln x). { apply M in L; [|apply exp_pos]. unfold Rpower in L. rewrite ln_exp in L. lra. }
  assert (X2 : ln x <= 162 * ln 2). { apply M in U; [|exact X]. rewrite ln_mult in U by lra. replace (ln 4) with (2 * ln 2) in U by (replace 4 with (2 * 2) by lra; rewrite ln_mult by lra; ring). lra. }
  assert (W : within 450 (Rpower x (-3 / 8))). { apply within_ln; [apply exp_pos|]. unfold Rpower. rewrite ln_exp. apply Rabs_le. lra. }
  split; [|apply W]. rewrite <- eps_def. apply I; [exact X|]. destruct W as (W1 & W2). split; [apply Rle_trans with (2 := W1)|apply Rle_trans with (1 := W2)]; apply Rle_Rpower; lra.
Qed.
Lemma eighth : 2 < Rpower (/ 8) (-3 / 8).
Proof.
  replace (/ 8) with (Rpower 2 (- (3))).
  - rewrite Rpower_mult. replace (- (3) * (-3 / 8)) with (9 / 8) by lra. rewrite <- (Rpower_1 2) at 1 by lra. apply Rpower_lt; lra.
  - rewrite Rpower_Ropp. f_equal. replace 3 with (INR 3) by (cbn; lra). rewrite P2. lra.
Qed.
Lemma sixteenth T : 0 <= T <= 3 / 2 -> / 16 <= Rpower (1 + T) (-8 / 3) <= 1 /\ Rpower (Rpower (1 + T) (-8 / 3)) (-3 / 8) = 1 + T.
Proof.
  intros H. split; [split|].
  - replace (-8 / 3) with (- (8 / 3)) by lra. rewrite Rpower_Ropp. apply Rinv_le_contravar; [apply exp_pos|].
    apply Rle_trans with (Rpower (1 + T) 3); [apply Rle_Rpower; lra|]. replace 3 with (INR 3) by (cbn; lra). rewrite Rpower_pow by lra. nra.
  - replace (-8 / 3) with (- (8 / 3)) by lra. rewrite Rpower_Ropp. apply Rle_trans with (/ 1); [|rewrite Rinv_1; lra]. apply Rinv_le_contravar; [lra|]. apply Rle_trans with (Rpower (1 + T) 0); [rewrite Rpower_O; lra|]. apply Rle_Rpower; lra.
  - rewrite Rpower_mult. replace (-8 / 3 * (-3 / 8)) with 1 by lra. apply Rpower_1. lra.
Qed.
Section Binary.
Variables f t e mc tol : R.
Hypothesis F : within 60 f.
Hypothesis F20 : f <= 2 ^ 20.
Hypothesis T : within 200 t.
Hypothesis E : eccentricity e.
Hypothesis E6 : / 10 ^ 6 <= 1 - e ^ 2.
Hypothesis M : within 140 mc.
Hypothesis L : 0 < tol <= 1.
Let delta := / 10 ^ 9 / (1 - e ^ 2).
Let decide s := determine_stationarity [Fin f] [Fin t] [Fin e] None None (Some [Fin mc]) (Fin s).
Lemma computed_true : decide (tol - delta) = Ok [true] -> stationary_computed d f t e mc tol = true.
Proof.
  unfold decide, delta. intros H. assert (F0 : 0 < f) by (now apply ln_within in F). pose proof eps_small as E1. pose proof eps_pos as E0.
  destruct (inner_close f t e mc F T E M E6) as (A & B & P & EA & A0 & B0 & K & C). set (k := / 10 ^ 12 / (1 - e ^ 2)) in *.
  replace (/ 10 ^ 9 / (1 - e ^ 2)) with (1000 * k) in H by (unfold k; assert (1 - e ^ 2 <> 0) by lra; field; lra).
  assert (K' : 0 < k <= / 1000000) by lra. clearbody k. set (s := tol - 1000 * k) in *.
  apply (exact_decision f t e mc s true (A - B)) in H; [|exact F0|exact P]. destruct H as [(X & H)|[(_ & H)|(X & H)]]; [exfalso|discriminate H|].
  { symmetry in H. apply nle_fin in H. apply (Rmult_le_compat_r f) in H; [|lra]. unfold Rdiv in H. rewrite Rmult_assoc, Rinv_l, Rmult_1_r in H by lra. unfold s in H. nra. }
  symmetry in H. apply nle_fin in H. apply (Rmult_le_compat_r f) in H; [|lra]. unfold Rdiv in H at 1. rewrite Rmult_assoc, Rinv_l, Rmult_1_r in H by lra.
  set (r := (A - B) / A). assert (EX : A - B = A * r) by (unfold r; field; lra). assert (R0 : 0 < r) by (unfold r; now apply Rdiv_lt_0_compat).
  rewrite EX in H. rewrite (power_of f A F0 EA r R0) in H. assert (H' : Rpower r (-3 / 8) <= 1 + s) by (apply Rmult_le_reg_l with f; lra).
  assert (R8 : / 8 < r). { destruct (Rlt_dec (/ 8) r) as [G|G]; [exact G|]. pose proof (power_anti r (/ 8) ltac:(lra)). pose proof eighth. unfold s in H'. lra. }
  assert (R1 : r < 1) by (apply Rmult_lt_reg_l with A; lra).
  unfold stationary_computed, evolve_f_computed. set (i := computed d (args [f; t; e; mc]) inner_part_ex) in *. apply Rabs_le_inv in C.
  assert (EB : B = A * (1 - r)) by lra. set (rho := i / A). assert (EI : i = A * rho) by (unfold rho; field; lra).
  assert (Q : r - 4 * k <= rho <= r + 4 * k).
  { split; apply Rmult_le_reg_l with A; try exact A0; rewrite <- EI; rewrite EB in C; clearbody r; assert (A * r <= A) by nra; assert (0 <= k * (A * r)) by (apply Rmult_le_pos; nra); nra. }
  assert (I1 : 0 < i) by (rewrite EI; apply Rmult_lt_0_compat; lra).
  destruct (Rlt_dec i 0) as [G|_]; [lra|]. destruct (Rle_dec i 0) as [G|_]; [lra|].
  destruct (power_computed f A i F EA I1) as (PC & _); [rewrite EI; nra|apply I0; exact I1|]. fold rho in PC.
  set (y := pow_ d i (rnd d (-3 / 8))) in *. set (p := Rpower rho (-3 / 8)) in *. assert (P0 : 0 < p) by apply exp_pos.
  assert (PU : p <= (1 + s) * (1 + 64 * k)).
  { set (x := 32 * k). apply Rle_trans with (Rpower (r * (1 - x)) (-3 / 8)).
    - apply power_anti. split; [apply Rmult_lt_0_compat; unfold x; lra|]. unfold x. nra.
    - rewrite <- Rpower_mult_distr by (unfold x; lra). apply Rmult_le_compat; [left; apply exp_pos|left; apply exp_pos|exact H'|]. replace (1 + 64 * k) with (1 + 2 * x) by (unfold x; ring). apply power_up. unfold x. lra. }
  apply Rabs_le_inv in PC. assert (FP : 0 < f * p) by (now apply Rmult_lt_0_compat).
  apply (change_up f y (s + 150 * k)); [exact F|nra| |unfold s; lra|unfold s; lra].
  apply Rle_trans with (f * (p * (1 + eps))); [lra|]. apply Rmult_le_compat_l; [lra|].
  apply Rle_trans with ((1 + s) * (1 + 64 * k) * (1 + eps)); [apply Rmult_le_compat_r; lra|]. assert (S1 : 0 <= 1 + s <= 2) by (unfold s; lra). nra.
Qed.
Lemma computed_false : decide (tol + delta) = Ok [false] -> stationary_computed d f t e mc tol = false.
Proof.
  unfold decide, delta. intros H. assert (F0 : 0 < f) by (now apply ln_within in F). pose proof eps_small as E1. pose proof eps_pos as E0.
  destruct (inner_close f t e mc F T E M E6) as (A & B & P & EA & A0 & B0 & K & C). set (k := / 10 ^ 12 / (1 - e ^ 2)) in *.
  replace (/ 10 ^ 9 / (1 - e ^ 2)) with (1000 * k) in H by (unfold k; assert (1 - e ^ 2 <> 0) by lra; field; lra).
  assert (K' : / 10 ^ 12 <= k <= / 1000000) by lra. clearbody k. set (s := tol + 1000 * k) in *. assert (S0 : 0 <= s <= 3 / 2) by (unfold s; lra).
  destruct (sixteenth s S0) as ((G1 & G2) & G3). set (r0 := Rpower (1 + s) (-8 / 3)) in *.
  set (r := (A - B) / A). assert (EX : A - B = A * r) by (unfold r; field; lra).
  assert (R0 : r <= r0).
  { apply (exact_decision f t e mc s false (A - B)) in H; [|exact F0|exact P]. destruct H as [(X & _)|[(X & _)|(X & H)]].
    - assert (r < 0) by (apply Rmult_lt_reg_l with A; lra). lra.
    - assert (r = 0) by (unfold r; rewrite X; field; lra). lra.
    - symmetry in H. apply nle_fin_f in H. apply (Rmult_lt_compat_r f) in H; [|lra]. unfold Rdiv in H at 1. rewrite Rmult_assoc, Rinv_l, Rmult_1_r in H by lra.
      assert (RP : 0 < r) by (unfold r; now apply Rdiv_lt_0_compat). rewrite EX in H. rewrite (power_of f A F0 EA r RP) in H. assert (H' : 1 + s < Rpower r (-3 / 8)) by (apply Rmult_lt_reg_l with f; lra).
      destruct (Rle_dec r r0) as [G|G]; [exact G|]. pose proof (power_anti r0 r ltac:(lra)). lra. }
  assert (MG : changes_little d 1000000000 f tol = false).
  { apply (change_down f _ 3); [exact F|lra| |lra|lra]. apply Rle_trans with (Rpower 2 (INR 30)); [rewrite P2; lra|]. apply Rle_Rpower; [lra|]. cbn. lra. }
  unfold stationary_computed, evolve_f_computed. set (i := computed d (args [f; t; e; mc]) inner_part_ex) in *. apply Rabs_le_inv in C.
  destruct (Rlt_dec i 0) as [_|I1]; [exact MG|]. destruct (Rle_dec i 0) as [_|I2]; [reflexivity|]. assert (I3 : 0 < i) by lra.
  assert (EB : B = A * (1 - r)) by lra. set (rho := i / A). assert (EI : i = A * rho) by (unfold rho; field; lra). assert (RH : 0 < rho) by (unfold rho; now apply Rdiv_lt_0_compat).
  assert (Q1 : rho <= r + 2 * k * (2 - r)). { apply Rmult_le_reg_l with A; [exact A0|]. rewrite <- EI. rewrite EB in C. clearbody r. nra. }
  assert (R1 : - 1 <= r) by nra. assert (Q : rho <= r0 + 6 * k) by nra.
  destruct (power_computed f A i F EA I3) as (PC & PB); [rewrite EI; nra|apply I0; exact I3|]. fold rho in PC, PB.
  set (y := pow_ d i (rnd d (-3 / 8))) in *. set (p := Rpower rho (-3 / 8)) in *. assert (P0 : 0 < p) by apply exp_pos.
  assert (PL : (1 + s) * (1 - 96 * k) <= p).
  { set (x := 96 * k). apply Rle_trans with (Rpower (r0 * (1 + x)) (-3 / 8)).
    - rewrite <- Rpower_mult_distr by (unfold x; lra). rewrite G3. apply Rmult_le_compat_l; [lra|]. apply power_down. unfold x. lra.
    - apply power_anti. split; [exact RH|]. unfold x. nra. }
  apply Rabs_le_inv in PC. assert (FP : 0 < f * p) by (now apply Rmult_lt_0_compat).
  apply (change_down f y (s - 300 * k)); [exact F| | |unfold s; lra|unfold s; lra].
  - apply Rle_trans with (f * (p * (1 - eps))); [|lra]. apply Rmult_le_compat_l; [lra|].
    apply Rle_trans with ((1 + s) * (1 - 96 * k) * (1 - eps)); [|apply Rmult_le_compat_r; lra].
    assert (N1 : (1 + s) * k <= 5 / 2 * k) by (apply Rmult_le_compat_r; lra). assert (N2 : (1 + s) * eps <= 5 / 2 * eps) by (apply Rmult_le_compat_r; lra).
    assert (N3 : 0 <= (1 + s) * k * eps) by (apply Rmult_le_pos; [apply Rmult_le_pos; lra|lra]). nra.
  - apply Rle_trans with (2 * Rpower 2 450); [nra|]. replace (2 * Rpower 2 450) with (Rpower 2 (1 + 450)) by (rewrite Rpower_plus, Rpower_1 by lra; reflexivity). apply Rle_Rpower; lra.
Qed.
(** Before the frequency has grown eightfold it is computed accurately. *)
Lemma frequency_accurate m F' : evolve_f_orb_circ [Fin f] [Fin mc] [Fin t] [Fin e] (Fin m) = Ok [Fin F'] -> F' <= 8 * f -> 8 * f < m ->
  exists y, evolve_f_computed d f t e mc m = Fin y /\ accurate (/ 10 ^ 8 / (1 - e ^ 2)) F' y.
Proof.
  clear L F20. intros H F8 M8. assert (F0 : 0 < f) by (now apply ln_within in F). pose proof eps_small as E1. pose proof eps_pos as E0.
  destruct (inner_close f t e mc F T E M E6) as (A & B & P & EA & A0 & B0 & K & C). set (k := / 10 ^ 12 / (1 - e ^ 2)) in *.
  replace (/ 10 ^ 8 / (1 - e ^ 2)) with (10000 * k) by (unfold k; assert (1 - e ^ 2 <> 0) by lra; field; lra).
  assert (K' : / 10 ^ 12 <= k <= / 1000000) by lra. clearbody k.
  pose proof (evolve_f_orb_circ_map (fun _ : unit => Fin f) (fun _ => Fin mc) (fun _ => Fin t) (fun _ => Fin e) (Fin m) [tt]) as EM. cbn [map] in EM. rewrite EM in H. injection H as H.
  unfold circ_f_elem in H. rewrite P in H. cbv zeta in H. unfold nge in H.
  destruct (Rtotal_order (A - B) 0) as [X|[X|X]].
  { rewrite nle_f in H by lra. injection H as H. lra. }
  { rewrite X in H. rewrite nle_t in H by lra. rewrite npowr_0_neg in H by lra. discriminate H. }
  rewrite nle_t in H by lra. rewrite npowr_fin in H by lra. injection H as H.
  set (r := (A - B) / A). assert (EX : A - B = A * r) by (unfold r; field; lra). assert (R0 : 0 < r) by (unfold r; now apply Rdiv_lt_0_compat).
  rewrite EX in H. rewrite (power_of f A F0 EA r R0) in H. set (g := Rpower r (-3 / 8)) in *. assert (G0 : 0 < g) by apply exp_pos.
  assert (G8 : g <= 8) by (apply Rmult_le_reg_l with f; lra).
  assert (R8 : / 512 < r).
  { destruct (Rlt_dec (/ 512) r) as [G|G]; [exact G|]. pose proof (power_anti r (/ 512) ltac:(lra)) as Q. fold g in Q. exfalso.
    assert (8 < Rpower (/ 512) (-3 / 8)); [|lra]. replace (/ 512) with (Rpower (/ 8) (INR 3)) by (rewrite Rpower_pow by lra; lra). rewrite Rpower_mult.
    replace (INR 3 * (-3 / 8)) with (-3 / 8 * INR 3) by ring. rewrite <- Rpower_mult. rewrite Rpower_pow by apply exp_pos. pose proof eighth as Q8. set (x := Rpower (/ 8) (-3 / 8)) in *. nra. }
  assert (R1 : r < 1) by (apply Rmult_lt_reg_l with A; lra).
  unfold evolve_f_computed. set (i := computed d (args [f; t; e; mc]) inner_part_ex) in *. apply Rabs_le_inv in C.
  assert (EB : B = A * (1 - r)) by lra. set (rho := i / A). assert (EI : i = A * rho) by (unfold rho; field; lra).
  assert (Q : r - 4 * k <= rho <= r + 4 * k).
  { split; apply Rmult_le_reg_l with A; try exact A0; rewrite <- EI; rewrite EB in C; clearbody r; assert (A * r <= A) by nra; assert (0 <= k * (A * r)) by (apply Rmult_le_pos; nra); nra. }
  assert (I1 : 0 < i) by (rewrite EI; apply Rmult_lt_0_compat; lra).
  destruct (Rlt_dec i 0) as [G|_]; [lra|]. destruct (Rle_dec i 0) as [G|_]; [lra|].
  destruct (power_computed f A i F EA I1) as (PC & _); [rewrite EI; nra|apply I0; exact I1|]. fold rho in PC.
  set (y := pow_ d i (rnd d (-3 / 8))) in *. set (p := Rpower rho (-3 / 8)) in *. assert (P0 : 0 < p) by apply exp_pos.
  exists y. split; [reflexivity|]. set (x := 2048 * k).
  assert (PU : p <= g * (1 + 2 * x)).
  { apply Rle_trans with (Rpower (r * (1 - x)) (-3 / 8)).
    - apply power_anti. split; [apply Rmult_lt_0_compat; unfold x; lra|]. unfold x. nra.
    - rewrite <- Rpower_mult_distr by (unfold x; lra). apply Rmult_le_compat_l; [left; apply exp_pos|]. apply power_up. unfold x. lra. }
  assert (PL : g * (1 - x) <= p).
  { apply Rle_trans with (Rpower (r * (1 + x)) (-3 / 8)).
    - rewrite <- Rpower_mult_distr by (unfold x; lra). apply Rmult_le_compat_l; [left; apply exp_pos|]. apply power_down. unfold x. lra.
    - apply power_anti. split; [unfold rho; now apply Rdiv_lt_0_compat|]. unfold x. nra. }
  unfold accurate. rewrite <- H. rewrite (Rabs_right (f * g)) by (apply Rle_ge, Rmult_le_pos; lra). apply Rabs_le_inv in PC.
  assert (N1 : f * p <= f * g * (1 + 2 * x)) by (rewrite Rmult_assoc; apply Rmult_le_compat_l; lra). assert (N2 : f * g * (1 - x) <= f * p) by (rewrite Rmult_assoc; apply Rmult_le_compat_l; lra).
  assert (FG : 0 < f * g) by (apply Rmult_lt_0_compat; lra). set (w := f * g) in *. assert (W0 : 0 <= k * w) by (apply Rmult_le_pos; lra). assert (W1 : eps * w <= k * w) by (apply Rmult_le_compat_r; lra).
  assert (N3 : f * p <= 2 * w) by (assert (2 * x <= 1) by (unfold x; lra); nra). assert (N4 : eps * (f * p) <= 2 * (k * w)) by nra.
  apply Rabs_le. unfold x in *. lra.
Qed.
End Binary.
End Decision.

(** Examples: a binary that is stationary and one that merges. *)
Lemma third x (n : nat) k : 0 < x -> 3 * k = INR n -> Rpower (x ^ 3) k = x ^ n.
Proof. intros X K. rewrite <- (Rpower_pow 3) by exact X. rewrite Rpower_mult. replace (INR 3 * k) with (INR n) by (cbn [INR]; lra). now apply Rpower_pow. Qed.
Transparent Ggrav clight.
Lemma constants : 10 ^ 21 <= Ggrav * 10 ^ 32 /\ Ggrav * 10 ^ 30 <= 10 ^ 21 /\ 10 ^ 43 <= 5 * clight ^ 5 <= 10 ^ 44.
Proof. unfold Ggrav, clight. lra. Qed.
Opaque Ggrav clight.
Lemma slow : determine_stationarity [Fin (/ 10 ^ 3)] [Fin (10 ^ 8)] [Fin 0] None None (Some [Fin (10 ^ 30)]) (Fin (/ 100 - / 10 ^ 9 / (1 - 0 ^ 2))) = Ok [true].
Proof.
  pose proof (determine_stationarity_map (fun _ : unit => Fin (/ 10 ^ 3)) (fun _ => Fin (10 ^ 30)) (fun _ => Fin (10 ^ 8)) (fun _ => Fin 0) None None (Fin (/ 100 - / 10 ^ 9 / (1 - 0 ^ 2))) [tt]) as D.
  cbn [map] in D. rewrite D. clear D. unfold circ_f_elem. rewrite inner_fin by lra. set (x := innerR _ _ _ _).
  set (f := / 10 ^ 3). assert (F : 0 < f) by (unfold f; lra). set (A := Rpower f (-8 / 3)). assert (A8 : A = 10 ^ 8).
  { unfold A, f. replace (/ 10 ^ 3) with ((/ 10) ^ 3) by lra. replace (-8 / 3) with (- (8 / 3)) by lra. rewrite Rpower_Ropp, (third _ 8) by (cbn; lra). lra. }
  assert (X : 10 ^ 8 * (1 - 2 / 1000) <= x <= 10 ^ 8).
  { unfold x, innerR. fold f A. rewrite A8. replace (enhancement 0) with 1 by (unfold enhancement; replace (1 - 0 ^ 2) with 1 by ring; rewrite sqrt_1, pow1; field).
    pose proof PI_RGT_0. pose proof PI_4. pose proof Ggrav_pos. pose proof clight_pos.
    assert (U1 : 0 < Rpower 2 (32 / 3) <= 2 ^ 11). { split; [apply exp_pos|]. rewrite <- Rpower_pow by lra. apply Rle_Rpower; cbn; lra. }
    assert (U2 : 0 < Rpower PI (8 / 3) <= 4 ^ 3).
    { split; [apply exp_pos|]. apply Rle_trans with (Rpower 4 (8 / 3)); [apply Rle_Rpower_l; lra|]. rewrite <- Rpower_pow by lra. apply Rle_Rpower; cbn; lra. }
    assert (G1 : 0 < Ggrav * 10 ^ 30 <= (10 ^ 7) ^ 3) by (pose proof constants; lra).
    assert (U3 : 0 < Rpower (Ggrav * 10 ^ 30) (5 / 3) <= (10 ^ 7) ^ 5). { split; [apply exp_pos|]. rewrite <- (third (10 ^ 7) 5 (5 / 3)) by (cbn; lra). apply Rle_Rpower_l; lra. }
    assert (U4 : 10 ^ 43 <= 5 * clight ^ 5) by (pose proof constants; lra).
    set (a := Rpower 2 (32 / 3)) in *. set (b := Rpower PI (8 / 3)) in *. set (c := Rpower (Ggrav * 10 ^ 30) (5 / 3)) in *. set (q := 5 * clight ^ 5) in *.
    replace (a * b * 10 ^ 8 / q * c * 1) with (a * b * c * (10 ^ 8 / q)) by (field; lra).
    assert (Q : 0 < 10 ^ 8 / q <= 10 ^ 8 / 10 ^ 43). { split; [apply Rdiv_lt_0_compat; lra|]. apply Rmult_le_compat_l; [lra|]. apply Rinv_le_contravar; lra. }
    assert (V1 : 0 < a * b <= 2 ^ 11 * 4 ^ 3) by (split; [apply Rmult_lt_0_compat; lra|apply Rmult_le_compat; lra]).
    assert (V2 : 0 < a * b * c <= 2 ^ 11 * 4 ^ 3 * (10 ^ 7) ^ 5) by (split; [apply Rmult_lt_0_compat; lra|apply Rmult_le_compat; lra]).
    assert (V3 : 0 < a * b * c * (10 ^ 8 / q) <= 2 ^ 11 * 4 ^ 3 * (10 ^ 7) ^ 5 * (10 ^ 8 / 10 ^ 43)) by (split; [apply Rmult_lt_0_compat; lra|apply Rmult_le_compat; lra]).
    lra. }
  cbv zeta. unfold nge. rewrite nle_t by lra. rewrite npowr_fin by lra. rewrite nsub_fin, ndiv_fin by lra. f_equal. f_equal. apply nle_t.
  assert (R0 : x = A * (1 - (1 - x / 10 ^ 8))) by (rewrite A8; field). rewrite R0. rewrite (power_of f A F eq_refl) by lra.
  assert (Q : Rpower (1 - (1 - x / 10 ^ 8)) (-3 / 8) <= 1 + 2 * (1 - x / 10 ^ 8)) by (apply power_up; lra).
  set (p := Rpower (1 - (1 - x / 10 ^ 8)) (-3 / 8)) in *. replace ((f * p - f) / f) with (p - 1) by (field; lra). lra.
Qed.
Lemma fast : determine_stationarity [Fin 1] [Fin (10 ^ 8)] [Fin 0] None None (Some [Fin (10 ^ 32)]) (Fin (/ 100 + / 10 ^ 9 / (1 - 0 ^ 2))) = Ok [false].
Proof.
  pose proof (determine_stationarity_map (fun _ : unit => Fin 1) (fun _ => Fin (10 ^ 32)) (fun _ => Fin (10 ^ 8)) (fun _ => Fin 0) None None (Fin (/ 100 + / 10 ^ 9 / (1 - 0 ^ 2))) [tt]) as D.
  cbn [map] in D. rewrite D. clear D. unfold circ_f_elem. rewrite inner_fin by lra. set (x := innerR _ _ _ _).
  assert (X : x < 0).
  { unfold x, innerR. replace (enhancement 0) with 1 by (unfold enhancement; replace (1 - 0 ^ 2) with 1 by ring; rewrite sqrt_1, pow1; field).
    replace (Rpower 1 (-8 / 3)) with 1 by (unfold Rpower; now rewrite ln_1, Rmult_0_r, exp_0).
    pose proof PI2_3_2. unfold PI2 in *. pose proof Ggrav_pos. pose proof clight_pos.
    assert (U1 : 2 ^ 10 <= Rpower 2 (32 / 3)). { rewrite <- Rpower_pow by lra. apply Rle_Rpower; cbn; lra. }
    assert (U2 : 1 <= Rpower PI (8 / 3)). { rewrite <- (Rpower_O PI) by lra. apply Rle_Rpower; lra. }
    assert (G1 : (10 ^ 7) ^ 3 <= Ggrav * 10 ^ 32) by (pose proof constants; lra).
    assert (U3 : (10 ^ 7) ^ 5 <= Rpower (Ggrav * 10 ^ 32) (5 / 3)). { rewrite <- (third (10 ^ 7) 5 (5 / 3)) by (cbn; lra). apply Rle_Rpower_l; lra. }
    assert (U4 : 0 < 5 * clight ^ 5 <= 10 ^ 44) by (pose proof constants; lra).
    set (a := Rpower 2 (32 / 3)) in *. set (b := Rpower PI (8 / 3)) in *. set (c := Rpower (Ggrav * 10 ^ 32) (5 / 3)) in *. set (q := 5 * clight ^ 5) in *.
    replace (a * b * 10 ^ 8 / q * c * 1) with (a * b * c * (10 ^ 8 / q)) by (field; lra).
    assert (Q : 10 ^ 8 / 10 ^ 44 <= 10 ^ 8 / q). { apply Rmult_le_compat_l; [lra|]. apply Rinv_le_contravar; lra. }
    assert (V1 : 2 ^ 10 * 1 <= a * b) by (apply Rmult_le_compat; lra).
    assert (V2 : 2 ^ 10 * 1 * (10 ^ 7) ^ 5 <= a * b * c) by (apply Rmult_le_compat; lra).
    assert (V3 : 2 ^ 10 * 1 * (10 ^ 7) ^ 5 * (10 ^ 8 / 10 ^ 44) <= a * b * c * (10 ^ 8 / q)) by (apply Rmult_le_compat; lra).
    lra. }
  cbv zeta. unfold nge. rewrite nle_f by lra. unfold merge_f_default. rewrite nsub_fin, ndiv_fin by lra. f_equal. f_equal. apply nle_f. lra.
Qed.
Lemma slow_frequency : exists F, evolve_f_orb_circ [Fin (/ 10 ^ 3)] [Fin (10 ^ 30)] [Fin (10 ^ 8)] [Fin 0] (Fin 1000000000) = Ok [Fin F] /\ F <= 8 * / 10 ^ 3.
Proof.
  pose proof (evolve_f_orb_circ_map (fun _ : unit => Fin (/ 10 ^ 3)) (fun _ => Fin (10 ^ 30)) (fun _ => Fin (10 ^ 8)) (fun _ => Fin 0) (Fin 1000000000) [tt]) as EM.
  cbn [map] in EM. rewrite EM. clear EM. unfold circ_f_elem. pose proof slow as D. set (s := / 100 - / 10 ^ 9 / (1 - 0 ^ 2)) in D.
  assert (I : inner_part (Fin (/ 10 ^ 3)) (Fin (10 ^ 30)) (Fin (10 ^ 8)) (Fin 0) = Fin (innerR (/ 10 ^ 3) (10 ^ 30) (10 ^ 8) 0)) by (apply inner_fin; lra).
  apply (exact_decision _ _ _ _ _ _ _ D) in I as Q; [|lra]. rewrite I. set (x := innerR _ _ _ _) in *. cbv zeta. unfold nge. destruct Q as [(_ & Q)|[(_ & Q)|(X & Q)]].
  - exfalso. symmetry in Q. apply nle_fin in Q. unfold s in Q. lra.
  - discriminate Q.
  - symmetry in Q. apply nle_fin in Q. rewrite nle_t by lra. rewrite npowr_fin by lra. eexists. split; [reflexivity|]. set (F := Rpower x (-3 / 8)) in *. unfold s in Q. lra.
Qed.
