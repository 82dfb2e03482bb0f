(** ShareFacts.v -- the share of the luminosity in the n = 2 harmonic falls with the eccentricity. *)
From Coq Require Import Reals ZArith List Lra Lia.
From Coquelicot Require Import Coquelicot.
From Verif Require Import Num NumFacts Utils Spec UtilsFacts EvolSpec Bessel BesselFacts Harmonics HarmSpec HarmThms SumSpec ParsevalThms ParsevalStrain BesselPositive HarmonicSums.
Import ListNotations.
Open Scope R_scope.

(** ** Certificates: polynomials in Bernstein form *)
Lemma disc_0 c : (0) <= c <= (1 / 2) -> 0 < (106368) + (118580) * c ^ 1 + (-11230720 / 9) * c ^ 2 + (4730579 / 9) * c ^ 3 + (156214481 / 54) * c ^ 4 + (-4372002343 / 1296) * c ^ 5 + (1308275387 / 1296) * c ^ 6 + (-4755109 / 162) * c ^ 7 + (-2110727 / 1296) * c ^ 8 + (629222 / 27) * c ^ 9 + (21904 / 9) * c ^ 10.
Proof.
  intros [H1 H2]. replace ((106368) + (118580) * c ^ 1 + (-11230720 / 9) * c ^ 2 + (4730579 / 9) * c ^ 3 + (156214481 / 54) * c ^ 4 + (-4372002343 / 1296) * c ^ 5 + (1308275387 / 1296) * c ^ 6 + (-4755109 / 162) * c ^ 7 + (-2110727 / 1296) * c ^ 8 + (629222 / 27) * c ^ 9 + (21904 / 9) * c ^ 10) with ((108920832) * ((c - (0)) ^ 0 * ((1 / 2) - c) ^ 10) + (1149921280) * ((c - (0)) ^ 1 * ((1 / 2) - c) ^ 9) + (46155622400 / 9) * ((c - (0)) ^ 2 * ((1 / 2) - c) ^ 8) + (114910497152 / 9) * ((c - (0)) ^ 3 * ((1 / 2) - c) ^ 7) + (531487367584 / 27) * ((c - (0)) ^ 4 * ((1 / 2) - c) ^ 6) + (1589573778802 / 81) * ((c - (0)) ^ 5 * ((1 / 2) - c) ^ 5) + (1034363350357 / 81) * ((c - (0)) ^ 6 * ((1 / 2) - c) ^ 4) + (431211832652 / 81) * ((c - (0)) ^ 7 * ((1 / 2) - c) ^ 3) + (437129006561 / 324) * ((c - (0)) ^ 8 * ((1 / 2) - c) ^ 2) + (10044438407 / 54) * ((c - (0)) ^ 9 * ((1 / 2) - c) ^ 1) + (382075781 / 36) * ((c - (0)) ^ 10 * ((1 / 2) - c) ^ 0)) by field.
  assert (L : 0 <= c - (0)) by lra. assert (U : 0 <= (1 / 2) - c) by lra. assert (P : 0 < (c - (0)) + ((1 / 2) - c)) by lra.
  revert L U P. generalize (c - (0)), ((1 / 2) - c). intros l r L U P.
  assert (T0 : 0 <= l ^ 0 * r ^ 10) by (apply Rmult_le_pos; apply pow_le; assumption).
  assert (T1 : 0 <= l ^ 1 * r ^ 9) by (apply Rmult_le_pos; apply pow_le; assumption).
  assert (T2 : 0 <= l ^ 2 * r ^ 8) by (apply Rmult_le_pos; apply pow_le; assumption).
  assert (T3 : 0 <= l ^ 3 * r ^ 7) by (apply Rmult_le_pos; apply pow_le; assumption).
  assert (T4 : 0 <= l ^ 4 * r ^ 6) by (apply Rmult_le_pos; apply pow_le; assumption).
  assert (T5 : 0 <= l ^ 5 * r ^ 5) by (apply Rmult_le_pos; apply pow_le; assumption).
  assert (T6 : 0 <= l ^ 6 * r ^ 4) by (apply Rmult_le_pos; apply pow_le; assumption).
  assert (T7 : 0 <= l ^ 7 * r ^ 3) by (apply Rmult_le_pos; apply pow_le; assumption).
  assert (T8 : 0 <= l ^ 8 * r ^ 2) by (apply Rmult_le_pos; apply pow_le; assumption).
  assert (T9 : 0 <= l ^ 9 * r ^ 1) by (apply Rmult_le_pos; apply pow_le; assumption).
  assert (T10 : 0 <= l ^ 10 * r ^ 0) by (apply Rmult_le_pos; apply pow_le; assumption).
  destruct (Rle_lt_or_eq_dec _ _ L) as [P1|P1].
  - assert (Q : 0 < l ^ 10 * r ^ 0) by (rewrite pow_O, Rmult_1_r; apply pow_lt, P1). lra.
  - assert (Q : 0 < l ^ 0 * r ^ 10) by (rewrite pow_O, Rmult_1_l; apply pow_lt; lra). lra.
Qed.
Lemma disc_1 c : (1 / 2) <= c <= (5 / 8) -> 0 < (106368) + (118580) * c ^ 1 + (-11230720 / 9) * c ^ 2 + (4730579 / 9) * c ^ 3 + (156214481 / 54) * c ^ 4 + (-4372002343 / 1296) * c ^ 5 + (1308275387 / 1296) * c ^ 6 + (-4755109 / 162) * c ^ 7 + (-2110727 / 1296) * c ^ 8 + (629222 / 27) * c ^ 9 + (21904 / 9) * c ^ 10.
Proof.
  intros [H1 H2]. replace ((106368) + (118580) * c ^ 1 + (-11230720 / 9) * c ^ 2 + (4730579 / 9) * c ^ 3 + (156214481 / 54) * c ^ 4 + (-4372002343 / 1296) * c ^ 5 + (1308275387 / 1296) * c ^ 6 + (-4755109 / 162) * c ^ 7 + (-2110727 / 1296) * c ^ 8 + (629222 / 27) * c ^ 9 + (21904 / 9) * c ^ 10) with ((100158873534464 / 9) * ((c - (1 / 2)) ^ 0 * ((5 / 8) - c) ^ 10) + (2439413126660096 / 27) * ((c - (1 / 2)) ^ 1 * ((5 / 8) - c) ^ 9) + (26110327509745664 / 81) * ((c - (1 / 2)) ^ 2 * ((5 / 8) - c) ^ 8) + (17886653056385024 / 27) * ((c - (1 / 2)) ^ 3 * ((5 / 8) - c) ^ 7) + (69924350042212352 / 81) * ((c - (1 / 2)) ^ 4 * ((5 / 8) - c) ^ 6) + (59926644432750592 / 81) * ((c - (1 / 2)) ^ 5 * ((5 / 8) - c) ^ 5) + (33941896500403712 / 81) * ((c - (1 / 2)) ^ 6 * ((5 / 8) - c) ^ 4) + (12507396367451008 / 81) * ((c - (1 / 2)) ^ 7 * ((5 / 8) - c) ^ 3) + (978083549534860 / 27) * ((c - (1 / 2)) ^ 8 * ((5 / 8) - c) ^ 2) + (439826401137880 / 81) * ((c - (1 / 2)) ^ 9 * ((5 / 8) - c) ^ 1) + (13270395965164 / 27) * ((c - (1 / 2)) ^ 10 * ((5 / 8) - c) ^ 0)) by field.
  assert (L : 0 <= c - (1 / 2)) by lra. assert (U : 0 <= (5 / 8) - c) by lra. assert (P : 0 < (c - (1 / 2)) + ((5 / 8) - c)) by lra.
  revert L U P. generalize (c - (1 / 2)), ((5 / 8) - c). intros l r L U P.
  assert (T0 : 0 <= l ^ 0 * r ^ 10) by (apply Rmult_le_pos; apply pow_le; assumption).
  assert (T1 : 0 <= l ^ 1 * r ^ 9) by (apply Rmult_le_pos; apply pow_le; assumption).
  assert (T2 : 0 <= l ^ 2 * r ^ 8) by (apply Rmult_le_pos; apply pow_le; assumption).
  assert (T3 : 0 <= l ^ 3 * r ^ 7) by (apply Rmult_le_pos; apply pow_le; assumption).
  assert (T4 : 0 <= l ^ 4 * r ^ 6) by (apply Rmult_le_pos; apply pow_le; assumption).
  assert (T5 : 0 <= l ^ 5 * r ^ 5) by (apply Rmult_le_pos; apply pow_le; assumption).
  assert (T6 : 0 <= l ^ 6 * r ^ 4) by (apply Rmult_le_pos; apply pow_le; assumption).
  assert (T7 : 0 <= l ^ 7 * r ^ 3) by (apply Rmult_le_pos; apply pow_le; assumption).
  assert (T8 : 0 <= l ^ 8 * r ^ 2) by (apply Rmult_le_pos; apply pow_le; assumption).
  assert (T9 : 0 <= l ^ 9 * r ^ 1) by (apply Rmult_le_pos; apply pow_le; assumption).
  assert (T10 : 0 <= l ^ 10 * r ^ 0) by (apply Rmult_le_pos; apply pow_le; assumption).
  destruct (Rle_lt_or_eq_dec _ _ L) as [P1|P1].
  - assert (Q : 0 < l ^ 10 * r ^ 0) by (rewrite pow_O, Rmult_1_r; apply pow_lt, P1). lra.
  - assert (Q : 0 < l ^ 0 * r ^ 10) by (rewrite pow_O, Rmult_1_l; apply pow_lt; lra). lra.
Qed.
Lemma disc_2 c : (5 / 8) <= c <= (3 / 4) -> 0 < (106368) + (118580) * c ^ 1 + (-11230720 / 9) * c ^ 2 + (4730579 / 9) * c ^ 3 + (156214481 / 54) * c ^ 4 + (-4372002343 / 1296) * c ^ 5 + (1308275387 / 1296) * c ^ 6 + (-4755109 / 162) * c ^ 7 + (-2110727 / 1296) * c ^ 8 + (629222 / 27) * c ^ 9 + (21904 / 9) * c ^ 10.
Proof.
  intros [H1 H2]. replace ((106368) + (118580) * c ^ 1 + (-11230720 / 9) * c ^ 2 + (4730579 / 9) * c ^ 3 + (156214481 / 54) * c ^ 4 + (-4372002343 / 1296) * c ^ 5 + (1308275387 / 1296) * c ^ 6 + (-4755109 / 162) * c ^ 7 + (-2110727 / 1296) * c ^ 8 + (629222 / 27) * c ^ 9 + (21904 / 9) * c ^ 10) with ((13270395965164 / 27) * ((c - (5 / 8)) ^ 0 * ((3 / 4) - c) ^ 10) + (356397356771960 / 81) * ((c - (5 / 8)) ^ 1 * ((3 / 4) - c) ^ 9) + (727796416437100 / 27) * ((c - (5 / 8)) ^ 2 * ((3 / 4) - c) ^ 8) + (9324352626039872 / 81) * ((c - (5 / 8)) ^ 3 * ((3 / 4) - c) ^ 7) + (8558889921333440 / 27) * ((c - (5 / 8)) ^ 4 * ((3 / 4) - c) ^ 6) + (45646503776342528 / 81) * ((c - (5 / 8)) ^ 5 * ((3 / 4) - c) ^ 5) + (17714585072418944 / 27) * ((c - (5 / 8)) ^ 6 * ((3 / 4) - c) ^ 4) + (1496326444721152 / 3) * ((c - (5 / 8)) ^ 7 * ((3 / 4) - c) ^ 3) + (2152245607755776 / 9) * ((c - (5 / 8)) ^ 8 * ((3 / 4) - c) ^ 2) + (197321510877184 / 3) * ((c - (5 / 8)) ^ 9 * ((3 / 4) - c) ^ 1) + (7924847805440) * ((c - (5 / 8)) ^ 10 * ((3 / 4) - c) ^ 0)) by field.
  assert (L : 0 <= c - (5 / 8)) by lra. assert (U : 0 <= (3 / 4) - c) by lra. assert (P : 0 < (c - (5 / 8)) + ((3 / 4) - c)) by lra.
  revert L U P. generalize (c - (5 / 8)), ((3 / 4) - c). intros l r L U P.
  assert (T0 : 0 <= l ^ 0 * r ^ 10) by (apply Rmult_le_pos; apply pow_le; assumption).
  assert (T1 : 0 <= l ^ 1 * r ^ 9) by (apply Rmult_le_pos; apply pow_le; assumption).
  assert (T2 : 0 <= l ^ 2 * r ^ 8) by (apply Rmult_le_pos; apply pow_le; assumption).
  assert (T3 : 0 <= l ^ 3 * r ^ 7) by (apply Rmult_le_pos; apply pow_le; assumption).
  assert (T4 : 0 <= l ^ 4 * r ^ 6) by (apply Rmult_le_pos; apply pow_le; assumption).
  assert (T5 : 0 <= l ^ 5 * r ^ 5) by (apply Rmult_le_pos; apply pow_le; assumption).
  assert (T6 : 0 <= l ^ 6 * r ^ 4) by (apply Rmult_le_pos; apply pow_le; assumption).
  assert (T7 : 0 <= l ^ 7 * r ^ 3) by (apply Rmult_le_pos; apply pow_le; assumption).
  assert (T8 : 0 <= l ^ 8 * r ^ 2) by (apply Rmult_le_pos; apply pow_le; assumption).
  assert (T9 : 0 <= l ^ 9 * r ^ 1) by (apply Rmult_le_pos; apply pow_le; assumption).
  assert (T10 : 0 <= l ^ 10 * r ^ 0) by (apply Rmult_le_pos; apply pow_le; assumption).
  destruct (Rle_lt_or_eq_dec _ _ L) as [P1|P1].
  - assert (Q : 0 < l ^ 10 * r ^ 0) by (rewrite pow_O, Rmult_1_r; apply pow_lt, P1). lra.
  - assert (Q : 0 < l ^ 0 * r ^ 10) by (rewrite pow_O, Rmult_1_l; apply pow_lt; lra). lra.
Qed.
Lemma disc_3 c : (3 / 4) <= c <= (1) -> 0 < (106368) + (118580) * c ^ 1 + (-11230720 / 9) * c ^ 2 + (4730579 / 9) * c ^ 3 + (156214481 / 54) * c ^ 4 + (-4372002343 / 1296) * c ^ 5 + (1308275387 / 1296) * c ^ 6 + (-4755109 / 162) * c ^ 7 + (-2110727 / 1296) * c ^ 8 + (629222 / 27) * c ^ 9 + (21904 / 9) * c ^ 10.
Proof.
  intros [H1 H2]. replace ((106368) + (118580) * c ^ 1 + (-11230720 / 9) * c ^ 2 + (4730579 / 9) * c ^ 3 + (156214481 / 54) * c ^ 4 + (-4372002343 / 1296) * c ^ 5 + (1308275387 / 1296) * c ^ 6 + (-4755109 / 162) * c ^ 7 + (-2110727 / 1296) * c ^ 8 + (629222 / 27) * c ^ 9 + (21904 / 9) * c ^ 10) with ((7739109185) * ((c - (3 / 4)) ^ 0 * ((1) - c) ^ 10) + (311126250718 / 3) * ((c - (3 / 4)) ^ 1 * ((1) - c) ^ 9) + (5399382734129 / 9) * ((c - (3 / 4)) ^ 2 * ((1) - c) ^ 8) + (5924247569216 / 3) * ((c - (3 / 4)) ^ 3 * ((1) - c) ^ 7) + (110908189597712 / 27) * ((c - (3 / 4)) ^ 4 * ((1) - c) ^ 6) + (458261289495872 / 81) * ((c - (3 / 4)) ^ 5 * ((1) - c) ^ 5) + (15706951368704 / 3) * ((c - (3 / 4)) ^ 6 * ((1) - c) ^ 4) + (260696860780544 / 81) * ((c - (3 / 4)) ^ 7 * ((1) - c) ^ 3) + (33972896911360 / 27) * ((c - (3 / 4)) ^ 8 * ((1) - c) ^ 2) + (22876291481600 / 81) * ((c - (3 / 4)) ^ 9 * ((1) - c) ^ 1) + (82862080000 / 3) * ((c - (3 / 4)) ^ 10 * ((1) - c) ^ 0)) by field.
  assert (L : 0 <= c - (3 / 4)) by lra. assert (U : 0 <= (1) - c) by lra. assert (P : 0 < (c - (3 / 4)) + ((1) - c)) by lra.
  revert L U P. generalize (c - (3 / 4)), ((1) - c). intros l r L U P.
  assert (T0 : 0 <= l ^ 0 * r ^ 10) by (apply Rmult_le_pos; apply pow_le; assumption).
  assert (T1 : 0 <= l ^ 1 * r ^ 9) by (apply Rmult_le_pos; apply pow_le; assumption).
  assert (T2 : 0 <= l ^ 2 * r ^ 8) by (apply Rmult_le_pos; apply pow_le; assumption).
  assert (T3 : 0 <= l ^ 3 * r ^ 7) by (apply Rmult_le_pos; apply pow_le; assumption).
  assert (T4 : 0 <= l ^ 4 * r ^ 6) by (apply Rmult_le_pos; apply pow_le; assumption).
  assert (T5 : 0 <= l ^ 5 * r ^ 5) by (apply Rmult_le_pos; apply pow_le; assumption).
  assert (T6 : 0 <= l ^ 6 * r ^ 4) by (apply Rmult_le_pos; apply pow_le; assumption).
  assert (T7 : 0 <= l ^ 7 * r ^ 3) by (apply Rmult_le_pos; apply pow_le; assumption).
  assert (T8 : 0 <= l ^ 8 * r ^ 2) by (apply Rmult_le_pos; apply pow_le; assumption).
  assert (T9 : 0 <= l ^ 9 * r ^ 1) by (apply Rmult_le_pos; apply pow_le; assumption).
  assert (T10 : 0 <= l ^ 10 * r ^ 0) by (apply Rmult_le_pos; apply pow_le; assumption).
  destruct (Rle_lt_or_eq_dec _ _ L) as [P1|P1].
  - assert (Q : 0 < l ^ 10 * r ^ 0) by (rewrite pow_O, Rmult_1_r; apply pow_lt, P1). lra.
  - assert (Q : 0 < l ^ 0 * r ^ 10) by (rewrite pow_O, Rmult_1_l; apply pow_lt; lra). lra.
Qed.
Lemma lead_pos c : (0) <= c <= (1) -> 0 < (144) + (1547 / 3) * c ^ 1 + (-661 / 2) * c ^ 2 + (-4075 / 24) * c ^ 3.
Proof.
  intros [H1 H2]. replace ((144) + (1547 / 3) * c ^ 1 + (-661 / 2) * c ^ 2 + (-4075 / 24) * c ^ 3) with ((144) * ((c - (0)) ^ 0 * ((1) - c) ^ 3) + (2843 / 3) * ((c - (0)) ^ 1 * ((1) - c) ^ 2) + (6797 / 6) * ((c - (0)) ^ 2 * ((1) - c) ^ 1) + (1275 / 8) * ((c - (0)) ^ 3 * ((1) - c) ^ 0)) by field.
  assert (L : 0 <= c - (0)) by lra. assert (U : 0 <= (1) - c) by lra. assert (P : 0 < (c - (0)) + ((1) - c)) by lra.
  revert L U P. generalize (c - (0)), ((1) - c). intros l r L U P.
  assert (T0 : 0 <= l ^ 0 * r ^ 3) by (apply Rmult_le_pos; apply pow_le; assumption).
  assert (T1 : 0 <= l ^ 1 * r ^ 2) by (apply Rmult_le_pos; apply pow_le; assumption).
  assert (T2 : 0 <= l ^ 2 * r ^ 1) by (apply Rmult_le_pos; apply pow_le; assumption).
  assert (T3 : 0 <= l ^ 3 * r ^ 0) by (apply Rmult_le_pos; apply pow_le; assumption).
  destruct (Rle_lt_or_eq_dec _ _ L) as [P1|P1].
  - assert (Q : 0 < l ^ 3 * r ^ 0) by (rewrite pow_O, Rmult_1_r; apply pow_lt, P1). lra.
  - assert (Q : 0 < l ^ 0 * r ^ 3) by (rewrite pow_O, Rmult_1_l; apply pow_lt; lra). lra.
Qed.
Lemma disc_pos c : 0 <= c <= 1 -> 0 < (106368) + (118580) * c ^ 1 + (-11230720 / 9) * c ^ 2 + (4730579 / 9) * c ^ 3 + (156214481 / 54) * c ^ 4 + (-4372002343 / 1296) * c ^ 5 + (1308275387 / 1296) * c ^ 6 + (-4755109 / 162) * c ^ 7 + (-2110727 / 1296) * c ^ 8 + (629222 / 27) * c ^ 9 + (21904 / 9) * c ^ 10.
Proof.
  intros H. destruct (Rle_lt_dec c (1/2)); [apply disc_0; lra|]. destruct (Rle_lt_dec c (5/8)); [apply disc_1; lra|]. destruct (Rle_lt_dec c (3/4)); [apply disc_2; lra|]. apply disc_3; lra.
Qed.


(** The quadratic form to which the derivative of the share is proportional, at [c] = e^2. *)
Definition lead c : R := (-144) + (-1115 / 3) * c ^ 1 + (5077 / 6) * c ^ 2 + (-3857 / 24) * c ^ 3 + (-4075 / 24) * c ^ 4.
Definition cross c : R := (842 / 3) * c ^ 1 + (-76 / 3) * c ^ 2 + (-40505 / 36) * c ^ 3 + (3392 / 3) * c ^ 4 + (-7615 / 36) * c ^ 5 + (-148 / 3) * c ^ 6.
Definition tail c : R := (-554 / 3) * c ^ 1 + (956 / 3) * c ^ 2 + (17617 / 36) * c ^ 3 + (-1168) * c ^ 4 + (31799 / 72) * c ^ 5 + (185 / 3) * c ^ 6.
Lemma form_negative c x j : 0 < c < 1 -> (x <> 0 \/ j <> 0) -> lead c * x ^ 2 + cross c * x * j + tail c * j ^ 2 < 0.
Proof.
  intros H N. pose proof (disc_pos c ltac:(lra)) as D. pose proof (lead_pos c ltac:(lra)) as L.
  assert (EL : lead c = - (1 - c) * ((144) + (1547 / 3) * c ^ 1 + (-661 / 2) * c ^ 2 + (-4075 / 24) * c ^ 3)) by (unfold lead; field).
  assert (L0 : lead c < 0) by (rewrite EL; nra).
  assert (ED : 4 * lead c * tail c - cross c ^ 2 = c * (1 - c) * ((106368) + (118580) * c ^ 1 + (-11230720 / 9) * c ^ 2 + (4730579 / 9) * c ^ 3 + (156214481 / 54) * c ^ 4 + (-4372002343 / 1296) * c ^ 5 + (1308275387 / 1296) * c ^ 6 + (-4755109 / 162) * c ^ 7 + (-2110727 / 1296) * c ^ 8 + (629222 / 27) * c ^ 9 + (21904 / 9) * c ^ 10)) by (unfold lead, cross, tail; field).
  assert (D0 : 0 < 4 * lead c * tail c - cross c ^ 2) by (rewrite ED; apply Rmult_lt_0_compat; [apply Rmult_lt_0_compat; lra|exact D]).
  assert (E : 4 * lead c * (lead c * x ^ 2 + cross c * x * j + tail c * j ^ 2) = (2 * lead c * x + cross c * j) ^ 2 + (4 * lead c * tail c - cross c ^ 2) * j ^ 2) by ring.
  assert (P : 0 < (2 * lead c * x + cross c * j) ^ 2 + (4 * lead c * tail c - cross c ^ 2) * j ^ 2).
  { destruct (Req_dec j 0) as [->|J].
    - destruct N as [N|N]; [|lra]. replace ((2 * lead c * x + cross c * 0) ^ 2 + (4 * lead c * tail c - cross c ^ 2) * 0 ^ 2) with ((2 * lead c * x) ^ 2) by ring.
      apply pow2_gt_0. apply Rmult_integral_contrapositive_currified; [lra|exact N].
    - pose proof (pow2_ge_0 (2 * lead c * x + cross c * j)). pose proof (pow2_gt_0 j J). nra. }
  rewrite <- E in P. nra.
Qed.

(** ** J_2(2 e) and e J_2'(2 e) *)
Definition jj (e : R) : R := besselJ 2 (2 * e).
Definition uu (e : R) : R := e * ((besselJ 1 (2 * e) - besselJ 3 (2 * e)) / 2).
Lemma d_at n e : is_derive (fun e => besselJ n (2 * e)) e (besselJ (n - 1) (2 * e) - besselJ (n + 1) (2 * e)).
Proof.
  replace (besselJ (n - 1) (2 * e) - besselJ (n + 1) (2 * e)) with (2 * ((besselJ (n - 1) (2 * e) - besselJ (n + 1) (2 * e)) / 2)) by field.
  apply (is_derive_comp (besselJ n) (fun e => 2 * e) e); [apply besselJ_derive|]. auto_derive; auto; ring.
Qed.
Lemma d_jj e : 0 < e -> is_derive jj e (2 * uu e / e).
Proof. intros H. pose proof (d_at 2 e) as D. cbn in D. unfold jj, uu. replace (2 * (e * ((besselJ 1 (2 * e) - besselJ 3 (2 * e)) / 2)) / e) with (besselJ 1 (2 * e) - besselJ 3 (2 * e)) by (field; lra). exact D. Qed.
Lemma d_uu e : 0 < e -> is_derive uu e (2 * (1 - e ^ 2) * jj e / e).
Proof.
  intros H. pose proof (d_at 1 e) as D1. pose proof (d_at 3 e) as D3. cbn in D1, D3.
  pose proof (bessel_recurrence 1 (2 * e)) as R1. pose proof (bessel_recurrence 2 (2 * e)) as R2. pose proof (bessel_recurrence 3 (2 * e)) as R3. cbn in R1, R2, R3.
  set (b0 := besselJ 0 (2 * e)) in *. set (b2 := besselJ 2 (2 * e)) in *. set (b4 := besselJ 4 (2 * e)) in *.
  set (f1 := fun e => besselJ 1 (2 * e)) in *. set (f3 := fun e => besselJ 3 (2 * e)) in *.
  assert (D : is_derive (fun e => e * ((f1 e - f3 e) / 2)) e ((f1 e - f3 e) / 2 + e * ((b0 - b2 - (b2 - b4)) / 2))).
  { assert (X1 : Derive (fun x : R => f1 x) e = b0 - b2) by (apply is_derive_unique, D1).
    assert (X3 : Derive (fun x : R => f3 x) e = b2 - b4) by (apply is_derive_unique, D3).
    auto_derive; [split; [eexists; exact D1|split; [eexists; exact D3|auto]]|]. rewrite X1, X3. field. }
  unfold uu. replace (2 * (1 - e ^ 2) * jj e / e) with ((f1 e - f3 e) / 2 + e * ((b0 - b2 - (b2 - b4)) / 2)); [exact D|].
  unfold jj. fold b2. change (besselJ 1 (2 * e)) with (f1 e) in *. change (besselJ 3 (2 * e)) with (f3 e) in *.
  apply (Rmult_eq_reg_l (2 * e)); [|lra]. replace (2 * e * (2 * (1 - e ^ 2) * b2 / e)) with (4 * (1 - e ^ 2) * b2) by (field; lra).
  nra.
Qed.
Lemma not_both e : 0 < e -> jj e - uu e <> 0 \/ jj e <> 0.
Proof.
  intros H. destruct (Req_dec (jj e) 0) as [Z|Z]; [left|now right]. rewrite Z. intros E. assert (U : uu e = 0) by lra. unfold uu in U. unfold jj in Z.
  pose proof (bessel_recurrence 2 (2 * e)) as R2. cbn in R2. rewrite Z in R2.
  assert (besselJ 1 (2 * e) = 0) by nra. apply (neighbours_not_zero 1 (2 * e)); [lra|exact H0|exact Z].
Qed.

(** ** g(2, e) *)
Definition g2 (e : R) : R :=
  ((4 * uu e * (1 - e ^ 2) - (2 - e ^ 2) * jj e) ^ 2 + (1 - e ^ 2) * (4 * (1 - e ^ 2) * jj e - 2 * uu e) ^ 2 + e ^ 4 / 3 * jj e ^ 2) / (2 * e ^ 4).
Lemma g2_value jv e : (forall k x, jv k (Fin x) = Fin (besselJ k x)) -> 0 < e <= 1 -> peters_g jv 2 (Fin e) = Fin (g2 e).
Proof.
  intros HJ He. destruct (published_g jv 2 e HJ ltac:(lia) He) as (D & HD & G). rewrite G. f_equal.
  assert (ED : D = (besselJ 1 (2 * e) - besselJ 3 (2 * e)) / 2).
  { rewrite <- (is_derive_unique _ _ _ HD). apply is_derive_unique. exact (besselJ_derive 2 (2 * e)). }
  unfold harmonic_power, g2, jj, uu. rewrite <- ED. field. lra.
Qed.
Lemma g2_pos e : 0 < e < 1 -> 0 < g2 e.
Proof.
  intros He. pose (jv := fun k x => match x with Fin r => Fin (besselJ k r) | _ => NaN end).
  assert (HJ : forall k x, jv k (Fin x) = Fin (besselJ k x)) by reflexivity.
  destruct (every_harmonic jv 2 e HJ ltac:(lia) He) as (g & E & P). rewrite (g2_value jv e HJ) in E by lra. injection E as ->. exact P.
Qed.
Definition g2d (e : R) : R := let x := jj e - uu e in let j := jj e in let c := e ^ 2 in
  ((-144 + 184 * c - 48 * c ^ 2) * x ^ 2 + (176 * c - 928 / 3 * c ^ 2 + 128 * c ^ 3) * x * j + (- 80 * c + 592 / 3 * c ^ 2 - 112 * c ^ 3) * j ^ 2) / (2 * e ^ 5).
Lemma d_g2 e : 0 < e -> is_derive g2 e (g2d e).
Proof.
  intros H. pose proof (d_jj e H) as DJ. pose proof (d_uu e H) as DU.
  assert (XJ : Derive (fun x : R => jj x) e = 2 * uu e / e) by (apply is_derive_unique, DJ).
  assert (XU : Derive (fun x : R => uu x) e = 2 * (1 - e ^ 2) * jj e / e) by (apply is_derive_unique, DU).
  unfold g2. auto_derive.
  - repeat split; try (eexists; eassumption); auto. apply Rmult_integral_contrapositive_currified; [lra|]. exact (pow_nonzero e 4 ltac:(lra)).
  - rewrite XJ, XU. unfold g2d. field. lra.
Qed.

(** ** The share, squared *)
Definition nn (e : R) : R := 1 + 73 / 24 * e ^ 2 + 37 / 96 * e ^ 4.
Definition share2 (e : R) : R := g2 e ^ 2 * (1 - e ^ 2) ^ 7 / nn e ^ 2.
Lemma nn_pos e : 0 < nn e.
Proof. unfold nn. pose proof (pow2_ge_0 e). pose proof (pow2_ge_0 (e ^ 2)). nra. Qed.
Lemma d_share2 e : 0 < e -> is_derive share2 e
  (g2 e * (1 - e ^ 2) ^ 6 / (nn e ^ 3 * e ^ 5) * (lead (e ^ 2) * (jj e - uu e) ^ 2 + cross (e ^ 2) * (jj e - uu e) * jj e + tail (e ^ 2) * jj e ^ 2)).
Proof.
  intros H. pose proof (d_g2 e H) as DG. pose proof (nn_pos e) as NP.
  assert (XG : Derive (fun x : R => g2 x) e = g2d e) by (apply is_derive_unique, DG).
  assert (D : is_derive share2 e (2 * g2 e * (1 - e ^ 2) ^ 6 / nn e ^ 3 * ((1 - e ^ 2) * g2d e * nn e - 7 * e * g2 e * nn e - (1 - e ^ 2) * g2 e * (73 / 12 * e + 37 / 24 * e ^ 3)))).
  { unfold share2, nn in *. auto_derive.
    - repeat split; try (eexists; eassumption); auto. apply Rmult_integral_contrapositive_currified; [lra|]. rewrite Rmult_1_r. lra.
    - rewrite XG. field. lra. }
  replace (g2 e * _ / _ * _) with (2 * g2 e * (1 - e ^ 2) ^ 6 / nn e ^ 3 * ((1 - e ^ 2) * g2d e * nn e - 7 * e * g2 e * nn e - (1 - e ^ 2) * g2 e * (73 / 12 * e + 37 / 24 * e ^ 3))); [exact D|].
  assert (E : (1 - e ^ 2) * g2d e * nn e - 7 * e * g2 e * nn e - (1 - e ^ 2) * g2 e * (73 / 12 * e + 37 / 24 * e ^ 3)
    = (lead (e ^ 2) * (jj e - uu e) ^ 2 + cross (e ^ 2) * (jj e - uu e) * jj e + tail (e ^ 2) * jj e ^ 2) / (2 * e ^ 5)).
  { unfold g2d, g2, nn, lead, cross, tail. field. lra. }
  rewrite E. field. lra.
Qed.
Lemma share2_decr a b : 0 < a < b -> b < 1 -> share2 b < share2 a.
Proof.
  intros [Ha Hab] Hb. destruct (MVT_gen share2 a b (fun e => g2 e * (1 - e ^ 2) ^ 6 / (nn e ^ 3 * e ^ 5) * (lead (e ^ 2) * (jj e - uu e) ^ 2 + cross (e ^ 2) * (jj e - uu e) * jj e + tail (e ^ 2) * jj e ^ 2))) as (c & Hc & E).
  - intros x Hx. apply d_share2. rewrite Rmin_left in Hx by lra. lra.
  - intros x Hx. rewrite Rmin_left in Hx by lra. apply continuity_pt_filterlim. eapply (continuous_of_derive share2 x). apply d_share2. lra.
  - rewrite Rmin_left, Rmax_right in Hc by lra. assert (C1 : 0 < c ^ 2 < 1) by nra.
    pose proof (form_negative (c ^ 2) (jj c - uu c) (jj c) C1 (not_both c ltac:(lra))) as F.
    assert (P : 0 < g2 c * (1 - c ^ 2) ^ 6 / (nn c ^ 3 * c ^ 5)).
    { apply Rmult_lt_0_compat; [apply Rmult_lt_0_compat; [apply g2_pos; lra|apply pow_lt; lra]|].
      apply Rinv_0_lt_compat, Rmult_lt_0_compat; apply pow_lt; [apply nn_pos|lra]. }
    set (W := lead (c ^ 2) * (jj c - uu c) ^ 2 + cross (c ^ 2) * (jj c - uu c) * jj c + tail (c ^ 2) * jj c ^ 2) in *.
    set (P0 := g2 c * (1 - c ^ 2) ^ 6 / (nn c ^ 3 * c ^ 5)) in *. assert (P0 * W < 0) by nra. nra.
Qed.
Lemma share2_square e : 0 <= e < 1 -> share2 e = (g2 e / enhancement e) ^ 2.
Proof.
  intros He. assert (S0 : 0 < 1 - e ^ 2) by nra. assert (R0 : 0 < sqrt (1 - e ^ 2)) by (now apply sqrt_lt_R0).
  pose proof (nn_pos e) as NP. unfold share2, enhancement. fold (nn e).
  assert (S : 1 - e ^ 2 = sqrt (1 - e ^ 2) ^ 2) by (symmetry; apply pow2_sqrt; lra).
  rewrite S at 1. field. lra.
Qed.

(** ** The share falls *)
Lemma share_falls jv a b : (forall k x, jv k (Fin x) = Fin (besselJ k x)) -> 0 <= a < b -> b < 1 -> exists ga gb Fa Fb,
  peters_g jv 2 (Fin a) = Fin ga /\ peters_g jv 2 (Fin b) = Fin gb /\ peters_f (Fin a) = Fin Fa /\ peters_f (Fin b) = Fin Fb /\
  gb / Fb < ga / Fa.
Proof.
  intros HJ [Ha Hab] Hb. pose proof (peters_f_value a ltac:(lra)) as [EA LA]. pose proof (peters_f_value b ltac:(lra)) as [EB LB].
  destruct (Rle_lt_or_eq_dec _ _ Ha) as [P|P].
  - exists (g2 a), (g2 b), (enhancement a), (enhancement b). split; [apply g2_value; auto; lra|]. split; [apply g2_value; auto; lra|]. split; [exact EA|]. split; [exact EB|].
    pose proof (share2_decr a b ltac:(lra) Hb) as D. rewrite !share2_square in D by lra.
    pose proof (g2_pos a ltac:(lra)). pose proof (g2_pos b ltac:(lra)).
    assert (0 < g2 a / enhancement a) by (apply Rmult_lt_0_compat; [lra|apply Rinv_0_lt_compat; lra]).
    assert (0 < g2 b / enhancement b) by (apply Rmult_lt_0_compat; [lra|apply Rinv_0_lt_compat; lra]). nra.
  - subst a. destruct (strictly_below jv b HJ ltac:(lra)) as (g & F & G & HF & L). rewrite EB in HF. injection HF as <-.
    exists 1, (g 2%Z), (enhancement 0), (enhancement b). split; [exact (circular_power jv HJ)|]. split; [apply G; lia|]. split; [exact EA|]. split; [exact EB|].
    assert (E0 : enhancement 0 = 1) by (unfold enhancement; replace (1 - 0 ^ 2) with 1 by ring; rewrite sqrt_1, pow1; field). rewrite E0.
    pose proof (L 2%nat) as L2. rewrite !total_S, total_0 in L2. change (Z.of_nat 1) with 1%Z in L2. change (Z.of_nat 2) with 2%Z in L2.
    pose proof (proj2 (G 1%Z ltac:(lia))). apply (Rmult_lt_reg_r (enhancement b)); [lra|].
    replace (g 2%Z / enhancement b * enhancement b) with (g 2%Z) by (field; lra). lra.
Qed.
Lemma within_below jv tol a b : (forall k x, jv k (Fin x) = Fin (besselJ k x)) -> 0 <= a <= b -> b < 1 -> within_tolerance jv tol b -> within_tolerance jv tol a.
Proof.
  intros HJ [Ha Hab] Hb W. destruct (Rle_lt_or_eq_dec _ _ Hab) as [L|L]; [|now subst].
  destruct (share_falls jv a b HJ ltac:(lra) Hb) as (ga & gb & Fa & Fb & GA & GB & EA & EB & S).
  pose proof (peters_f_value a ltac:(lra)) as [EA' LA]. pose proof (peters_f_value b ltac:(lra)) as [EB' LB].
  rewrite EA' in EA. rewrite EB' in EB. injection EA as <-. injection EB as <-.
  destruct W as (g & G & W). rewrite GB in G. injection G as <-. exists ga. split; [exact GA|].
  apply Rlt_le. apply (Rmult_lt_reg_r (/ enhancement a)); [apply Rinv_0_lt_compat; lra|].
  replace ((1 - tol) * enhancement a * / enhancement a) with (1 - tol) by (field; lra). fold (ga / enhancement a).
  apply Rle_lt_trans with (gb / enhancement b); [|exact S]. apply (Rmult_le_reg_r (enhancement b)); [lra|].
  replace (gb / enhancement b * enhancement b) with gb by (field; lra). exact W.
Qed.
Lemma exact_transition jv tol e : (forall k x, jv k (Fin x) = Fin (besselJ k x)) -> 0 <= tol -> eccentric_transition jv (Fin tol) = Ok e ->
  exists x, e = Fin x /\ 0 < x <= 1/5 /\
    (forall y, 0 <= y < 1 -> within_tolerance jv tol y -> y < x) /\
    (forall y, 0 <= y <= x - 1/5 / 9999 -> within_tolerance jv tol y).
Proof.
  intros HJ H0 H. destruct (transition_thm jv besselJ tol e HJ H) as (j & Hj & -> & NW & W). exists (grid_ecc j). split; [reflexivity|].
  pose proof (grid_ecc_bounds j Hj) as Bj.
  assert (T0 : within_tolerance jv tol 0).
  { exists 1. split; [exact (circular_power jv HJ)|]. assert (E0 : enhancement 0 = 1) by (unfold enhancement; replace (1 - 0 ^ 2) with 1 by ring; rewrite sqrt_1, pow1; field). rewrite E0. lra. }
  assert (J0 : j <> 0%nat). { intros ->. apply NW. unfold grid_ecc. cbn [INR]. rewrite Rmult_0_l. exact T0. }
  assert (ST : 1/5 / INR (Z.to_nat 10000 - 1) = 1/5 / 9999).
  { f_equal. rewrite minus_INR by (pose proof ten_thousand; lia). rewrite INR_IZR_INZ, Z2Nat.id by lia. cbn [INR]. lra. }
  split; [split; [|lra]|split].
  - unfold grid_ecc. rewrite ST. apply Rmult_lt_0_compat; [apply lt_0_INR; lia|lra].
  - intros y Hy Wy. apply Rnot_le_lt. intros L. apply NW. apply (within_below jv tol (grid_ecc j) y HJ); [lra|lra|exact Wy].
  - intros y Hy. assert (E : grid_ecc (j - 1) = grid_ecc j - 1/5 / 9999).
    { unfold grid_ecc. rewrite ST, minus_INR by lia. cbn [INR]. ring. }
    apply (within_below jv tol y (grid_ecc (j - 1)) HJ); [rewrite E; exact Hy|rewrite E; lra|]. apply W. lia.
Qed.
