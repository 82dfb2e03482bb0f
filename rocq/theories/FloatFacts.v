(** FloatFacts.v -- propagation of rounding errors through positive expressions. *)
From Coq Require Import Reals ZArith List Lra Lia Bool.
From Verif Require Import Num NumFacts Utils Float FloatSpec.
Import ListNotations.
Open Scope R_scope.

Definition eps : R := Rpower 2 (- 52).
Lemma eps_pow : eps = / 2 ^ 52.
Proof. unfold eps. replace (-52) with (- (52)) by lra. rewrite Rpower_Ropp. f_equal. rewrite <- Rpower_pow by lra. f_equal. cbn. lra. Qed.
Lemma eps_pos : 0 < eps.
Proof. apply exp_pos. Qed.
Lemma eps_small : eps <= / 1000000000000000.
Proof. rewrite eps_pow. apply Rinv_le_contravar; lra. Qed.
Lemma half_eps : Rpower 2 (- 53) = eps / 2.
Proof.
  unfold eps. replace (- 53) with (- 52 + - (1)) by lra. rewrite Rpower_plus, (Rpower_Ropp 2 1), Rpower_1 by lra. reflexivity.
Qed.
Lemma eps_def : Rpower 2 (- 52) = eps.
Proof. reflexivity. Qed.
#[global] Opaque eps.

(** *** ln and exp near 1 and 0 *)
Lemma Rabs_le_inv x a : Rabs x <= a -> - a <= x <= a.
Proof. unfold Rabs. destruct (Rcase_abs x); lra. Qed.
Lemma ln_le_pred x : 0 < x -> ln x <= x - 1.
Proof.
  intros H. destruct (Req_dec x 1) as [->|N]; [rewrite ln_1; lra|]. left.
  assert (E : 1 + ln x < exp (ln x)). { apply exp_ineq1. intros E. apply N. rewrite <- exp_0, <- E. symmetry. now apply exp_ln. }
  rewrite exp_ln in E by exact H. lra.
Qed.
Lemma ln_near t : Rabs t <= / 2 -> Rabs (ln (1 + t)) <= 2 * Rabs t.
Proof.
  intros H. assert (P : 0 < 1 + t) by (unfold Rabs in H; destruct (Rcase_abs t); lra).
  pose proof (ln_le_pred _ P) as U.
  assert (L : - ln (1 + t) <= / (1 + t) - 1) by (rewrite <- ln_Rinv by exact P; apply ln_le_pred; now apply Rinv_0_lt_compat).
  assert (Q : / (1 + t) - 1 <= 2 * Rabs t).
  { apply Rmult_le_reg_r with (1 + t); [exact P|]. rewrite Rmult_minus_distr_r, Rinv_l by lra. unfold Rabs in *. destruct (Rcase_abs t); nra. }
  unfold Rabs in *. destruct (Rcase_abs t), (Rcase_abs (ln (1 + t))); lra.
Qed.
Lemma exp_near s : Rabs s <= / 2 -> Rabs (exp s - 1) <= 2 * Rabs s.
Proof.
  intros H. assert (L : 1 + s <= exp s). { destruct (Req_dec s 0) as [->|N]; [rewrite exp_0; lra|left; now apply exp_ineq1]. }
  assert (U : 1 - s <= exp (- s)). { destruct (Req_dec (- s) 0) as [Z|N]; [rewrite Z, exp_0; lra|left; pose proof (exp_ineq1 _ N); lra]. }
  assert (P : exp s * exp (- s) = 1) by (rewrite <- exp_plus, Rplus_opp_r; apply exp_0).
  pose proof (exp_pos s). unfold Rabs in *. destruct (Rcase_abs s), (Rcase_abs (exp s - 1)); nra.
Qed.
Lemma Rdiv_1_r x : x / 1 = x.
Proof. field. Qed.
Lemma IZR_pow a n : (0 <= n)%Z -> IZR (a ^ n) = IZR a ^ Z.to_nat n.
Proof. intros H. rewrite <- (Z2Nat.id n H) at 1. symmetry. apply pow_IZR. Qed.
Lemma ln_2 : / 2 <= ln 2 <= 1.
Proof.
  split.
  - assert (H : ln (/ 2) <= / 2 - 1) by (apply ln_le_pred; lra). rewrite ln_Rinv in H by lra. lra.
  - pose proof (ln_le_pred 2 ltac:(lra)). lra.
Qed.
Lemma within_ln n x : 0 < x -> Rabs (ln x) <= n * ln 2 -> within n x.
Proof.
  intros P H. apply Rabs_le_inv in H. unfold within, Rpower.
  assert (M : forall a b, a <= b -> exp a <= exp b). { intros a b [L| ->]; [left; now apply exp_increasing|right; reflexivity]. }
  split; [eapply Rle_trans; [apply (M _ (ln x)); lra|rewrite exp_ln by exact P; lra]|eapply Rle_trans; [|apply (M (ln x)); lra]; rewrite exp_ln by exact P; lra].
Qed.
Lemma ln_within n x : within n x -> 0 < x /\ Rabs (ln x) <= n * ln 2.
Proof.
  intros (A & B). assert (P : 0 < x) by (eapply Rlt_le_trans; [apply exp_pos|exact A]). split; [exact P|].
  assert (M : forall a b, 0 < a -> a <= b -> ln a <= ln b). { intros a b Z [L| ->]; [left; now apply ln_increasing|right; reflexivity]. }
  apply M in A; [|apply exp_pos]. apply M in B; [|exact P]. unfold Rpower in A, B. rewrite ln_exp in A, B. apply Rabs_le. lra.
Qed.

(** *** One operation *)
Definition near (k x y : R) : Prop := 0 < x /\ 0 < y /\ Rabs (ln y - ln x) <= k * eps.
Lemma near_relative k x y t : near k x y -> k * eps <= / 2 -> 2 * k * eps <= t -> accurate t x y.
Proof.
  intros (X & Y & H) S T. unfold accurate. assert (E : Rabs (exp (ln y - ln x) - 1) <= 2 * Rabs (ln y - ln x)) by (apply exp_near; lra).
  unfold Rminus at 2 in E. rewrite exp_plus, exp_Ropp, !exp_ln in E by assumption.
  rewrite (Rabs_right x) by lra. replace (y - x) with ((y * / x - 1) * x) by (field; lra). rewrite Rabs_mult, (Rabs_right x) by lra.
  apply Rmult_le_compat_r; lra.
Qed.
Lemma relative_near t x y : 0 < x -> t <= / 2 -> Rabs (y - x) <= t * x -> 0 < y /\ Rabs (ln y - ln x) <= 2 * t.
Proof.
  intros X T H. set (s := (y - x) / x).
  assert (S : Rabs s <= t). { unfold s, Rdiv. rewrite Rabs_mult, (Rabs_right (/ x)) by (left; now apply Rinv_0_lt_compat).
    apply Rmult_le_reg_r with x; [exact X|]. rewrite Rmult_assoc, Rinv_l, Rmult_1_r by lra. exact H. }
  assert (E : y = x * (1 + s)) by (unfold s; field; lra).
  assert (P : 0 < 1 + s) by (unfold Rabs in S; destruct (Rcase_abs s); lra).
  split; [rewrite E; now apply Rmult_lt_0_compat|]. rewrite E, ln_mult by assumption. replace (ln x + ln (1 + s) - ln x) with (ln (1 + s)) by ring.
  eapply Rle_trans; [apply ln_near; lra|lra].
Qed.
Lemma rnd_near d x : ieee d -> 0 < x -> Rabs (ln x) <= 1022 * ln 2 -> near 1 x (rnd d x).
Proof.
  intros (R & _) X W. apply (within_ln _ _ X) in W. rewrite <- (Rabs_right x) in W by lra. apply R in W. rewrite half_eps, (Rabs_right x) in W by lra.
  pose proof eps_small. pose proof eps_pos. apply relative_near in W; [|exact X|lra]. destruct W as (Y & W). split; [exact X|]. split; [exact Y|lra].
Qed.
Lemma near_trans k l x y z : near k x y -> near l y z -> near (k + l) x z.
Proof.
  intros (X & Y & H) (_ & Z & K). split; [exact X|]. split; [exact Z|]. replace (ln z - ln x) with ((ln z - ln y) + (ln y - ln x)) by ring.
  eapply Rle_trans; [apply Rabs_triang|lra].
Qed.
Definition inv (k l x y : R) : Prop := near k x y /\ Rabs (ln y) <= l * ln 2.
Lemma round_inv d k l x y : ieee d -> inv k l x y -> l <= 1022 -> inv (k + 1) (l + 1) x (rnd d y).
Proof.
  intros I (N & S) L. pose proof ln_2. assert (Y : 0 < y) by apply N. assert (R : near 1 y (rnd d y)) by (apply rnd_near; [exact I|exact Y|]; nra).
  split; [now apply (near_trans _ _ _ y)|]. destruct R as (_ & _ & R). pose proof eps_small.
  replace (ln (rnd d y)) with ((ln (rnd d y) - ln y) + ln y) by ring. eapply Rle_trans; [apply Rabs_triang|lra].
Qed.
Lemma mul_inv k l x y k' l' x' y' : inv k l x y -> inv k' l' x' y' -> inv (k + k') (l + l') (x * x') (y * y').
Proof.
  intros ((X & Y & N) & S) ((X' & Y' & N') & S'). split; [split; [now apply Rmult_lt_0_compat|split; [now apply Rmult_lt_0_compat|]]|]; rewrite ?ln_mult by assumption.
  - replace (ln y + ln y' - (ln x + ln x')) with ((ln y - ln x) + (ln y' - ln x')) by ring. eapply Rle_trans; [apply Rabs_triang|lra].
  - eapply Rle_trans; [apply Rabs_triang|lra].
Qed.
Lemma inv_inv k l x y : inv k l x y -> inv k l (/ x) (/ y).
Proof.
  intros ((X & Y & N) & S). split; [split; [now apply Rinv_0_lt_compat|split; [now apply Rinv_0_lt_compat|]]|]; rewrite ?ln_Rinv by assumption.
  - replace (- ln y - - ln x) with (- (ln y - ln x)) by ring. now rewrite Rabs_Ropp.
  - now rewrite Rabs_Ropp.
Qed.
Lemma add_inv k l x y k' l' x' y' : inv k l x y -> inv k' l' x' y' -> inv (Rmax k k') (Rmax l l' + 1) (x + x') (y + y').
Proof.
  intros ((X & Y & N) & S) ((X' & Y' & N') & S'). pose proof (Rmax_l k k'). pose proof (Rmax_r k k'). pose proof (Rmax_l l l'). pose proof (Rmax_r l l').
  set (K := Rmax k k') in *. set (L := Rmax l l') in *. pose proof eps_pos. pose proof ln_2.
  assert (M : forall a b, 0 < a -> a <= b -> ln a <= ln b). { intros a b Z [Q| ->]; [left; now apply ln_increasing|right; reflexivity]. }
  assert (E : forall a b s, 0 < a -> 0 < b -> ln b <= ln a + s -> b <= a * exp s).
  { intros a b s A B Q. rewrite <- (exp_ln b B), <- (exp_ln a A) at 1. rewrite <- exp_plus. destruct Q as [Q| ->]; [left; now apply exp_increasing|right; reflexivity]. }
  apply Rabs_le_inv in N. apply Rabs_le_inv in N'. apply Rabs_le_inv in S. apply Rabs_le_inv in S'.
  assert (A1 : y <= x * exp (K * eps)) by (apply E; try assumption; nra). assert (A2 : y' <= x' * exp (K * eps)) by (apply E; try assumption; nra).
  assert (B1 : x <= y * exp (K * eps)) by (apply E; try assumption; nra). assert (B2 : x' <= y' * exp (K * eps)) by (apply E; try assumption; nra).
  split; [split; [lra|split; [lra|]]|].
  - apply Rabs_le. split.
    + assert (Q : x + x' <= (y + y') * exp (K * eps)) by lra. apply M in Q; [|lra]. rewrite ln_mult, ln_exp in Q by (try apply exp_pos; lra). lra.
    + assert (Q : y + y' <= (x + x') * exp (K * eps)) by lra. apply M in Q; [|lra]. rewrite ln_mult, ln_exp in Q by (try apply exp_pos; lra). lra.
  - assert (Y1 : y <= 1 * exp (L * ln 2)) by (apply E; try lra; rewrite ln_1; nra). assert (Y2 : y' <= 1 * exp (L * ln 2)) by (apply E; try lra; rewrite ln_1; nra).
    apply Rabs_le. split.
    + assert (Q : ln y <= ln (y + y')) by (apply M; lra). nra.
    + assert (Q : y + y' <= 2 * exp (L * ln 2)) by lra. apply M in Q; [|lra]. rewrite ln_mult, ln_exp in Q by (try apply exp_pos; lra). lra.
Qed.
Lemma sub_inv k l x y k' l' x' y' : inv k l x y -> inv k' l' x' y' -> x' < x -> 0 <= k -> 0 <= k' -> k * eps <= / 2 -> k' * eps <= / 2 ->
  4 * ((k * x + k' * x') / (x - x')) * eps <= 1 -> inv (4 * ((k * x + k' * x') / (x - x'))) (Rabs (ln (x - x')) / ln 2 + 2) (x - x') (y - y').
Proof.
  intros (N & _) (N' & _) D K K' S S' C. pose proof eps_pos. pose proof ln_2.
  assert (A : accurate (2 * k * eps) x y) by (apply (near_relative k); [exact N|exact S|lra]).
  assert (A' : accurate (2 * k' * eps) x' y') by (apply (near_relative k'); [exact N'|exact S'|lra]).
  unfold accurate in A, A'. destruct N as (X & Y & _), N' as (X' & Y' & _). rewrite (Rabs_right x) in A by lra. rewrite (Rabs_right x') in A' by lra.
  set (c := (k * x + k' * x') / (x - x')) in *.
  assert (G : Rabs ((y - y') - (x - x')) <= (2 * c * eps) * (x - x')).
  { replace ((y - y') - (x - x')) with ((y - x) + - (y' - x')) by ring. eapply Rle_trans; [apply Rabs_triang|]. rewrite Rabs_Ropp.
    replace (2 * c * eps * (x - x')) with (2 * k * eps * x + 2 * k' * eps * x') by (unfold c; field; lra). lra. }
  apply relative_near in G; [|lra|lra]. destruct G as (P & G). split; [split; [lra|split; [exact P|lra]]|].
  replace (ln (y - y')) with ((ln (y - y') - ln (x - x')) + ln (x - x')) by ring. eapply Rle_trans; [apply Rabs_triang|].
  replace ((Rabs (ln (x - x')) / ln 2 + 2) * ln 2) with (Rabs (ln (x - x')) + 2 * ln 2) by (field; lra). lra.
Qed.
Lemma pow_inv d k l x y p q : ieee d -> inv k l x y -> 0 <= k -> let r := Rabs (IZR p / IZR q) in Rpower 2 (- 20) <= r <= Rpower 2 20 -> r * l + 1 <= 1022 ->
  inv (2 + r * (k + if (q =? 1)%Z then 0 else l / 2)) (r * l + 1) (Rpower x (IZR p / IZR q)) (pow_ d y (rnd d (IZR p / IZR q))).
Proof.
  intros I ((X & Y & N) & S) K r B L. pose proof eps_pos. pose proof eps_small. pose proof ln_2. set (s := IZR p / IZR q) in *.
  assert (R0 : 0 < r) by (eapply Rlt_le_trans; [apply exp_pos|apply B]).
  assert (W : within 1022 (Rabs s)).
  { apply within_ln; [exact R0|]. assert (W : within 20 (Rabs s)) by exact B. apply ln_within in W. lra. }
  apply (proj1 I) in W. rewrite half_eps in W. fold r in W.
  assert (Ex : (q =? 1)%Z = true -> rnd d s = s).
  { intros Q. apply Z.eqb_eq in Q. unfold s. subst q. rewrite Rdiv_1_r. apply (proj1 (proj2 I)). apply lt_IZR. rewrite abs_IZR. unfold r, s in B. rewrite Rdiv_1_r in B.
    eapply Rle_lt_trans; [apply B|]. replace 20 with (INR 20) by (cbn; lra). rewrite Rpower_pow by lra. rewrite (IZR_pow 2 53); [|lia]. change (Z.to_nat 53) with 53%nat. lra. } set (t := rnd d s) in *.
  assert (L0 : 0 <= l). { pose proof (Rabs_pos (ln y)). nra. }
  assert (T : Rabs t <= r * (1 + eps / 2)). { replace t with ((t - s) + s) by ring. eapply Rle_trans; [apply Rabs_triang|]. fold r. lra. }
  assert (RL : 0 <= r * l) by nra.
  assert (Z : Rabs (t * ln y) <= r * (1 + eps / 2) * (l * ln 2)).
  { rewrite Rabs_mult. apply Rmult_le_compat; try apply Rabs_pos; assumption. }
  assert (Z' : r * (1 + eps / 2) * (l * ln 2) <= (r * l) * ln 2 + / 4 * ln 2).
  { replace (r * (1 + eps / 2) * (l * ln 2)) with ((r * l) * ln 2 + (r * l) * (eps / 2) * ln 2) by ring.
    assert (r * l * (eps / 2) <= / 4) by nra. apply Rplus_le_compat_l. apply Rmult_le_compat_r; lra. }
  assert (P : 0 < Rpower y t) by apply exp_pos.
  assert (LP : ln (Rpower y t) = t * ln y) by (unfold Rpower; apply ln_exp).
  assert (V : within 1022 (Rpower y t)). { apply within_ln; [exact P|]. rewrite LP. nra. }
  apply (proj1 (proj2 (proj2 I))) in V; [|exact Y]. rewrite eps_def in V. apply relative_near in V; [|exact P|lra]. destruct V as (Q & V). rewrite LP in V.
  split; [split; [apply exp_pos|split; [exact Q|]]|].
  - replace (ln (Rpower x s)) with (s * ln x) by (unfold Rpower; now rewrite ln_exp). set (z := ln (pow_ d y t)) in *.
    replace (z - s * ln x) with ((z - t * ln y) + ((t - s) * ln y + s * (ln y - ln x))) by ring.
    eapply Rle_trans; [apply Rabs_triang|]. eapply Rle_trans; [apply Rplus_le_compat_l, Rabs_triang|]. rewrite !Rabs_mult. fold r.
    destruct (q =? 1)%Z eqn:Q1.
    { assert (TS : t = s) by (apply Ex; reflexivity). rewrite TS at 2. rewrite Rminus_diag_eq with (r1 := s) by reflexivity. rewrite Rabs_R0.
      assert (U2 : r * Rabs (ln y - ln x) <= r * (k * eps)) by (apply Rmult_le_compat_l; lra).
      replace ((2 + r * (k + 0)) * eps) with (2 * eps + (0 * Rabs (ln y) + r * (k * eps))) by ring. lra. }
    assert (U1 : Rabs (t - s) * Rabs (ln y) <= eps / 2 * r * (l * ln 2)) by (apply Rmult_le_compat; try apply Rabs_pos; assumption).
    assert (U2 : r * Rabs (ln y - ln x) <= r * (k * eps)) by (apply Rmult_le_compat_l; lra).
    assert (U3 : eps / 2 * r * (l * ln 2) <= eps / 2 * (r * l)). { replace (eps / 2 * r * (l * ln 2)) with (eps / 2 * (r * l) * ln 2) by ring. assert (0 <= eps / 2 * (r * l)) by nra. nra. }
    replace ((2 + r * (k + l / 2)) * eps) with (2 * eps + (eps / 2 * (r * l) + r * (k * eps))) by field. lra.
  - set (z := ln (pow_ d y t)) in *. replace z with ((z - t * ln y) + t * ln y) by ring. eapply Rle_trans; [apply Rabs_triang|]. lra.
Qed.

Lemma inv_pos k l x y : inv k l x y -> 0 <= k /\ 0 <= l /\ 0 < x.
Proof.
  intros ((X & Y & N) & S). pose proof eps_pos. pose proof ln_2. pose proof (Rabs_pos (ln y - ln x)). pose proof (Rabs_pos (ln y)). repeat split; [| |exact X]; nra.
Qed.

(** *** Expressions *)
Section Cost.
(** Exact and given inputs, and the bounds on their size and error. *)
Variables (v v' w k : nat -> R).
Definition const_size (c : constant) : R := match c with CG => 35 | CC => 30 | CPi => 3 end.
(** Bounds on the logarithm (base 2) of the value computed and on its error (in units of [eps]). *)
Fixpoint size (e : ex) : R :=
  match e with
  | Inp i => w i | Int z => IZR (Z.log2_up z) | Con c => const_size c | Dec p q => IZR (Z.max (Z.log2_up p) (Z.log2_up q)) + 1 | Cos _ => 0
  | Add a b => Rmax (size a) (size b) + 2
  | Sub a b => Rabs (ln (exact v a - exact v b)) / ln 2 + 3
  | Mul a b | Div a b => size a + size b + 1
  | Pow a p q => Rabs (IZR p / IZR q) * size a + 1
  end.
Fixpoint cost (e : ex) : R :=
  match e with
  | Inp i => k i | Int _ => 0 | Con _ => 1 | Dec _ _ => 1 | Cos _ => 0
  | Add a b => Rmax (cost a) (cost b) + 1
  | Sub a b => 4 * ((cost a * exact v a + cost b * exact v b) / (exact v a - exact v b)) + 1
  | Mul a b | Div a b => cost a + cost b + 1
  | Pow a p q => 2 + Rabs (IZR p / IZR q) * (cost a + if (q =? 1)%Z then 0 else size a / 2)
  end.
(** No overflow, no underflow, no catastrophic cancellation. *)
Fixpoint well (e : ex) : Prop :=
  match e with
  | Inp i => inv (k i) (w i) (v i) (v' i)
  | Int z => (1 <= z)%Z | Con _ => True | Dec p q => (1 <= p)%Z /\ (1 <= q)%Z /\ (Z.max (Z.log2_up p) (Z.log2_up q) <= 1022)%Z | Cos _ => False
  | Add a b => well a /\ well b /\ Rmax (size a) (size b) + 2 <= 1022
  | Sub a b => well a /\ well b /\ exact v b < exact v a /\ cost a * eps <= / 2 /\ cost b * eps <= / 2 /\
      4 * ((cost a * exact v a + cost b * exact v b) / (exact v a - exact v b)) * eps <= 1 /\ Rabs (ln (exact v a - exact v b)) / ln 2 + 3 <= 1022
  | Mul a b | Div a b => well a /\ well b /\ size a + size b + 1 <= 1022
  | Pow a p q => well a /\ Rpower 2 (- 20) <= Rabs (IZR p / IZR q) <= Rpower 2 20 /\ Rabs (IZR p / IZR q) * size a + 1 <= 1022
  end.
Variable d : doubles.
Hypothesis I : ieee d.
Lemma value_size c : 0 < value c /\ Rabs (ln (value c)) <= (const_size c - 1) * ln 2.
Proof.
  assert (W : within (const_size c - 1) (value c)).
  { assert (P : forall n m, m = INR n -> Rpower 2 (- m) = / 2 ^ n /\ Rpower 2 m = 2 ^ n).
    { intros n m ->. rewrite Rpower_Ropp, Rpower_pow by lra. now split. }
    unfold within. destruct c; cbn [const_size value].
    - destruct (P 34%nat (35 - 1)) as (-> & ->); [cbn; lra|]. Transparent Ggrav. unfold Ggrav. Opaque Ggrav. split; lra.
    - destruct (P 29%nat (30 - 1)) as (-> & ->); [cbn; lra|]. Transparent clight. unfold clight. Opaque clight. split; lra.
    - destruct (P 2%nat (3 - 1)) as (-> & ->); [cbn; lra|]. pose proof PI2_1. pose proof PI_4. unfold PI2 in *. lra. }
  now apply ln_within in W.
Qed.
Lemma int_size z : (1 <= z)%Z -> 0 < IZR z /\ 0 <= ln (IZR z) <= IZR (Z.log2_up z) * ln 2.
Proof.
  intros W. assert (P : 0 < IZR z) by (apply IZR_lt; lia). split; [exact P|].
  assert (Q : IZR z <= Rpower 2 (IZR (Z.log2_up z))).
  { destruct (Z.eq_dec z 1) as [->|N]; [cbn; rewrite Rpower_O; lra|]. assert (U : (z <= 2 ^ Z.log2_up z)%Z) by (apply Z.log2_up_spec; lia).
    apply IZR_le in U. pose proof (Z.log2_up_nonneg z) as G. rewrite <- (Z2Nat.id _ G) in U |- *. rewrite <- INR_IZR_INZ, Rpower_pow by lra. rewrite <- pow_IZR in U. exact U. }
  split.
  - rewrite <- ln_1. assert (Z1 : 1 <= IZR z) by (apply IZR_le; lia). destruct Z1 as [Z1|Z1]; [left; apply ln_increasing; lra|rewrite <- Z1; lra].
  - assert (M : ln (IZR z) <= ln (Rpower 2 (IZR (Z.log2_up z)))). { destruct Q as [Q|Q]; [left; now apply ln_increasing|rewrite <- Q; lra]. }
    unfold Rpower in M. rewrite ln_exp in M. exact M.
Qed.
Theorem computed_inv e : well e -> inv (cost e) (size e) (exact v e) (computed d v' e).
Proof.
  pose proof eps_pos as E0. pose proof ln_2 as L2.
  induction e; cbn [cost size well exact computed]; intros W.
  - exact W.
  - destruct (int_size z W) as (P & S1 & S2). split; [split; [exact P|split; [exact P|]]|].
    + rewrite Rminus_diag_eq by reflexivity. rewrite Rabs_R0. lra.
    + rewrite Rabs_right by lra. exact S2.
  - destruct (value_size c) as (P & S). replace 1 with (0 + 1) at 1 by lra. replace (const_size c) with ((const_size c - 1) + 1) by lra. apply round_inv; [exact I| |destruct c; cbn; lra].
    split; [split; [exact P|split; [exact P|]]|exact S]. rewrite Rminus_diag_eq by reflexivity. rewrite Rabs_R0. lra.
  - destruct W as (Wp & Wq & L). destruct (int_size p Wp) as (P & P1 & P2), (int_size q Wq) as (Q & Q1 & Q2). apply IZR_le in L.
    replace 1 with (0 + 1) at 1 by lra. assert (X : 0 < IZR p / IZR q) by (now apply Rdiv_lt_0_compat). apply round_inv; [exact I| |exact L].
    split; [split; [exact X|split; [exact X|]]|]; [rewrite Rminus_diag_eq by reflexivity; rewrite Rabs_R0; lra|]. unfold Rdiv. rewrite ln_mult, ln_Rinv by (try apply Rinv_0_lt_compat; assumption).
    assert (M1 : IZR (Z.log2_up p) <= IZR (Z.max (Z.log2_up p) (Z.log2_up q))) by (apply IZR_le; lia). assert (M2 : IZR (Z.log2_up q) <= IZR (Z.max (Z.log2_up p) (Z.log2_up q))) by (apply IZR_le; lia).
    apply Rabs_le. nra.
  - destruct W as (W1 & W2 & W3). pose proof (add_inv _ _ _ _ _ _ _ _ (IHe1 W1) (IHe2 W2)) as A.
    replace (Rmax (size e1) (size e2) + 2) with (Rmax (size e1) (size e2) + 1 + 1) by lra. apply round_inv; [exact I|exact A|lra].
  - destruct W as (W1 & W2 & D & K1 & K2 & C & L). destruct (inv_pos _ _ _ _ (IHe1 W1)) as (P1 & _ & _). destruct (inv_pos _ _ _ _ (IHe2 W2)) as (P2 & _ & _).
    pose proof (sub_inv _ _ _ _ _ _ _ _ (IHe1 W1) (IHe2 W2) D P1 P2 K1 K2 C) as A.
    replace (Rabs (ln (exact v e1 - exact v e2)) / ln 2 + 3) with (Rabs (ln (exact v e1 - exact v e2)) / ln 2 + 2 + 1) by lra. apply round_inv; [exact I|exact A|lra].
  - destruct W as (W1 & W2 & W3). apply round_inv; [exact I| |lra]. now apply mul_inv; [apply IHe1|apply IHe2].
  - destruct W as (W1 & W2 & W3). apply round_inv; [exact I| |lra]. unfold Rdiv. apply mul_inv; [now apply IHe1|apply inv_inv; now apply IHe2].
  - destruct W as (W1 & W2 & W3). pose proof (IHe W1) as A. destruct (inv_pos _ _ _ _ A) as (P & _ & _). now apply pow_inv.
  - destruct W.
Qed.
Corollary computed_accurate e t : well e -> cost e * eps <= / 2 -> 2 * cost e * eps <= t -> 0 < computed d v' e /\ accurate t (exact v e) (computed d v' e).
Proof. intros W C T. destruct (computed_inv e W) as (N & _). split; [apply N|]. now apply (near_relative (cost e)). Qed.
End Cost.
