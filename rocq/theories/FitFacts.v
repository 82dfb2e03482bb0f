(** FitFacts.v -- accuracy of the exact=False merger times (Mandel's fit with LEGWORK's correction). *)
From Coq Require Import Reals ZArith QArith Qreals List Bool Lra Lia.
From Coquelicot Require Import Coquelicot.
From Verif Require Import Num NumFacts Np NpFacts Utils Spec UtilsFacts Evol EvolSpec EvolFacts MergeFacts PosCheck AccuracyFacts AccuracySpec.
Import ListNotations.
Open Scope R_scope.

(** ** The value computed *)
Lemma mandel_correction_fin e : mandel_correction (Fin e) = Fin (correction e).
Proof.
  unfold mandel_correction, mandel_coefficients. cbn [length seq map nth].
  rewrite !npowi_fin by (vm_compute; discriminate).
  repeat match goal with |- context[Z.to_nat ?z] => let v := eval vm_compute in (Z.to_nat z) in change (Z.to_nat z) with v end.
  rewrite !nmul_fin. unfold nsum. cbn [fold_left]. rewrite !nadd_fin. f_equal. unfold correction. simpl pow. lra.
Qed.
Definition fitL (e : R) : R := 1 + 0.27 * e ^ 10 + 0.33 * e ^ 20 + 0.2 * e ^ Z.to_nat 1000.
Lemma t_fit_fin b a e : 0 < b -> 0 < e < 1 -> correction e <> 0 ->
  t_fit (Fin b) (Fin a) (Fin e) = Fin (tmR b a * (fitL e * sq e ^ 7 / correction e)).
Proof.
  intros Hb He Hc. destruct (e_facts e He) as [A B]. unfold t_fit. rewrite t_merge_circ_fin by auto.
  unfold t_merge_mandel_fit. rewrite mandel_correction_fin, npowi2.
  rewrite !npowi_fin by (vm_compute; discriminate).
  change (Z.to_nat 10) with 10%nat. change (Z.to_nat 20) with 20%nat. unfold fitL. generalize (Z.to_nat 1000) as n. intros n.
  rewrite !nmul_fin, !nadd_fin, nsub_fin, npowr_fin by auto. rewrite nmul_fin, ndiv_fin, nmul_fin by auto.
  rewrite Rpower_72 by auto. f_equal. f_equal. unfold sq. f_equal. f_equal.
  replace 0.27 with (27/100) by lra. replace 0.33 with (33/100) by lra. replace 0.2 with (20/100) by lra. reflexivity.
Qed.

(** ** Polynomials with integer coefficients *)
Definition zpoly := list Z.
Fixpoint zev (p : zpoly) (x : R) : R := match p with [] => 0 | c :: q => IZR c + x * zev q x end.
Fixpoint zadd (p q : zpoly) : zpoly :=
  match p, q with [], _ => q | _, [] => p | a :: p', b :: q' => (a + b)%Z :: zadd p' q' end.
Definition zscale (c : Z) (p : zpoly) : zpoly := map (Z.mul c) p.
Fixpoint zmul (p q : zpoly) : zpoly := match p with [] => [] | a :: p' => zadd (zscale a q) (0%Z :: zmul p' q) end.
Fixpoint zpow (p : zpoly) (n : nat) : zpoly := match n with O => [1%Z] | S k => zmul p (zpow p k) end.
(** D^(n-1) p(N/D) for a polynomial with n coefficients *)
Fixpoint hom (p N D : zpoly) : zpoly :=
  match p with [] => [] | c :: q => zadd (zscale c (zpow D (length q))) (zmul N (hom q N D)) end.
Definition ztail (p : zpoly) : Z := fold_right (fun c acc => (Z.min c 0 + acc)%Z) 0%Z p.
Definition zlow (p : zpoly) : Z := match p with [] => 0%Z | c :: q => (c + ztail q)%Z end.
Fixpoint znonneg (fuel : nat) (p : zpoly) : bool :=
  if (0 <=? zlow p)%Z then true
  else match fuel with
       | O => false
       | S k => znonneg k (hom p [0; 1]%Z [2]%Z) && znonneg k (hom p [1; 1]%Z [2]%Z)
       end.
Lemma zev_add p q x : zev (zadd p q) x = zev p x + zev q x.
Proof. revert q. induction p as [|a p IH]; intros [|b q]; cbn [zadd zev]; try ring. rewrite plus_IZR, IH. ring. Qed.
Lemma zev_scale c p x : zev (zscale c p) x = IZR c * zev p x.
Proof.
  induction p as [|a p IH]; [cbn; ring|]. change (zscale c (a :: p)) with ((c * a)%Z :: zscale c p).
  cbn [zev]. rewrite IH, mult_IZR. ring.
Qed.
Lemma zev_mul p q x : zev (zmul p q) x = zev p x * zev q x.
Proof. induction p as [|a p IH]; cbn [zmul zev]; [ring|]. rewrite zev_add, zev_scale. cbn [zev]. rewrite IH. ring. Qed.
Lemma zev_pow p n x : zev (zpow p n) x = zev p x ^ n.
Proof. induction n as [|n IH]; cbn [zpow pow]; [cbn; ring|]. now rewrite zev_mul, IH. Qed.
Lemma hom_zev p N D t x : zev N t = x * zev D t -> zev (hom p N D) t * zev D t = zev D t ^ length p * zev p x.
Proof.
  intros E. induction p as [|c q IH]; [cbn; ring|]. cbn [hom length zev pow].
  rewrite zev_add, zev_scale, zev_pow, zev_mul.
  replace ((IZR c * zev D t ^ length q + zev N t * zev (hom q N D) t) * zev D t)
    with (zev D t * zev D t ^ length q * IZR c + zev N t * (zev (hom q N D) t * zev D t)) by ring.
  rewrite IH, E. ring.
Qed.
Lemma ztail_le p x : 0 <= x <= 1 -> IZR (ztail p) <= x * zev p x /\ IZR (ztail p) <= 0.
Proof.
  intros Hx. induction p as [|c p [IH1 IH2]]; cbn [ztail fold_right zev]; [split; nra|].
  fold (ztail p). rewrite plus_IZR.
  assert (M1 : IZR (Z.min c 0) <= IZR c) by (apply IZR_le; lia). assert (M2 : IZR (Z.min c 0) <= 0) by (apply IZR_le; lia).
  split; [|lra]. assert (IZR (Z.min c 0) <= x * IZR c) by nra. assert (IZR (ztail p) <= x * (x * zev p x)) by nra. nra.
Qed.
Lemma zlow_le p x : 0 <= x <= 1 -> IZR (zlow p) <= zev p x.
Proof.
  intros Hx. destruct p as [|c p]; cbn [zlow zev]; [lra|]. rewrite plus_IZR. destruct (ztail_le p x Hx). lra.
Qed.
Lemma hom_nonneg p N D t x : zev N t = x * zev D t -> 0 < zev D t -> 0 <= zev (hom p N D) t -> 0 <= zev p x.
Proof.
  intros E HD H. pose proof (hom_zev p N D t x E) as X. assert (0 < zev D t ^ length p) by now apply pow_lt.
  apply Rmult_le_reg_l with (zev D t ^ length p); auto. rewrite Rmult_0_r, <- X. apply Rmult_le_pos; lra.
Qed.
Lemma znonneg_correct fuel p : znonneg fuel p = true -> forall x, 0 <= x <= 1 -> 0 <= zev p x.
Proof.
  revert p. induction fuel as [|k IH]; intros p H x Hx; cbn [znonneg] in H.
  - destruct (Z.leb_spec 0 (zlow p)) as [E|E]; [|discriminate]. apply IZR_le in E. pose proof (zlow_le p x Hx). lra.
  - destruct (Z.leb_spec 0 (zlow p)) as [E|E].
    + apply IZR_le in E. pose proof (zlow_le p x Hx). lra.
    + apply andb_true_iff in H. destruct H as [A B]. destruct (Rle_dec x (1/2)) as [L|L].
      * apply (hom_nonneg p [0; 1]%Z [2]%Z (2 * x)); [cbn; lra|cbn; lra|]. apply IH; auto. lra.
      * apply (hom_nonneg p [1; 1]%Z [2]%Z (2 * x - 1)); [cbn; lra|cbn; lra|]. apply IH; auto. lra.
Qed.
(** on [a/m, b/m] *)
Lemma znonneg_on fuel p a b m : znonneg fuel (hom p [a; b - a]%Z [m]) = true -> (a < b)%Z -> (0 < m)%Z ->
  forall x, IZR a / IZR m <= x <= IZR b / IZR m -> 0 <= zev p x.
Proof.
  intros H Hab Hm x Hx. apply IZR_lt in Hm. apply IZR_lt in Hab.
  assert (X : IZR a <= x * IZR m <= IZR b).
  { split; [replace (IZR a) with (IZR a / IZR m * IZR m) by (field; lra)|replace (IZR b) with (IZR b / IZR m * IZR m) by (field; lra)];
      apply Rmult_le_compat_r; lra. }
  set (u := (x * IZR m - IZR a) / (IZR b - IZR a)).
  assert (U : 0 <= u <= 1).
  { unfold u. split; apply Rmult_le_reg_r with (IZR b - IZR a); try lra; unfold Rdiv; rewrite Rmult_assoc, Rinv_l by lra; lra. }
  apply (hom_nonneg p [a; b - a]%Z [m] u); [|cbn; lra|now apply (znonneg_correct fuel)].
  cbn [zev]. rewrite minus_IZR. unfold u. field. lra.
Qed.

(** ** Rational parametrisation e = 2t/(1+t^2), sqrt(1-e^2) = (1-t^2)/(1+t^2) *)
Definition tE : zpoly := [0; 2]%Z.
Definition tS : zpoly := [1; 0; -1]%Z.
Definition tD : zpoly := [1; 0; 1]%Z.
(** 10^9 times the correction, 1700000 times p_mid, 50000 times L with z/10000 for e^1000 *)
Definition cor_z : zpoly :=
  [993382093; 532494018; -13226768300; 154873214000; -979864734000; 3694477960000; -8662817370000; 12730642200000;
   -11393547900000; 5672112190000; -1203177490000]%Z.
Definition mid_z : zpoly := [3072000; -4470813; 6423875; -7108057; 6459711; -3687895; 1011160]%Z.
Definition L_z (z : Z) : zpoly :=
  [50000 + z; 0; 0; 0; 0; 0; 0; 0; 0; 0; 13500; 0; 0; 0; 0; 0; 0; 0; 0; 0; 16500]%Z.
Lemma cor_zev e : zev cor_z e = 1000000000 * correction e.
Proof. unfold cor_z, correction. cbn [zev]. lra. Qed.
Lemma mid_zev s : zev mid_z s = 1700000 * pev p_mid s.
Proof. unfold mid_z, p_mid. cbn [zev pev]. rewrite !Q2R_frac. field. Qed.
Lemma L_zev z e : zev (L_z z) e = 50000 * (1 + 0.27 * e ^ 10 + 0.33 * e ^ 20 + 0.2 * (IZR z / 10000)).
Proof. unfold L_z. cbn [zev]. rewrite plus_IZR. simpl pow. lra. Qed.
Definition CPD : zpoly := zmul (zmul (hom cor_z tE tD) (hom mid_z tS tD)) (zpow tD 4).
(** (1 + eps) C P - L and L - (1 - eps) C P, times (1 + t^2)^20 *)
Definition upA (z : Z) : zpoly :=
  zadd (zscale (1033 * 4 * 50000) CPD) (zscale (- 4001 * 1000000000 * 1700000) (hom (L_z z) tE tD)).
Definition upB (z : Z) : zpoly :=
  zadd (zscale (3999 * 1000000000 * 1700000) (hom (L_z z) tE tD)) (zscale (- 967 * 4 * 50000) CPD).
(** t in [a, b]/10000, e^1000 in [zl, zh]/10000; then bounds of e, e^10 and e^100 at both ends, times 10^15 *)
Record piece := mkPiece { ta : Z; tb : Z; zl : Z; zh : Z; l1 : Z; l2 : Z; l3 : Z; h1 : Z; h2 : Z; h3 : Z }.
Definition pieces : list piece :=
  [mkPiece 0 9234 0 420 0 0 0 996832912646239 968776705339705 728176861316132;
   mkPiece 9234 9300 419 721 996832912646238 968776705339695 728176861316055 997372513271490 974033631863719 768669283063306;
   mkPiece 9300 9344 720 1003 997372513271489 974033631863708 768669283063218 997702550701741 977261579961631 794526254367634;
   mkPiece 9344 9384 1002 1327 997702550701740 977261579961621 794526254367552 997982255143821 980004777374370 817112639013232;
   mkPiece 9384 9427 1326 1756 997982255143820 980004777374359 817112639013140 998261598428184 982751347574543 840304095228154;
   mkPiece 9427 9481 1755 2419 998261598428183 982751347574532 840304095228059 998581484509815 985905051807713 867662683289417;
   mkPiece 9481 9560 2418 3635 998581484509814 985905051807702 867662683289319 998988471923827 989930638766922 903748647913061;
   mkPiece 9560 9689 3634 6072 998988471923826 989930638766911 903748647912959 999501121127379 995022395993295 951324233116872;
   mkPiece 9689 9863 6071 9093 999501121127378 995022395993284 951324233116765 999904860517454 999049012389670 990530717846630].
Definition m15 : Z := 1000000000000000.
Definition piece_ok (q : piece) : bool :=
  (znonneg 8 (hom (upA (zh q)) [ta q; tb q - ta q]%Z [10000]%Z) && znonneg 8 (hom (upB (zl q)) [ta q; tb q - ta q]%Z [10000]%Z)
   && (l1 q * (10000 * 10000 + ta q * ta q) <=? m15 * (2 * ta q * 10000))%Z
   && (l2 q * m15 ^ 9 <=? l1 q ^ 10)%Z && (l3 q * m15 ^ 9 <=? l2 q ^ 10)%Z && (zl q * m15 ^ 10 <=? 10000 * l3 q ^ 10)%Z
   && (m15 * (2 * tb q * 10000) <=? h1 q * (10000 * 10000 + tb q * tb q))%Z
   && (h1 q ^ 10 <=? h2 q * m15 ^ 9)%Z && (h2 q ^ 10 <=? h3 q * m15 ^ 9)%Z && (10000 * h3 q ^ 10 <=? zh q * m15 ^ 10)%Z
   && (ta q <? tb q)%Z && (0 <=? ta q)%Z && (tb q <=? 10000)%Z && (0 <=? l1 q)%Z && (0 <=? l2 q)%Z && (0 <=? l3 q)%Z).
Lemma pieces_ok : forallb piece_ok pieces = true.
Proof. vm_compute. reflexivity. Qed.
Lemma cor_check : znonneg 12 (zadd cor_z [-900000000]%Z) = true.
Proof. vm_compute. reflexivity. Qed.
Lemma cor_pos e : 0 <= e <= 1 -> 9/10 <= correction e.
Proof.
  intros He. pose proof (znonneg_correct _ _ cor_check e He) as H. rewrite zev_add, cor_zev in H. cbn [zev] in H. lra.
Qed.
Definition et (t : R) : R := 2 * t / (1 + t * t).
Lemma et_mono t u : 0 <= t <= u -> u <= 1 -> et t <= et u.
Proof.
  intros Ht Hu. assert (0 < 1 + t * t) by nra. assert (0 < 1 + u * u) by nra. unfold et.
  apply Rmult_le_reg_r with ((1 + t * t) * (1 + u * u)); [nra|].
  replace (2 * t / (1 + t * t) * ((1 + t * t) * (1 + u * u))) with (2 * t * (1 + u * u)) by (field; lra).
  replace (2 * u / (1 + u * u) * ((1 + t * t) * (1 + u * u))) with (2 * u * (1 + t * t)) by (field; lra).
  assert (0 <= (u - t) * (1 - t * u)) by (apply Rmult_le_pos; nra). nra.
Qed.
Lemma et_nonneg t : 0 <= t -> 0 <= et t.
Proof. intros. unfold et. apply Rmult_le_pos; [lra|]. left. apply Rinv_0_lt_compat. nra. Qed.
Lemma param e : 0 < e < 1 -> let t := e / (1 + sq e) in 0 < t < 1 /\ et t = e /\ (1 - t * t) / (1 + t * t) = sq e.
Proof.
  intros He. pose proof (sq_pos e ltac:(lra)) as S. pose proof (sq_2 e ltac:(lra)) as S2. cbv zeta.
  set (s := sq e) in *. set (t := e / (1 + s)). assert (T : t * (1 + s) = e) by (unfold t; field; lra).
  assert (T2 : t * t * (1 + s) = 1 - s).
  { apply (Rmult_eq_reg_r (1 + s)); [|lra]. replace (t * t * (1 + s) * (1 + s)) with ((t * (1 + s)) * (t * (1 + s))) by ring.
    rewrite T. simpl in S2. lra. }
  assert (T0 : 0 < t) by (unfold t; apply Rdiv_lt_0_compat; lra).
  assert (t < 1) by nra. split; [lra|].
  assert (D : 1 + t * t <> 0) by nra. split.
  - unfold et. apply (Rmult_eq_reg_r (1 + t * t)); auto. unfold Rdiv. rewrite Rmult_assoc, Rinv_l, Rmult_1_r by auto.
    rewrite <- T. nra.
  - apply (Rmult_eq_reg_r (1 + t * t)); auto. unfold Rdiv. rewrite Rmult_assoc, Rinv_l, Rmult_1_r by auto. nra.
Qed.
Lemma pow_1000 (x : R) : x ^ Z.to_nat 1000 = ((x ^ 10) ^ 10) ^ 10.
Proof. replace (Z.to_nat 1000) with (10 * 10 * 10)%nat by (vm_compute; reflexivity). now rewrite !pow_mult. Qed.
Lemma IZR_pow_nat (z : Z) (n : nat) : IZR (z ^ Z.of_nat n) = IZR z ^ n.
Proof. symmetry. apply pow_IZR. Qed.
Lemma et_frac x : et (x / 10000) = 2 * x * 10000 / (10000 * 10000 + x * x).
Proof.
  assert (0 < 10000 * 10000 + x * x) by nra. unfold et. assert (0 < 1 + x / 10000 * (x / 10000)) by nra.
  apply (Rmult_eq_reg_r ((1 + x / 10000 * (x / 10000)) * (10000 * 10000 + x * x))).
  - unfold Rdiv at 1. field. apply Rgt_not_eq; nra.
  - apply Rmult_integral_contrapositive. split; apply Rgt_not_eq; auto.
Qed.
Section Enclosure.
Variable m : Z.
Hypothesis Hm : (0 < m)%Z.
Let M : R := IZR m.
Let M_pos : 0 < M.
Proof. unfold M. now apply IZR_lt in Hm. Qed.
(** one step x |-> x^10 of the enclosure, in integers *)
Lemma step_low a b x : (0 <= a)%Z -> (b * m ^ 9 <= a ^ 10)%Z -> IZR a / M <= x -> IZR b / M <= x ^ 10.
Proof.
  intros Ha H Hx. apply IZR_le in Ha. apply IZR_le in H. rewrite mult_IZR in H.
  change 9%Z with (Z.of_nat 9) in H. change 10%Z with (Z.of_nat 10) in H. rewrite !IZR_pow_nat in H. fold M in H.
  pose proof M_pos as P. apply Rle_trans with ((IZR a / M) ^ 10).
  - unfold Rdiv. rewrite Rpow_mult_distr, pow_inv. apply Rmult_le_reg_r with (M ^ 10); [now apply pow_lt|].
    replace (IZR b * / M * M ^ 10) with (IZR b * M ^ 9) by (field; lra).
    rewrite Rmult_assoc, Rinv_l, Rmult_1_r by (apply pow_nonzero; lra). exact H.
  - apply pow_incr. split; auto. apply Rmult_le_pos; auto. left. now apply Rinv_0_lt_compat.
Qed.
Lemma step_high a b x : (a ^ 10 <= b * m ^ 9)%Z -> 0 <= x <= IZR a / M -> x ^ 10 <= IZR b / M.
Proof.
  intros H Hx. apply IZR_le in H. rewrite mult_IZR in H.
  change 9%Z with (Z.of_nat 9) in H. change 10%Z with (Z.of_nat 10) in H. rewrite !IZR_pow_nat in H. fold M in H.
  pose proof M_pos as P. apply Rle_trans with ((IZR a / M) ^ 10).
  - apply pow_incr. auto.
  - unfold Rdiv. rewrite Rpow_mult_distr, pow_inv. apply Rmult_le_reg_r with (M ^ 10); [now apply pow_lt|].
    replace (IZR b * / M * M ^ 10) with (IZR b * M ^ 9) by (field; lra).
    rewrite Rmult_assoc, Rinv_l, Rmult_1_r by (apply pow_nonzero; lra). exact H.
Qed.
Lemma piece_gen (pA pB : zpoly) (ta tb zl zh l1 l2 l3 h1 h2 h3 : Z) t :
  znonneg 8 (hom pA [ta; tb - ta]%Z [10000]%Z) = true -> znonneg 8 (hom pB [ta; tb - ta]%Z [10000]%Z) = true ->
  (l1 * (10000 * 10000 + ta * ta) <= m * (2 * ta * 10000))%Z ->
  (l2 * m ^ 9 <= l1 ^ 10)%Z -> (l3 * m ^ 9 <= l2 ^ 10)%Z -> (zl * m ^ 10 <= 10000 * l3 ^ 10)%Z ->
  (m * (2 * tb * 10000) <= h1 * (10000 * 10000 + tb * tb))%Z ->
  (h1 ^ 10 <= h2 * m ^ 9)%Z -> (h2 ^ 10 <= h3 * m ^ 9)%Z -> (10000 * h3 ^ 10 <= zh * m ^ 10)%Z ->
  (ta < tb)%Z -> (0 <= ta)%Z -> (tb <= 10000)%Z -> (0 <= l1)%Z -> (0 <= l2)%Z -> (0 <= l3)%Z ->
  IZR ta / 10000 <= t <= IZR tb / 10000 ->
  IZR zl / 10000 <= et t ^ Z.to_nat 1000 <= IZR zh / 10000 /\ 0 <= zev pA t /\ 0 <= zev pB t.
Proof.
  intros HA HB H1 H2 H3 H4 H5 H6 H7 H8 H9 H10 H11 H12 H13 H14 Ht.
  pose proof M_pos as P.
  apply IZR_le in H11 as H11'. apply IZR_le in H10 as H10'.
  assert (A0 : 0 <= IZR ta / 10000) by lra. assert (B1 : IZR tb / 10000 <= 1) by lra.
  assert (L : et (IZR ta / 10000) <= et t) by (apply et_mono; lra).
  assert (U : et t <= et (IZR tb / 10000)) by (apply et_mono; lra).
  pose proof (et_nonneg t ltac:(lra)) as E0.
  assert (E1 : IZR l1 / M <= et t).
  { refine (Rle_trans _ _ _ _ L). apply IZR_le in H1. rewrite !mult_IZR, plus_IZR, !mult_IZR in H1. fold M in H1. rewrite et_frac.
    set (x := IZR ta) in *. assert (0 < 10000 * 10000 + x * x) by nra.
    apply Rmult_le_reg_r with (M * (10000 * 10000 + x * x)); [nra|].
    replace (IZR l1 / M * (M * (10000 * 10000 + x * x))) with (IZR l1 * (10000 * 10000 + x * x)) by (field; lra).
    replace (2 * x * 10000 / (10000 * 10000 + x * x) * (M * (10000 * 10000 + x * x))) with (M * (2 * x * 10000))
      by (unfold Rdiv; field; apply Rgt_not_eq; nra).
    exact H1. }
  assert (E2 : et t <= IZR h1 / M).
  { refine (Rle_trans _ _ _ U _). apply IZR_le in H5. rewrite !mult_IZR, plus_IZR, !mult_IZR in H5. fold M in H5. rewrite et_frac.
    set (x := IZR tb) in *. assert (0 < 10000 * 10000 + x * x) by nra.
    apply Rmult_le_reg_r with (M * (10000 * 10000 + x * x)); [nra|].
    replace (IZR h1 / M * (M * (10000 * 10000 + x * x))) with (IZR h1 * (10000 * 10000 + x * x)) by (field; lra).
    replace (2 * x * 10000 / (10000 * 10000 + x * x) * (M * (10000 * 10000 + x * x))) with (M * (2 * x * 10000))
      by (unfold Rdiv; field; apply Rgt_not_eq; nra).
    exact H5. }
  assert (F1 : IZR l2 / M <= et t ^ 10) by (apply (step_low l1); auto).
  assert (F2 : IZR l3 / M <= (et t ^ 10) ^ 10) by (apply (step_low l2); auto).
  assert (G1 : et t ^ 10 <= IZR h2 / M) by (apply (step_high h1); auto).
  assert (N1 : 0 <= et t ^ 10) by (now apply pow_le).
  assert (G2 : (et t ^ 10) ^ 10 <= IZR h3 / M) by (apply (step_high h2); auto).
  assert (N2 : 0 <= (et t ^ 10) ^ 10) by (now apply pow_le).
  rewrite pow_1000. set (w := (et t ^ 10) ^ 10) in *. split; [split|split].
  - apply IZR_le in H4, H14. rewrite !mult_IZR in H4. change 10%Z with (Z.of_nat 10) in H4. rewrite !IZR_pow_nat in H4. fold M in H4.
    apply Rle_trans with ((IZR l3 / M) ^ 10).
    + unfold Rdiv at 2. rewrite Rpow_mult_distr, pow_inv. apply Rmult_le_reg_r with (10000 * M ^ 10); [apply Rmult_lt_0_compat; [lra|now apply pow_lt]|].
      replace (IZR zl / 10000 * (10000 * M ^ 10)) with (IZR zl * M ^ 10) by field.
      replace (IZR l3 ^ 10 * / M ^ 10 * (10000 * M ^ 10)) with (10000 * IZR l3 ^ 10) by (field; lra). exact H4.
    + apply pow_incr. split; auto. apply Rmult_le_pos; auto. left. now apply Rinv_0_lt_compat.
  - apply IZR_le in H8. rewrite !mult_IZR in H8. change 10%Z with (Z.of_nat 10) in H8. rewrite !IZR_pow_nat in H8. fold M in H8.
    apply Rle_trans with ((IZR h3 / M) ^ 10).
    + apply pow_incr. split; auto.
    + unfold Rdiv at 1. rewrite Rpow_mult_distr, pow_inv. apply Rmult_le_reg_r with (10000 * M ^ 10); [apply Rmult_lt_0_compat; [lra|now apply pow_lt]|].
      replace (IZR zh / 10000 * (10000 * M ^ 10)) with (IZR zh * M ^ 10) by field.
      replace (IZR h3 ^ 10 * / M ^ 10 * (10000 * M ^ 10)) with (10000 * IZR h3 ^ 10) by (field; lra). exact H8.
  - exact (znonneg_on 8 pA ta tb 10000 HA H9 eq_refl t Ht).
  - exact (znonneg_on 8 pB ta tb 10000 HB H9 eq_refl t Ht).
Qed.
End Enclosure.
Section Up.
Variables c1 c2 : Z.
Variables A B : zpoly.
Lemma up_gen t x y : zev A t = x -> zev B t = y -> zev (zadd (zscale c1 A) (zscale c2 B)) t = IZR c1 * x + IZR c2 * y.
Proof. intros <- <-. now rewrite zev_add, !zev_scale. Qed.
Lemma cpd_gen t D x y : zev A t = x -> zev B t = y -> zev tD t = D -> zev (zmul (zmul A B) (zpow tD 4)) t = x * y * D ^ 4.
Proof. intros <- <- <-. now rewrite !zev_mul, zev_pow. Qed.
End Up.
Lemma upA_zev z t x y : zev CPD t = x -> zev (hom (L_z z) tE tD) t = y ->
  zev (upA z) t = IZR (1033 * 4 * 50000) * x + IZR (- 4001 * 1000000000 * 1700000) * y.
Proof. unfold upA. generalize CPD (hom (L_z z) tE tD). intros A B. apply up_gen. Qed.
Lemma upB_zev z t x y : zev CPD t = x -> zev (hom (L_z z) tE tD) t = y ->
  zev (upB z) t = IZR (3999 * 1000000000 * 1700000) * y + IZR (- 967 * 4 * 50000) * x.
Proof. unfold upB. generalize CPD (hom (L_z z) tE tD). intros A B H1 H2. now apply up_gen. Qed.
Definition covered (q : piece) : Prop := forall t, IZR (ta q) / 10000 <= t <= IZR (tb q) / 10000 ->
  IZR (zl q) / 10000 <= et t ^ Z.to_nat 1000 <= IZR (zh q) / 10000 /\ 0 <= zev (upA (zh q)) t /\ 0 <= zev (upB (zl q)) t.
Strategy expand [piece_ok].
Strategy opaque [znonneg hom upA upB Z.pow Z.mul Z.leb Z.ltb m15].
Lemma piece_covered q : piece_ok q = true -> covered q.
Proof.
  intros H t Ht. unfold piece_ok in H. rewrite !andb_true_iff in H.
  destruct H as [[[[[[[[[[[[[[[HA HB] H1] H2] H3] H4] H5] H6] H7] H8] H9] H10] H11] H12] H13] H14].
  revert H1 H2 H3 H4 H5 H6 H7 H8. generalize (eq_refl : (0 <? m15)%Z = true). generalize m15 as m. intros m Hm H1 H2 H3 H4 H5 H6 H7 H8.
  apply Z.leb_le in H1, H2, H3, H4, H5, H6, H7, H8, H10, H11, H12, H13, H14. apply Z.ltb_lt in H9, Hm.
  exact (piece_gen m Hm (upA (zh q)) (upB (zl q)) (ta q) (tb q) (zl q) (zh q) (l1 q) (l2 q) (l3 q) (h1 q) (h2 q) (h3 q) t
           HA HB H1 H2 H3 H4 H5 H6 H7 H8 H9 H10 H11 H12 H13 H14 Ht).
Qed.
Strategy transparent [piece_ok znonneg hom upA upB Z.pow Z.mul Z.leb Z.ltb m15].
Fixpoint chained (lo : Z) (l : list piece) (hi : Z) : bool :=
  match l with [] => (lo =? hi)%Z | q :: r => (ta q =? lo)%Z && chained (tb q) r hi end.
Lemma chained_find l : forall lo hi t, chained lo l hi = true -> l <> [] -> IZR lo / 10000 <= t <= IZR hi / 10000 ->
  exists q, In q l /\ IZR (ta q) / 10000 <= t <= IZR (tb q) / 10000.
Proof.
  induction l as [|q r IH]; intros lo hi t H Hl Ht; [easy|]. cbn [chained] in H. apply andb_true_iff in H. destruct H as [A B].
  apply Z.eqb_eq in A. subst lo. destruct r as [|q' r'].
  - cbn [chained] in B. apply Z.eqb_eq in B. subst hi. exists q. split; [now left|auto].
  - destruct (Rle_dec t (IZR (tb q) / 10000)) as [L|L].
    + exists q. split; [now left|lra].
    + destruct (IH (tb q) hi t B ltac:(discriminate) ltac:(lra)) as [x [X Y]]. exists x. split; [now right|auto].
Qed.
Lemma piece_of t : 0 <= t <= 9863 / 10000 -> exists q, In q pieces /\ IZR (ta q) / 10000 <= t <= IZR (tb q) / 10000.
Proof.
  intros Ht. apply (chained_find pieces 0 9863 t); [reflexivity|discriminate|lra].
Qed.
Lemma fit_ratio e : 0 < e <= 1 - 1/10000 ->
  967/1000 * (correction e * pr e) <= fitL e <= 1033/1000 * (correction e * pr e).
Proof.
  intros He. assert (He1 : 0 < e < 1) by lra. destruct (param e He1) as [T [Et Es]]. set (t := e / (1 + sq e)) in *. clearbody t.
  assert (T1 : t <= 9863/10000).
  { apply Rnot_lt_le. intros L. pose proof (et_mono (9863/10000) t ltac:(lra) ltac:(lra)) as X. rewrite Et in X.
    unfold et in X. assert (1 - 1/10000 < 2 * (9863/10000) / (1 + 9863/10000 * (9863/10000))).
    { apply Rmult_lt_reg_r with (1 + 9863/10000 * (9863/10000)); [lra|]. unfold Rdiv at 4. rewrite Rmult_assoc, Rinv_l by lra. lra. }
    lra. }
  destruct (piece_of t ltac:(lra)) as [q [Hq Hb]].
  assert (OK : piece_ok q = true) by (pose proof pieces_ok as P; rewrite forallb_forall in P; now apply P).
  destruct (piece_covered q OK t Hb) as [Z [A B]]. rewrite Et in Z.
  set (D := 1 + t * t) in *. assert (HD : 0 < D) by (unfold D; nra).
  assert (NE : zev tE t = e * zev tD t).
  { unfold tE, tD. cbn [zev]. rewrite <- Et. unfold et. fold D. replace (1 + t * (0 + t * (1 + t * 0))) with D by (unfold D; ring). field. lra. }
  assert (NS : zev tS t = sq e * zev tD t).
  { unfold tS, tD. cbn [zev]. rewrite <- Es. replace (1 + t * (0 + t * (1 + t * 0))) with D by (unfold D; ring).
    replace (1 + t * (0 + t * (-1 + t * 0))) with (1 - t * t) by ring. field. lra. }
  assert (ED : zev tD t = D) by (unfold tD, D; cbn [zev]; ring).
  assert (HC : zev (hom cor_z tE tD) t = D ^ 10 * (1000000000 * correction e)).
  { pose proof (hom_zev cor_z tE tD t e NE) as X. rewrite ED, cor_zev in X. change (length cor_z) with 11%nat in X.
    apply (Rmult_eq_reg_r D); [|lra]. rewrite X. ring. }
  assert (HP : zev (hom mid_z tS tD) t = D ^ 6 * (1700000 * pev p_mid (sq e))).
  { pose proof (hom_zev mid_z tS tD t (sq e) NS) as X. rewrite ED, mid_zev in X. change (length mid_z) with 7%nat in X.
    apply (Rmult_eq_reg_r D); [|lra]. rewrite X. ring. }
  assert (HL : forall z, zev (hom (L_z z) tE tD) t = D ^ 20 * (50000 * (1 + 0.27 * e ^ 10 + 0.33 * e ^ 20 + 0.2 * (IZR z / 10000)))).
  { intros z. pose proof (hom_zev (L_z z) tE tD t e NE) as X. rewrite ED, L_zev in X. change (length (L_z z)) with 21%nat in X.
    apply (Rmult_eq_reg_r D); [|lra]. rewrite X. ring. }
  assert (HCP : zev CPD t = D ^ 20 * (1000000000 * 1700000 * (correction e * pev p_mid (sq e)))).
  { refine (eq_trans (cpd_gen _ _ t D _ _ HC HP ED) _). ring. }
  pose proof (upA_zev (zh q) t _ _ HCP (HL (zh q))) as UA. pose proof (upB_zev (zl q) t _ _ HCP (HL (zl q))) as UB.
  rewrite UA in A. rewrite UB in B. clear UA UB.
  assert (D20 : 0 < D ^ 20) by now apply pow_lt.
  pose proof (cor_pos e ltac:(lra)) as C0. destruct (pr_mid e He1) as [PL PU].
  set (K := pev p_mid (sq e)) in *. set (C := correction e) in *. unfold fitL. set (w := e ^ Z.to_nat 1000) in *.
  set (L0 := 1 + 0.27 * e ^ 10 + 0.33 * e ^ 20) in *. clearbody K C w L0. clear HC HP HL HCP.
  assert (A' : 4001 * (L0 + 0.2 * (IZR (zh q) / 10000)) <= 1033 * 4 * (C * K)).
  { apply Rmult_le_reg_l with (D ^ 20 * (50000 * 1000000000 * 1700000)); [apply Rmult_lt_0_compat; lra|].
    rewrite !mult_IZR in A. lra. }
  assert (B' : 967 * 4 * (C * K) <= 3999 * (L0 + 0.2 * (IZR (zl q) / 10000))).
  { apply Rmult_le_reg_l with (D ^ 20 * (50000 * 1000000000 * 1700000)); [apply Rmult_lt_0_compat; lra|].
    rewrite !mult_IZR in B. lra. }
  assert (C * pr e <= 4000/3999 * (C * K)) by nra. assert (4000/4001 * (C * K) <= C * pr e) by nra. split; lra.
Qed.

(** ** The worst place *)
Definition upR : zpoly :=
  zadd (zscale (972 * 4 * 50000) CPD) (zscale (- 4001 * 1000000000 * 1700000) (hom (L_z 905) tE tD)).
Lemma upR_zev t x y : zev CPD t = x -> zev (hom (L_z 905) tE tD) t = y ->
  zev upR t = IZR (972 * 4 * 50000) * x + IZR (- 4001 * 1000000000 * 1700000) * y.
Proof. unfold upR. generalize CPD (hom (L_z 905) tE tD). intros A B. apply up_gen. Qed.
Lemma upR_check : (0 <=? zlow (hom upR [933] [1000]))%Z = true.
Proof. vm_compute. reflexivity. Qed.
Lemma upR_nonneg : 0 <= zev upR (933/1000).
Proof.
  apply (hom_nonneg upR [933]%Z [1000]%Z 0); [cbn; lra|cbn; lra|].
  apply (znonneg_correct 0); [|lra]. unfold znonneg. now rewrite upR_check.
Qed.
Lemma fit_bad : let e := 1866000 / 1870489 in fitL e <= 972/1000 * (correction e * pr e).
Proof.
  cbv zeta. set (e := 1866000 / 1870489). set (t := 933/1000). assert (He1 : 0 < e < 1) by (unfold e; lra).
  set (D := 1 + t * t). assert (HD : 0 < D) by (unfold D, t; lra).
  assert (S : sq e = (1 - t * t) / D).
  { unfold sq. apply sqrt_lem_1; [unfold e; simpl; lra|unfold D, t; lra|unfold D, e, t; simpl; field]. }
  assert (NE : zev tE t = e * zev tD t) by (unfold tE, tD, t, e; cbn [zev]; lra).
  assert (NS : zev tS t = sq e * zev tD t) by (rewrite S; unfold tS, tD, t, D, t; cbn [zev]; lra).
  assert (ED : zev tD t = D) by (unfold tD, D; cbn [zev]; ring).
  assert (HC : zev (hom cor_z tE tD) t = D ^ 10 * (1000000000 * correction e)).
  { pose proof (hom_zev cor_z tE tD t e NE) as X. rewrite ED, cor_zev in X. change (length cor_z) with 11%nat in X.
    apply (Rmult_eq_reg_r D); [|lra]. rewrite X. ring. }
  assert (HP : zev (hom mid_z tS tD) t = D ^ 6 * (1700000 * pev p_mid (sq e))).
  { pose proof (hom_zev mid_z tS tD t (sq e) NS) as X. rewrite ED, mid_zev in X. change (length mid_z) with 7%nat in X.
    apply (Rmult_eq_reg_r D); [|lra]. rewrite X. ring. }
  assert (HL : zev (hom (L_z 905) tE tD) t = D ^ 20 * (50000 * (1 + 0.27 * e ^ 10 + 0.33 * e ^ 20 + 0.2 * (905 / 10000)))).
  { pose proof (hom_zev (L_z 905) tE tD t e NE) as X. rewrite ED, L_zev in X. change (length (L_z 905)) with 21%nat in X.
    apply (Rmult_eq_reg_r D); [|lra]. rewrite X. ring. }
  assert (HCP : zev CPD t = D ^ 20 * (1000000000 * 1700000 * (correction e * pev p_mid (sq e)))).
  { refine (eq_trans (cpd_gen _ _ t D _ _ HC HP ED) _). ring. }
  pose proof (upR_zev t _ _ HCP HL) as U. pose proof upR_nonneg as N. fold t in N. rewrite U in N. clear U.
  assert (W : e ^ Z.to_nat 1000 <= 905 / 10000).
  { rewrite pow_1000. 
    assert (Hm : (0 < m15)%Z) by reflexivity.
    assert (W1 : e ^ 10 <= IZR 976258456311637 / IZR m15).
    { apply (step_high m15 Hm 997600092809956); [vm_compute; discriminate|]. unfold m15, e. lra. }
    assert (W2 : (e ^ 10) ^ 10 <= IZR 786408298011770 / IZR m15).
    { apply (step_high m15 Hm 976258456311637); [vm_compute; discriminate|]. split; [apply pow_le; lra|exact W1]. }
    apply Rle_trans with (IZR 90500000000000 / IZR m15); [|unfold m15; lra].
    apply (step_high m15 Hm 786408298011770); [vm_compute; discriminate|]. split; [apply pow_le, pow_le; lra|exact W2]. }
  assert (D20 : 0 < D ^ 20) by now apply pow_lt.
  pose proof (cor_pos e ltac:(lra)) as C0. destruct (pr_mid e He1) as [PL PU].
  set (K := pev p_mid (sq e)) in *. set (C := correction e) in *. unfold fitL. set (w := e ^ Z.to_nat 1000) in *.
  set (L0 := 1 + 0.27 * e ^ 10 + 0.33 * e ^ 20) in *. clearbody K C w L0. clear HC HP HL HCP.
  assert (A' : 4001 * (L0 + 0.2 * (905 / 10000)) <= 972 * 4 * (C * K)).
  { apply Rmult_le_reg_l with (D ^ 20 * (50000 * 1000000000 * 1700000)); [apply Rmult_lt_0_compat; lra|].
    rewrite !mult_IZR in N. lra. }
  assert (4000/4001 * (C * K) <= C * pr e) by nra. lra.
Qed.
