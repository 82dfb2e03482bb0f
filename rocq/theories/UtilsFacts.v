(** UtilsFacts.v -- proofs about Utils.v. *)
From Coq Require Import Reals ZArith List Bool Lra Lia.
From Coquelicot Require Import Coquelicot.
From Verif Require Import Num NumFacts Utils Spec.
Import ListNotations.
Open Scope R_scope.

Lemma G_SI_Ggrav : G_SI = Ggrav.
Proof. unfold G_SI. Transparent Ggrav. unfold Ggrav. Opaque Ggrav. lra. Qed.
Lemma c_SI_clight : c_SI = clight.
Proof. reflexivity. Qed.

(** ** Values on finite arguments *)
Definition chirpR m1 m2 := Rpower (m1 * m2) (3/5) / Rpower (m1 + m2) (1/5).
Lemma chirp_mass_fin m1 m2 : 0 < m1 -> 0 < m2 ->
  chirp_mass (Fin m1) (Fin m2) = Fin (chirpR m1 m2).
Proof.
  intros H1 H2. unfold chirp_mass. rewrite nmul_fin, nadd_fin, !npowr_fin, ndiv_fin by (auto; pos).
  reflexivity.
Qed.
Lemma chirpR_pos m1 m2 : 0 < chirpR m1 m2.
Proof. unfold chirpR. pos. Qed.

Definition aR f m1 m2 := Rpower (Ggrav * (m1 + m2) / (2 * PI * f) ^ 2) (1/3).
Lemma get_a_fin f m1 m2 : 0 < m1 -> 0 < m2 -> 0 < f ->
  get_a_from_f_orb (Fin f) (Fin m1) (Fin m2) = Fin (aR f m1 m2).
Proof.
  intros H1 H2 Hf. pose proof PI_RGT_0. unfold get_a_from_f_orb.
  rewrite !nmul_fin, nadd_fin, npowi2, nmul_fin, ndiv_fin, npowr_fin; auto.
  - pose proof Ggrav_pos. pos.
  - apply Rgt_not_eq. pos.
Qed.
Lemma aR_pos f m1 m2 : 0 < aR f m1 m2.
Proof. unfold aR. pos. Qed.

Definition fR a m1 m2 := Rpower (Ggrav * (m1 + m2) / a ^ 3) (1/2) / (2 * PI).
Lemma get_f_fin a m1 m2 : 0 < m1 -> 0 < m2 -> 0 < a ->
  get_f_orb_from_a (Fin a) (Fin m1) (Fin m2) = Fin (fR a m1 m2).
Proof.
  intros H1 H2 Ha. pose proof PI_RGT_0. pose proof Ggrav_pos. unfold get_f_orb_from_a.
  rewrite nadd_fin, nmul_fin, npowi3, ndiv_fin, npowr_fin, nmul_fin, ndiv_fin; auto; try lra.
  - pos.
  - nz.
Qed.
Lemma fR_pos a m1 m2 : 0 < fR a m1 m2.
Proof. unfold fR. pose proof PI_RGT_0. pos. Qed.

Lemma aR_cube f m1 m2 : 0 < m1 -> 0 < m2 -> 0 < f ->
  (aR f m1 m2) ^ 3 = Ggrav * (m1 + m2) / (2 * PI * f) ^ 2.
Proof.
  intros. pose proof PI_RGT_0. pose proof Ggrav_pos. unfold aR.
  rewrite <- Rpower_pow by auto. rewrite Rpower_mult.
  replace (1 / 3 * INR 3) with 1 by (simpl; field). apply Rpower_1. pos.
Qed.
Lemma fR_sqr a m1 m2 : 0 < m1 -> 0 < m2 -> 0 < a ->
  (2 * PI * fR a m1 m2) ^ 2 = Ggrav * (m1 + m2) / a ^ 3.
Proof.
  intros. pose proof PI_RGT_0. pose proof Ggrav_pos. unfold fR.
  replace (2 * PI * (Rpower (Ggrav * (m1 + m2) / a ^ 3) (1 / 2) / (2 * PI)))
    with (Rpower (Ggrav * (m1 + m2) / a ^ 3) (1 / 2)) by (field; lra).
  rewrite <- Rpower_pow by auto. rewrite Rpower_mult.
  replace (1 / 2 * INR 2) with 1 by (simpl; field). apply Rpower_1. pos.
Qed.

Lemma pow_inj_pos x y n : 0 < x -> 0 < y -> (0 < n)%nat -> x ^ n = y ^ n -> x = y.
Proof.
  intros Hx Hy Hn H. apply ln_inv; auto.
  assert (E : ln (x ^ n) = ln (y ^ n)) by now rewrite H.
  rewrite !ln_pow_n in E by auto.
  apply Rmult_eq_reg_l in E; auto. apply not_0_INR. lia.
Qed.

Lemma pow_lt_incr x y n : 0 <= x -> x < y -> (0 < n)%nat -> x ^ n < y ^ n.
Proof.
  intros Hx Hxy Hn. induction n as [|[|n] IH]; [lia|simpl; lra|].
  change (x * x ^ S n < y * y ^ S n).
  assert (IH' : x ^ S n < y ^ S n) by (apply IH; lia).
  assert (0 <= x ^ S n) by (now apply pow_le).
  nra.
Qed.

(** Kepler's law determines each of a and f from the other. *)
Lemma kepler_a_unique m1 m2 a a' f : 0 < a -> 0 < a' -> 0 < f ->
  kepler_third_law m1 m2 a f -> kepler_third_law m1 m2 a' f -> a = a'.
Proof.
  unfold kepler_third_law. intros Ha Ha' Hf H H'. pose proof PI_RGT_0.
  apply (pow_inj_pos a a' 3); auto; try lia.
  apply (Rmult_eq_reg_r ((2 * PI * f) ^ 2)); [congruence|nz].
Qed.
Lemma kepler_f_unique m1 m2 a f f' : 0 < a -> 0 < f -> 0 < f' ->
  kepler_third_law m1 m2 a f -> kepler_third_law m1 m2 a f' -> f = f'.
Proof.
  unfold kepler_third_law. intros Ha Hf Hf' H H'. pose proof PI_RGT_0.
  assert (E : 2 * PI * f = 2 * PI * f').
  { apply (pow_inj_pos _ _ 2); try lia; try pos.
    apply (Rmult_eq_reg_l (a ^ 3)); [congruence|nz]. }
  apply (Rmult_eq_reg_l (2 * PI)); auto. nz.
Qed.
Lemma aR_kepler f m1 m2 : 0 < m1 -> 0 < m2 -> 0 < f -> kepler_third_law m1 m2 (aR f m1 m2) f.
Proof.
  intros. unfold kepler_third_law. rewrite aR_cube, G_SI_Ggrav by auto. pose proof PI_RGT_0. field. lra.
Qed.
Lemma fR_kepler a m1 m2 : 0 < m1 -> 0 < m2 -> 0 < a -> kepler_third_law m1 m2 a (fR a m1 m2).
Proof.
  intros. unfold kepler_third_law. rewrite fR_sqr, G_SI_Ggrav by auto. field. lra.
Qed.
Lemma aR_fR a m1 m2 : 0 < m1 -> 0 < m2 -> 0 < a -> aR (fR a m1 m2) m1 m2 = a.
Proof.
  intros. pose proof (fR_pos a m1 m2).
  apply (kepler_a_unique m1 m2 _ _ (fR a m1 m2)); auto using aR_pos, aR_kepler, fR_kepler.
Qed.
Lemma fR_aR f m1 m2 : 0 < m1 -> 0 < m2 -> 0 < f -> fR (aR f m1 m2) m1 m2 = f.
Proof.
  intros. pose proof (aR_pos f m1 m2).
  apply (kepler_f_unique m1 m2 (aR f m1 m2)); auto using fR_pos, aR_kepler, fR_kepler.
Qed.

Lemma kepler_roundtrip_f m1 m2 f : 0 < m1 -> 0 < m2 -> 0 < f ->
  exists a, get_a_from_f_orb (Fin f) (Fin m1) (Fin m2) = Fin a /\ 0 < a
            /\ kepler_third_law m1 m2 a f
            /\ get_f_orb_from_a (Fin a) (Fin m1) (Fin m2) = Fin f.
Proof.
  intros H1 H2 Hf. exists (aR f m1 m2). pose proof (aR_pos f m1 m2).
  rewrite get_a_fin, get_f_fin, fR_aR by auto. auto using aR_kepler.
Qed.
Lemma kepler_roundtrip_a m1 m2 a : 0 < m1 -> 0 < m2 -> 0 < a ->
  exists f, get_f_orb_from_a (Fin a) (Fin m1) (Fin m2) = Fin f /\ 0 < f
            /\ kepler_third_law m1 m2 a f
            /\ get_a_from_f_orb (Fin f) (Fin m1) (Fin m2) = Fin a.
Proof.
  intros H1 H2 Ha. exists (fR a m1 m2). pose proof (fR_pos a m1 m2).
  rewrite get_f_fin, get_a_fin, aR_fR by auto. auto using fR_kepler.
Qed.

(** ** Chirp mass *)
Lemma chirpR_pow5 m1 m2 : 0 < m1 -> 0 < m2 -> (chirpR m1 m2) ^ 5 * (m1 + m2) = (m1 * m2) ^ 3.
Proof.
  intros H1 H2. pose proof (chirpR_pos m1 m2). apply eq_by_ln; try pos.
  unfold chirpR. lnexp. lra.
Qed.
Lemma chirpR_sym m1 m2 : chirpR m1 m2 = chirpR m2 m1.
Proof. unfold chirpR. now rewrite (Rmult_comm m1), (Rplus_comm m1). Qed.
Lemma chirpR_scale k m1 m2 : 0 < k -> 0 < m1 -> 0 < m2 -> chirpR (k * m1) (k * m2) = k * chirpR m1 m2.
Proof.
  intros Hk H1 H2. pose proof (chirpR_pos m1 m2). pose proof (chirpR_pos (k*m1) (k*m2)).
  apply eq_by_ln; auto; try pos. unfold chirpR.
  replace (k * m1 + k * m2) with (k * (m1 + m2)) by ring.
  lnexp. lra.
Qed.
Lemma chirpR_mono m1 m1' m2 : 0 < m1 -> 0 < m2 -> m1 < m1' -> chirpR m1 m2 < chirpR m1' m2.
Proof.
  intros H1 H2 H. pose proof (chirpR_pos m1 m2) as P. pose proof (chirpR_pos m1' m2) as P'.
  assert (E : (chirpR m1 m2) ^ 5 < (chirpR m1' m2) ^ 5).
  { pose proof (chirpR_pow5 m1 m2 H1 H2) as E1.
    assert (H1' : 0 < m1') by lra. pose proof (chirpR_pow5 m1' m2 H1' H2) as E2.
    apply Rmult_lt_reg_r with ((m1 + m2) * (m1' + m2)); [pos|].
    replace ((chirpR m1 m2) ^ 5 * ((m1 + m2) * (m1' + m2)))
      with ((chirpR m1 m2 ^ 5 * (m1 + m2)) * (m1' + m2)) by ring.
    replace ((chirpR m1' m2) ^ 5 * ((m1 + m2) * (m1' + m2)))
      with ((chirpR m1' m2 ^ 5 * (m1' + m2)) * (m1 + m2)) by ring.
    rewrite E1, E2.
    replace ((m1 * m2) ^ 3 * (m1' + m2)) with (m2 ^ 3 * (m1 ^ 3 * (m1' + m2))) by ring.
    replace ((m1' * m2) ^ 3 * (m1 + m2)) with (m2 ^ 3 * (m1' ^ 3 * (m1 + m2))) by ring.
    apply Rmult_lt_compat_l; [pos|].
    assert (A : m1 ^ 3 * m2 < m1' ^ 3 * m2).
    { apply Rmult_lt_compat_r; auto. apply pow_lt_incr; [lra|lra|lia]. }
    assert (B : m1 ^ 3 * m1' < m1' ^ 3 * m1).
    { replace (m1 ^ 3 * m1') with ((m1 * m1') * (m1 * m1)) by ring.
      replace (m1' ^ 3 * m1) with ((m1 * m1') * (m1' * m1')) by ring.
      apply Rmult_lt_compat_l; nra. }
    nra. }
  destruct (Rlt_le_dec (chirpR m1 m2) (chirpR m1' m2)) as [L|L]; auto.
  exfalso. assert ((chirpR m1' m2) ^ 5 <= (chirpR m1 m2) ^ 5) by (apply pow_incr; lra). lra.
Qed.
Lemma chirpR_le_max m1 m2 : 0 < m1 -> 0 < m2 -> chirpR m1 m2 < Rmax m1 m2.
Proof.
  assert (Key : forall x y, 0 < x -> 0 < y -> x <= y -> chirpR x y < y).
  { intros x y Hx Hy Hxy. pose proof (chirpR_pos x y) as P.
    pose proof (chirpR_pow5 x y Hx Hy) as E.
    destruct (Rlt_le_dec (chirpR x y) y) as [L|L]; auto. exfalso.
    assert (A : y ^ 5 <= (chirpR x y) ^ 5) by (apply pow_incr; lra).
    assert (B : y ^ 5 * (x + y) <= (x * y) ^ 3) by (rewrite <- E; apply Rmult_le_compat_r; lra).
    assert (C : (x * y) ^ 3 <= y ^ 6).
    { replace (y ^ 6) with ((y * y) ^ 3) by ring. apply pow_incr. split; [apply Rlt_le; pos|nra]. }
    assert (D : 0 < y ^ 5 * x) by pos. nra. }
  intros H1 H2. unfold Rmax. destruct (Rle_dec m1 m2).
  - now apply Key.
  - rewrite chirpR_sym. apply Key; lra.
Qed.

(** ** c_0 and get_a_from_ecc *)
Definition c0R a e := a * (1 - e ^ 2) * Rpower e (-12/19) * Rpower (1 + 121/304 * e ^ 2) (-870/2299).
Definition aeR e c0 := c0 * Rpower e (12/19) / (1 - e ^ 2) * Rpower (1 + 121/304 * e ^ 2) (870/2299).

Lemma e_facts e : 0 < e < 1 -> 0 < 1 - e ^ 2 /\ 0 < 1 + 121/304 * e ^ 2.
Proof. intros H. simpl. nra. Qed.
Lemma e_facts0 e : 0 <= e < 1 -> 0 < 1 - e ^ 2 /\ 0 < 1 + 121/304 * e ^ 2.
Proof. intros H. simpl. nra. Qed.

Lemma c_0_fin a e : 0 < e < 1 -> c_0 (Fin a) (Fin e) = Fin (c0R a e).
Proof.
  intros H. destruct (e_facts e H) as [H1 H2]. unfold c_0.
  rewrite npowi2, nmul_fin, nadd_fin, nsub_fin, nmul_fin, !npowr_fin by (auto; lra).
  rewrite !nmul_fin. reflexivity.
Qed.
Lemma get_a_from_ecc_fin e c0 : 0 < e < 1 -> get_a_from_ecc (Fin e) (Fin c0) = Fin (aeR e c0).
Proof.
  intros H. destruct (e_facts e H) as [H1 H2]. unfold get_a_from_ecc.
  rewrite npowi2, nmul_fin, nadd_fin, nsub_fin, !npowr_fin, nmul_fin, ndiv_fin by (auto; lra).
  rewrite !nmul_fin. reflexivity.
Qed.
Lemma c0R_pos a e : 0 < a -> 0 < e < 1 -> 0 < c0R a e.
Proof. intros Ha H. destruct (e_facts e H). unfold c0R. pos. Qed.
Lemma aeR_pos e c0 : 0 < c0 -> 0 < e < 1 -> 0 < aeR e c0.
Proof. intros Ha H. destruct (e_facts e H). unfold aeR. pos. Qed.
Lemma aeR_c0R a e : 0 < a -> 0 < e < 1 -> aeR e (c0R a e) = a.
Proof.
  intros Ha H. destruct (e_facts e H). destruct H. unfold aeR, c0R.
  apply eq_by_ln; try pos. lnexp. lra.
Qed.
Lemma c0R_aeR e c0 : 0 < c0 -> 0 < e < 1 -> c0R (aeR e c0) e = c0.
Proof.
  intros Ha H. destruct (e_facts e H). destruct H. unfold aeR, c0R.
  apply eq_by_ln; try pos. lnexp. lra.
Qed.
Lemma aeR_mono e1 e2 c0 : 0 < c0 -> 0 < e1 -> e1 < e2 -> e2 < 1 -> aeR e1 c0 < aeR e2 c0.
Proof.
  intros Hc H1 H12 H2. unfold aeR.
  destruct (e_facts e1) as [A1 B1]; [lra|]. destruct (e_facts e2) as [A2 B2]; [lra|].
  assert (S : e1 ^ 2 < e2 ^ 2) by (simpl; nra).
  apply Rmult_gt_0_lt_compat; try pos.
  - unfold Rdiv. apply Rmult_gt_0_lt_compat; try pos.
    + apply Rmult_lt_compat_l; auto. apply Rpower_mono_base; lra.
    + apply Rinv_lt_contravar; [pos|lra].
  - apply Rpower_mono_base; lra.
Qed.

(** ** peters_f *)
Lemma Rpower_72 x : 0 < x -> Rpower x (7/2) = sqrt x ^ 7.
Proof.
  intros H. rewrite <- Rpower_sqrt by auto. rewrite <- Rpower_pow by auto.
  rewrite Rpower_mult. f_equal. simpl. field.
Qed.
Lemma Rpower_52 x : 0 < x -> Rpower x (5/2) = sqrt x ^ 5.
Proof.
  intros H. rewrite <- Rpower_sqrt by auto. rewrite <- Rpower_pow by auto.
  rewrite Rpower_mult. f_equal. simpl. field.
Qed.
Lemma peters_f_fin e : -1 < e < 1 -> peters_f (Fin e) = Fin (enhancement e).
Proof.
  intros H. assert (0 < 1 - e ^ 2) by (simpl; nra). unfold peters_f, enhancement.
  rewrite npowi2, npowi4, !nmul_fin, !nadd_fin, nsub_fin, npowr_fin, ndiv_fin by auto.
  now rewrite Rpower_72.
Qed.
Lemma enhancement_0 : enhancement 0 = 1.
Proof.
  unfold enhancement. replace (1 - 0 ^ 2) with 1 by ring. rewrite sqrt_1. field.
Qed.
Lemma enhancement_mono e1 e2 : 0 <= e1 -> e1 < e2 -> e2 < 1 -> enhancement e1 < enhancement e2.
Proof.
  intros H1 H12 H2. unfold enhancement, Rdiv.
  destruct (e_facts0 e1) as [A1 B1]; [lra|]. destruct (e_facts0 e2) as [A2 B2]; [lra|].
  assert (S : e1 ^ 2 < e2 ^ 2) by (simpl; nra).
  assert (S0 : 0 <= e1 ^ 2) by (apply pow2_ge_0).
  assert (S4 : e1 ^ 4 < e2 ^ 4).
  { replace (e1 ^ 4) with (e1 ^ 2 * e1 ^ 2) by ring. replace (e2 ^ 4) with (e2 ^ 2 * e2 ^ 2) by ring. nra. }
  assert (P4 : 0 <= e1 ^ 4) by (replace (e1 ^ 4) with (e1 ^ 2 * e1 ^ 2) by ring; nra).
  assert (Q1 : 0 < sqrt (1 - e1 ^ 2)) by (now apply sqrt_lt_R0).
  assert (Q2 : 0 < sqrt (1 - e2 ^ 2)) by (now apply sqrt_lt_R0).
  apply Rmult_gt_0_lt_compat.
  - apply Rinv_0_lt_compat. pos.
  - lra.
  - lra.
  - apply Rinv_lt_contravar; [pos|].
    rewrite <- !Rpower_72 by auto. apply Rpower_mono_base; lra.
Qed.
Lemma enhancement_ge_1 e : 0 <= e < 1 -> 1 <= enhancement e.
Proof.
  intros [H0 H1]. destruct H0 as [H0| <-].
  - rewrite <- enhancement_0. left. apply enhancement_mono; lra.
  - rewrite enhancement_0; lra.
Qed.
Lemma enhancement_pos e : 0 <= e < 1 -> 0 < enhancement e.
Proof. intros H. pose proof (enhancement_ge_1 e H). lra. Qed.
Lemma peters_f_at_1 : peters_f (Fin 1) = PInf.
Proof.
  unfold peters_f. rewrite npowi2, npowi4, !nmul_fin, !nadd_fin, nsub_fin.
  replace (1 - 1 ^ 2) with 0 by ring. rewrite npowr_0_pos by lra. simpl. rcase; try lra; auto.
Qed.

(** ** peters_g *)
Definition fin_bessel (jv : Z -> num -> num) (J : Z -> R -> R) : Prop :=
  forall k x, jv k (Fin x) = Fin (J k x).
Definition gR (J : Z -> R -> R) (n : Z) (e : R) : R :=
  let x := IZR n * e in
  IZR (n^4) / 32 *
  ((J (n-2)%Z x - 2 * e * J (n-1)%Z x + 2 / IZR n * J n x + 2 * e * J (n+1)%Z x - J (n+2)%Z x) ^ 2
   + (1 - e ^ 2) * (J (n-2)%Z x - 2 * J n x + J (n+2)%Z x) ^ 2
   + 4 / (3 * IZR (n^2)) * (J n x) ^ 2).
Lemma peters_g_fin jv J n e : fin_bessel jv J -> (1 <= n)%Z ->
  peters_g jv n (Fin e) = Fin (gR J n e).
Proof.
  intros HJ Hn. unfold peters_g, gR, nZ. rewrite nmul_fin, !HJ.
  assert (IZR n <> 0) by (apply not_0_IZR; lia).
  assert (0 < n^2)%Z by (apply Z.pow_pos_nonneg; lia).
  assert (3 * IZR (n^2) <> 0).
  { apply Rgt_not_eq. apply IZR_lt in H0. lra. }
  rewrite !npowi2, !nmul_fin, !ndiv_fin by (auto; lra).
  rewrite !nmul_fin, !nsub_fin, !nadd_fin, !nsub_fin. rewrite !npowi2, !nmul_fin, !nadd_fin, !nmul_fin.
  reflexivity.
Qed.
Lemma gR_nonneg J n e : (1 <= n)%Z -> -1 <= e <= 1 -> 0 <= gR J n e.
Proof.
  intros Hn He. unfold gR.
  assert (0 < n^4)%Z by (apply Z.pow_pos_nonneg; lia). apply IZR_lt in H.
  assert (0 < n^2)%Z by (apply Z.pow_pos_nonneg; lia). apply IZR_lt in H0.
  assert (0 <= 1 - e ^ 2) by (simpl; nra).
  apply Rmult_le_pos; [lra|].
  apply Rplus_le_le_0_compat; [apply Rplus_le_le_0_compat; [apply pow2_ge_0|]|];
    apply Rmult_le_pos; try apply pow2_ge_0; auto.
  apply Rlt_le. apply Rdiv_lt_0_compat; lra.
Qed.
(** values of integer-order Bessel functions at 0 *)
Definition bessel_at_0 (J : Z -> R -> R) : Prop := forall k, J k 0 = if (k =? 0)%Z then 1 else 0.
Lemma gR_at_0 J n : bessel_at_0 J -> (1 <= n)%Z -> gR J n 0 = if (n =? 2)%Z then 1 else 0.
Proof.
  intros HJ Hn. unfold gR. rewrite !Rmult_0_r, !HJ.
  destruct (Z.eqb_spec n 0); [lia|].
  destruct (Z.eqb_spec (n+2) 0); [lia|]. destruct (Z.eqb_spec (n+1) 0); [lia|].
  destruct (Z.eqb_spec n 2) as [->|Hn2].
  - change (2 ^ 4)%Z with 16%Z. change (2 ^ 2)%Z with 4%Z. change (2 - 2 =? 0)%Z with true.
    change (2 - 1 =? 0)%Z with false. cbv iota. field.
  - destruct (Z.eqb_spec (n-2) 0); [lia|]. destruct (Z.eqb_spec (n-1) 0); simpl; ring.
Qed.

(** ** beta, fn_dot and orbital decay *)
Definition betaR m1 m2 := 64/5 * Ggrav ^ 3 / clight ^ 5 * m1 * m2 * (m1 + m2).
Lemma beta_fin m1 m2 : beta (Fin m1) (Fin m2) = Fin (betaR m1 m2).
Proof.
  unfold beta. pose proof clight_pos. rewrite npowi3, npowi5, nmul_fin, ndiv_fin by nz.
  rewrite nadd_fin, !nmul_fin. reflexivity.
Qed.
Lemma betaR_pos m1 m2 : 0 < m1 -> 0 < m2 -> 0 < betaR m1 m2.
Proof. intros. unfold betaR. pose proof Ggrav_pos. pose proof clight_pos. pos. Qed.

Lemma peters_da_dt_beta m1 m2 a e : 0 < a -> -1 < e < 1 ->
  peters_da_dt m1 m2 a e = - betaR m1 m2 * enhancement e / a ^ 3.
Proof.
  intros Ha He. unfold peters_da_dt, betaR, enhancement. rewrite G_SI_Ggrav, c_SI_clight.
  assert (0 < 1 - e ^ 2) by (simpl; nra). assert (0 < sqrt (1 - e^2)) by now apply sqrt_lt_R0.
  pose proof clight_pos. field. repeat split; lra.
Qed.

Definition fdotR mc f e n := (48 * IZR n) / (5 * PI) * Rpower (Ggrav * mc) (5/3) / clight ^ 5
  * Rpower (2 * PI * f) (11/3) * enhancement e.
Lemma fn_dot_elem_fin mc f e n : 0 < mc -> 0 < f -> -1 < e < 1 ->
  fn_dot_elem (Fin mc) (Fin f) (Fin e) n = Fin (fdotR mc f e n).
Proof.
  intros Hm Hf He. unfold fn_dot_elem, nZ. pose proof PI_RGT_0. pose proof Ggrav_pos. pose proof clight_pos.
  rewrite peters_f_fin, npowi5 by auto. rewrite !nmul_fin, !npowr_fin, ndiv_fin by pos.
  rewrite !nmul_fin, ndiv_fin by nz. rewrite !nmul_fin. reflexivity.
Qed.

(** fdot_1 = (3/2) f beta F / a^4 when a and f are related by Kepler's law *)
Lemma fdotR_beta m1 m2 a f e : 0 < m1 -> 0 < m2 -> 0 < a -> 0 < f -> 0 <= e < 1 ->
  kepler_third_law m1 m2 a f ->
  fdotR (chirpR m1 m2) f e 1 = 3/2 * f * betaR m1 m2 * enhancement e / a ^ 4.
Proof.
  intros H1 H2 Ha Hf He HK. pose proof (enhancement_pos e He) as HF.
  pose proof PI_RGT_0 as HPI. pose proof Ggrav_pos as HG. pose proof clight_pos as Hc.
  pose proof (chirpR_pos m1 m2) as Hmc. pose proof (betaR_pos m1 m2 H1 H2) as Hb.
  assert (LK : 3 * ln a + 2 * (ln 2 + ln PI + ln f) = ln Ggrav + ln (m1 + m2)).
  { unfold kepler_third_law in HK. rewrite G_SI_Ggrav in HK.
    assert (E : ln (a ^ 3 * (2 * PI * f) ^ 2) = ln (Ggrav * (m1 + m2))) by now rewrite HK.
    revert E. lnexp. lra. }
  unfold fdotR, betaR. apply eq_by_ln; try pos.
  unfold chirpR. replace (48 * IZR 1) with (3 * (2 * 2 * 2 * 2)) by (simpl; ring).
  replace 64 with (2 * 2 * 2 * 2 * 2 * 2) by ring.
  lnexp. lra.
Qed.

Lemma fdotR_scale mc f e n : fdotR mc f e n = IZR n * fdotR mc f e 1.
Proof.
  unfold fdotR. pose proof PI_RGT_0. pose proof clight_pos. field. repeat split; lra.
Qed.
Lemma fdotR_pos mc f e n : (1 <= n)%Z -> 0 < mc -> 0 < f -> 0 <= e < 1 -> 0 < fdotR mc f e n.
Proof.
  intros Hn Hm Hf He. pose proof (enhancement_pos e He). pose proof PI_RGT_0. pose proof Ggrav_pos.
  pose proof clight_pos. apply IZR_le in Hn. unfold fdotR. pos.
Qed.

(** derivative of x |-> x^y for a fixed real exponent *)
Lemma is_derive_Rpower (y x : R) : 0 < x -> is_derive (fun z => Rpower z y) x (y * Rpower x (y - 1)).
Proof.
  intros Hx. unfold Rpower at 1. auto_derive; [lra|].
  fold (Rpower x y). unfold Rminus. rewrite Rpower_plus, Rpower_Ropp, Rpower_1 by auto. field. lra.
Qed.

Lemma is_derive_Rpower_comp (f : R -> R) x l y : 0 < f x -> is_derive f x l ->
  is_derive (fun s => Rpower (f s) y) x (l * (y * Rpower (f x) (y - 1))).
Proof.
  intros Hf Hd. apply (is_derive_comp (fun z => Rpower z y) f x (y * Rpower (f x) (y - 1)) l); auto.
  now apply is_derive_Rpower.
Qed.

Lemma fR_alt a m1 m2 : 0 < m1 -> 0 < m2 -> 0 < a ->
  fR a m1 m2 = Rpower (Ggrav * (m1 + m2)) (1/2) / (2 * PI) * Rpower a (-3/2).
Proof.
  intros. pose proof Ggrav_pos. pose proof PI_RGT_0. unfold fR. apply eq_by_ln; try pos. lnexp. lra.
Qed.
Lemma is_derive_pos_loc (a : R -> R) (t da : R) : 0 < a t -> is_derive a t da -> locally t (fun s => 0 < a s).
Proof.
  intros Ha Hd.
  assert (C : continuous a t).
  { apply (ex_derive_continuous (K := R_AbsRing) (V := R_NormedModule)). now exists da. }
  apply (C (fun y => 0 < y)). apply (open_gt 0). exact Ha.
Qed.
Lemma is_derive_fR (a : R -> R) (da t m1 m2 : R) : 0 < m1 -> 0 < m2 -> 0 < a t -> is_derive a t da ->
  is_derive (fun s => fR (a s) m1 m2) t (- 3/2 * fR (a t) m1 m2 / a t * da).
Proof.
  intros H1 H2 Ha Hd.
  apply (is_derive_ext_loc (fun s => Rpower (Ggrav * (m1 + m2)) (1/2) / (2 * PI) * Rpower (a s) (-3/2))).
  { generalize (is_derive_pos_loc a t da Ha Hd). apply filter_imp. intros s Hs. symmetry. now apply fR_alt. }
  rewrite fR_alt by auto.
  set (K := Rpower (Ggrav * (m1 + m2)) (1/2) / (2 * PI)).
  evar_last.
  - apply is_derive_scal. apply (is_derive_comp (fun z => Rpower z (-3/2)) a); [|exact Hd].
    now apply is_derive_Rpower.
  - unfold scal; simpl; unfold mult; simpl.
    unfold Rminus. rewrite Rpower_plus, Rpower_Ropp, Rpower_1 by auto. field. lra.
Qed.

Lemma fn_dot_is_derivative (a f : R -> R) (e t m1 m2 : R) (n : Z) :
  0 < m1 -> 0 < m2 -> 0 <= e < 1 -> (1 <= n)%Z ->
  0 < a t -> is_derive a t (peters_da_dt m1 m2 (a t) e) ->
  locally t (fun s => get_f_orb_from_a (Fin (a s)) (Fin m1) (Fin m2) = Fin (f s)) ->
  exists mc d, chirp_mass (Fin m1) (Fin m2) = Fin mc /\
    fn_dot (Fin mc) (Fin (f t)) (Fin e) [n] = Ok [Fin d] /\ 0 < d /\
    is_derive (fun s => IZR n * f s) t d.
Proof.
  intros H1 H2 He Hn Ha Hd Hf.
  pose proof (locally_singleton _ _ Hf) as Ht. cbv beta in Ht. rewrite get_f_fin in Ht by auto. apply Fin_inj in Ht.
  pose proof (chirpR_pos m1 m2) as Hmc. pose proof (fR_pos (a t) m1 m2) as Hft. rewrite Ht in Hft.
  exists (chirpR m1 m2), (fdotR (chirpR m1 m2) (f t) e n).
  split; [now apply chirp_mass_fin|]. split.
  { unfold fn_dot. simpl. destruct (Z.ltb_spec n 1); [lia|]. simpl.
    rewrite fn_dot_elem_fin by (auto; lra). reflexivity. }
  split; [now apply fdotR_pos|].
  rewrite fdotR_scale. apply is_derive_scal.
  apply (is_derive_ext_loc (fun s => fR (a s) m1 m2)).
  { pose proof (is_derive_pos_loc a t _ Ha Hd) as L.
    generalize (filter_and _ _ L Hf). apply filter_imp. intros s [Hs Es].
    rewrite get_f_fin in Es by auto. now apply Fin_inj in Es. }
  evar_last. { apply is_derive_fR; auto. exact Hd. }
  rewrite (fdotR_beta m1 m2 (a t)); auto.
  - rewrite peters_da_dt_beta by (auto; lra). rewrite Ht. field. lra.
  - rewrite <- Ht. now apply fR_kepler.
Qed.

(** ** ensure_array *)
Lemma ensure_array_one_spec {A U} (v : pyval A U) :
  ensure_array_one v =
  match v with
  | PNone => (PNone, false)
  | PQArr l u => (PQArr l u, false)
  | PArr l => (PArr l, false)
  | PList l => (PArr l, false)
  | PQScalar x u => (PQArr [x] u, true)
  | POther x => (PArr [x], true)
  end.
Proof. destruct v; reflexivity. Qed.
Lemma ensure_array_map {A U} (args : list (pyval A U)) :
  ensure_array args = (map (fun v => fst (ensure_array_one v)) args,
                       existsb (fun v => snd (ensure_array_one v)) args).
Proof.
  induction args as [|v rest IH]; simpl; auto.
  rewrite IH. destruct (ensure_array_one v); reflexivity.
Qed.

(** ** Values that are not negative numbers (nan and +inf allowed) *)
Definition nonneg (x : num) : Prop := nlt x (Fin 0) = false.
Lemma nonneg_cases x : nonneg x <-> x = NaN \/ x = PInf \/ exists r, x = Fin r /\ 0 <= r.
Proof.
  unfold nonneg. destruct x as [r| | |]; simpl; split; intros H; auto.
  - right; right. exists r. split; auto. revert H. rcase; intros; try discriminate; lra.
  - destruct H as [H|[H|[r' [H H']]]]; try discriminate. inversion H; subst. rcase; lra || auto.
  - discriminate.
  - destruct H as [H|[H|[r' [H H']]]]; discriminate.
Qed.
Lemma nonneg_fin r : 0 <= r -> nonneg (Fin r).
Proof. intros. apply nonneg_cases. eauto. Qed.
Lemma nonneg_add x y : nonneg x -> nonneg y -> nonneg (nadd x y).
Proof.
  rewrite !nonneg_cases. intros [->|[->|[r [-> Hr]]]] [->|[->|[s [-> Hs]]]]; simpl; auto.
  right; right. exists (r + s). split; auto; lra.
Qed.
Lemma nonneg_mul x y : nonneg x -> nonneg y -> nonneg (nmul x y).
Proof.
  rewrite !nonneg_cases. intros [->|[->|[r [-> Hr]]]] [->|[->|[s [-> Hs]]]]; simpl; auto; try (rcase; auto; lra).
  right; right. exists (r * s). split; auto; nra.
Qed.
Lemma nonneg_sqr x : nonneg (npowi x 2).
Proof.
  destruct x as [r| | |]; try reflexivity. rewrite npowi2. apply nonneg_fin. apply pow2_ge_0.
Qed.
Lemma peters_g_nonneg jv n e : (1 <= n)%Z -> -1 <= e <= 1 -> nonneg (peters_g jv n (Fin e)).
Proof.
  intros Hn He. unfold peters_g, nZ.
  assert (H4 : (0 < n^4)%Z) by (apply Z.pow_pos_nonneg; lia). apply IZR_lt in H4.
  assert (H2 : (0 < n^2)%Z) by (apply Z.pow_pos_nonneg; lia). apply IZR_lt in H2.
  apply nonneg_mul.
  { rewrite ndiv_fin by lra. apply nonneg_fin. lra. }
  apply nonneg_add; [apply nonneg_add|].
  - apply nonneg_sqr.
  - apply nonneg_mul; [|apply nonneg_sqr]. rewrite npowi2, nsub_fin. apply nonneg_fin. simpl; nra.
  - apply nonneg_mul; [|apply nonneg_sqr]. rewrite nmul_fin, ndiv_fin by lra. apply nonneg_fin.
    apply Rlt_le. apply Rdiv_lt_0_compat; lra.
Qed.

Lemma fn_dot_error_iff m f e ns : fn_dot m f e ns = Err ValueError <-> Exists (fun n => (n < 1)%Z) ns.
Proof.
  unfold fn_dot. destruct (existsb _ ns) eqn:E.
  - rewrite existsb_exists in E. destruct E as [x [Hx Hl]]. apply Z.ltb_lt in Hl. split; auto.
    intros _. apply Exists_exists. eauto.
  - split; [discriminate|]. intros H. apply Exists_exists in H. destruct H as [x [Hx Hl]].
    apply Z.ltb_lt in Hl. assert (existsb (fun k => (k <? 1)%Z) ns = true).
    { apply existsb_exists. eauto. }
    congruence.
Qed.
Lemma fn_dot_linear mc f e ns : 0 < mc -> 0 < f -> 0 <= e < 1 -> List.Forall (fun n => (1 <= n)%Z) ns ->
  exists d, 0 < d /\ fn_dot (Fin mc) (Fin f) (Fin e) ns = Ok (map (fun n => Fin (IZR n * d)) ns).
Proof.
  intros Hm Hf He Hn. exists (fdotR mc f e 1). split; [apply fdotR_pos; auto; lia|].
  unfold fn_dot. destruct (existsb _ ns) eqn:E.
  - rewrite existsb_exists in E. destruct E as [x [Hx Hl]]. apply Z.ltb_lt in Hl.
    rewrite List.Forall_forall in Hn. apply Hn in Hx. lia.
  - f_equal. apply map_ext. intros n. rewrite fn_dot_elem_fin by (auto; lra). now rewrite fdotR_scale.
Qed.

Lemma ensure_array_idem {A U} (args : list (pyval A U)) :
  ensure_array (fst (ensure_array args)) = (fst (ensure_array args), false).
Proof.
  rewrite !ensure_array_map. simpl. f_equal.
  - rewrite map_map. apply map_ext. intros v. rewrite ensure_array_one_spec. now destruct v.
  - induction args as [|v t IH]; simpl; auto. rewrite IH, orb_false_r.
    rewrite !ensure_array_one_spec. now destruct v.
Qed.

(** ** Monotone decay rates used by C03/C07 *)
Lemma kepler_mono_a m1 m2 a a' f f' : 0 < a -> 0 < f -> 0 < f' -> a < a' ->
  kepler_third_law m1 m2 a f -> kepler_third_law m1 m2 a' f' -> f' < f.
Proof.
  unfold kepler_third_law. intros Ha Hf Hf' H K K'. pose proof PI_RGT_0.
  destruct (Rlt_le_dec f' f) as [L|L]; auto. exfalso.
  assert (A : a ^ 3 < a' ^ 3) by (apply pow_lt_incr; [lra|lra|lia]).
  assert (B : (2 * PI * f) ^ 2 <= (2 * PI * f') ^ 2).
  { apply pow_incr. split; [apply Rlt_le; pos|]. apply Rmult_le_compat_l; lra. }
  assert (C : 0 < (2 * PI * f) ^ 2) by pos.
  assert (D : 0 < a ^ 3) by pos. nra.
Qed.

Lemma peters_f_value e : 0 <= e < 1 -> peters_f (Fin e) = Fin (enhancement e) /\ 1 <= enhancement e.
Proof. intros H. split; [apply peters_f_fin; lra|now apply enhancement_ge_1]. Qed.
Lemma peters_g_nonneg01 jv n e : (1 <= n)%Z -> 0 <= e <= 1 -> nlt (peters_g jv n (Fin e)) (Fin 0) = false.
Proof. intros Hn He. apply peters_g_nonneg; auto; lra. Qed.
Lemma peters_g_finite jv J n e : (forall k x, jv k (Fin x) = Fin (J k x)) ->
  (1 <= n)%Z -> 0 <= e <= 1 -> exists g, peters_g jv n (Fin e) = Fin g /\ 0 <= g.
Proof.
  intros HJ Hn He. exists (gR J n e). split; [now apply peters_g_fin|]. apply gR_nonneg; auto; lra.
Qed.
