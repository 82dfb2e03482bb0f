(** SplineFacts.v -- interpolating cubic splines: equations for the second derivatives, existence, bounds from an approximate solution. *)
From Coq Require Import Reals List Lra Lia Psatz.
From Verif Require Import Num Psd SplineSpec.
Import ListNotations.
Open Scope R_scope.

Section spline.
  Variables (n : nat) (x y : nat -> R).
  Hypothesis N : (4 <= n)%nat.
  Hypothesis inc : forall i, (i < n)%nat -> x i < x (S i).
  Let h i := x (S i) - x i.
  Let D i := (y (S i) - y i) / h i.
  Lemma h_pos i : (i < n)%nat -> 0 < h i.
  Proof. intros H. unfold h. specialize (inc i H). lra. Qed.
  (** [m i] is half of the second derivative at the i-th point. *)
  Definition moments (m : nat -> R) : Prop :=
    (forall i, (S i < n)%nat -> h i * m i + 2 * (h i + h (S i)) * m (S i) + h (S i) * m (S (S i)) = 3 * (D (S i) - D i)) /\
    (m 1%nat - m 0%nat) * h 1%nat = (m 2%nat - m 1%nat) * h 0%nat /\
    (m n - m (n - 1)%nat) * h (n - 2)%nat = (m (n - 1)%nat - m (n - 2)%nat) * h (n - 1)%nat.
  Definition from_moments (m : nat -> R) (i : nat) (t : R) : R :=
    cubic (y i) (D i - h i * (2 * m i + m (S i)) / 3) (m i) ((m (S i) - m i) / (3 * h i)) (x i) t.

  (** From the pieces to the moments. *)
  Lemma pieces_moments (a b c d : nat -> R) :
    (forall i, (i < n)%nat -> cubic (a i) (b i) (c i) (d i) (x i) (x i) = y i /\ cubic (a i) (b i) (c i) (d i) (x i) (x (S i)) = y (S i)) ->
    (forall i, (S i < n)%nat -> b i + 2 * c i * h i + 3 * d i * h i ^ 2 = b (S i) /\ 2 * c i + 6 * d i * h i = 2 * c (S i)) ->
    d 0%nat = d 1%nat -> d (n - 2)%nat = d (n - 1)%nat ->
    exists m, moments m /\ forall i t, (i < n)%nat -> cubic (a i) (b i) (c i) (d i) (x i) t = from_moments m i t.
  Proof.
    intros V S' E0 En. set (m i := if Nat.eqb i n then c (n - 1)%nat + 3 * d (n - 1)%nat * h (n - 1)%nat else c i).
    assert (Mc : forall i, (i < n)%nat -> m i = c i) by (intros i H; unfold m; destruct (Nat.eqb_spec i n); [lia|reflexivity]).
    assert (Ms : forall i, (i < n)%nat -> m (S i) = c i + 3 * d i * h i).
    { intros i H. unfold m. destruct (Nat.eqb_spec (S i) n) as [E|E]; [replace (n - 1)%nat with i by lia; reflexivity|]. destruct (S' i) as (_ & Q); [lia|]. lra. }
    assert (A : forall i, (i < n)%nat -> a i = y i). { intros i H. destruct (V i H) as (Q & _). unfold cubic in Q. replace (x i - x i) with 0 in Q by ring. lra. }
    assert (Dd : forall i, (i < n)%nat -> d i = (m (S i) - m i) / (3 * h i)). { intros i H. pose proof (h_pos i H). rewrite (Ms i H), (Mc i H). field. lra. }
    assert (Bb : forall i, (i < n)%nat -> b i = D i - h i * (2 * m i + m (S i)) / 3).
    { intros i H. pose proof (h_pos i H) as P. destruct (V i H) as (_ & Q). unfold cubic in Q. fold (h i) in Q. rewrite (A i H) in Q. rewrite (Ms i H), (Mc i H). unfold D.
      rewrite <- Q. field. lra. }
    exists m. split; [|intros i t H; unfold from_moments; now rewrite (A i H), (Bb i H), <- (Mc i H), <- (Dd i H)].
    split; [|split].
    - intros i H. destruct (S' i H) as (Q & _). rewrite (Bb i), (Bb (S i)), (Dd i), <- (Mc i) in Q by lia. pose proof (h_pos i ltac:(lia)) as P.
      assert (Z : 3 * ((m (S i) - m i) / (3 * h i)) * h i ^ 2 = (m (S i) - m i) * h i) by (field; lra). rewrite Z in Q. lra.
    - pose proof (h_pos 0 ltac:(lia)). pose proof (h_pos 1 ltac:(lia)). rewrite (Dd 0%nat), (Dd 1%nat) in E0 by lia.
      assert (Q : (m 1%nat - m 0%nat) / (3 * h 0%nat) * (3 * h 0%nat * h 1%nat) = (m 2%nat - m 1%nat) / (3 * h 1%nat) * (3 * h 0%nat * h 1%nat)) by (now rewrite E0).
      replace ((m 1%nat - m 0%nat) / (3 * h 0%nat) * (3 * h 0%nat * h 1%nat)) with ((m 1%nat - m 0%nat) * h 1%nat) in Q by (field; lra).
      replace ((m 2%nat - m 1%nat) / (3 * h 1%nat) * (3 * h 0%nat * h 1%nat)) with ((m 2%nat - m 1%nat) * h 0%nat) in Q by (field; lra). exact Q.
    - pose proof (h_pos (n - 2) ltac:(lia)). pose proof (h_pos (n - 1) ltac:(lia)). rewrite (Dd (n - 2)%nat), (Dd (n - 1)%nat) in En by lia.
      replace (S (n - 1)) with n in En by lia. replace (S (n - 2)) with (n - 1)%nat in En by lia.
      assert (Q : (m (n - 1)%nat - m (n - 2)%nat) / (3 * h (n - 2)%nat) * (3 * h (n - 2)%nat * h (n - 1)%nat) = (m n - m (n - 1)%nat) / (3 * h (n - 1)%nat) * (3 * h (n - 2)%nat * h (n - 1)%nat)) by (now rewrite En).
      replace ((m (n - 1)%nat - m (n - 2)%nat) / (3 * h (n - 2)%nat) * (3 * h (n - 2)%nat * h (n - 1)%nat)) with ((m (n - 1)%nat - m (n - 2)%nat) * h (n - 1)%nat) in Q by (field; lra).
      replace ((m n - m (n - 1)%nat) / (3 * h (n - 1)%nat) * (3 * h (n - 2)%nat * h (n - 1)%nat)) with ((m n - m (n - 1)%nat) * h (n - 2)%nat) in Q by (field; lra). lra.
  Qed.
  (** And back. *)
  Lemma moments_pieces m : moments m ->
    let a := y in let b i := D i - h i * (2 * m i + m (S i)) / 3 in let d i := (m (S i) - m i) / (3 * h i) in
    (forall i, (i < n)%nat -> cubic (a i) (b i) (m i) (d i) (x i) (x i) = y i /\ cubic (a i) (b i) (m i) (d i) (x i) (x (S i)) = y (S i)) /\
    (forall i, (S i < n)%nat -> b i + 2 * m i * h i + 3 * d i * h i ^ 2 = b (S i) /\ 2 * m i + 6 * d i * h i = 2 * m (S i)) /\
    d 0%nat = d 1%nat /\ d (n - 2)%nat = d (n - 1)%nat.
  Proof.
    intros (R & E0 & En). cbv zeta. split; [|split; [|split]].
    - intros i H. pose proof (h_pos i H). unfold cubic, D. fold (h i). split; [replace (x i - x i) with 0 by ring; lra|field; lra].
    - intros i H. pose proof (h_pos i ltac:(lia)). pose proof (h_pos (S i) ltac:(lia)). specialize (R i H). split; [|field; lra].
      replace (3 * ((m (S i) - m i) / (3 * h i)) * h i ^ 2) with ((m (S i) - m i) * h i) by (field; lra). lra.
    - pose proof (h_pos 0 ltac:(lia)). pose proof (h_pos 1 ltac:(lia)). apply Rmult_eq_reg_r with (3 * h 0%nat * h 1%nat); [|nra].
      replace ((m 1%nat - m 0%nat) / (3 * h 0%nat) * (3 * h 0%nat * h 1%nat)) with ((m 1%nat - m 0%nat) * h 1%nat) by (field; lra).
      replace ((m 2%nat - m 1%nat) / (3 * h 1%nat) * (3 * h 0%nat * h 1%nat)) with ((m 2%nat - m 1%nat) * h 0%nat) by (field; lra). exact E0.
    - pose proof (h_pos (n - 2) ltac:(lia)). pose proof (h_pos (n - 1) ltac:(lia)). replace (S (n - 1)) with n by lia. replace (S (n - 2)) with (n - 1)%nat by lia.
      apply Rmult_eq_reg_r with (3 * h (n - 2)%nat * h (n - 1)%nat); [|nra].
      replace ((m (n - 1)%nat - m (n - 2)%nat) / (3 * h (n - 2)%nat) * (3 * h (n - 2)%nat * h (n - 1)%nat)) with ((m (n - 1)%nat - m (n - 2)%nat) * h (n - 1)%nat) by (field; lra).
      replace ((m n - m (n - 1)%nat) / (3 * h (n - 1)%nat) * (3 * h (n - 2)%nat * h (n - 1)%nat)) with ((m n - m (n - 1)%nat) * h (n - 2)%nat) by (field; lra). lra.
  Qed.

  (** The first and the last equation without the moments at the ends. *)
  Lemma first_row m0 m1 m2 h0 h1 : 0 < h1 -> (m1 - m0) * h1 = (m2 - m1) * h0 ->
    h0 * m0 + 2 * (h0 + h1) * m1 + h1 * m2 = (3 * h0 + 2 * h1 + h0 ^ 2 / h1) * m1 + (h1 - h0 ^ 2 / h1) * m2.
  Proof. intros P E. assert (Z : m0 = m1 - (m2 - m1) * h0 / h1) by (rewrite <- E; field; lra). rewrite Z. field. lra. Qed.

  (** An approximate solution of diagonally dominant equations is close to the solution. *)
  Lemma largest (e : nat -> R) k : exists i, (i <= k)%nat /\ forall j, (j <= k)%nat -> Rabs (e j) <= Rabs (e i).
  Proof.
    induction k as [|k (i & I & H)]; [exists 0%nat; split; [lia|]; intros j J; replace j with 0%nat by lia; lra|].
    destruct (Rle_lt_dec (Rabs (e (S k))) (Rabs (e i))) as [L|L].
    - exists i. split; [lia|]. intros j J. destruct (Nat.eq_dec j (S k)) as [->|]; [exact L|apply H; lia].
    - exists (S k). split; [lia|]. intros j J. destruct (Nat.eq_dec j (S k)) as [->|]; [lra|]. specialize (H j ltac:(lia)). lra.
  Qed.
  Lemma dominated A B C u v w K r q : Rabs v = K -> Rabs u <= K -> Rabs w <= K -> 0 < q -> Rabs (A * u + B * v + C * w) <= r * q -> Rabs A + Rabs C + q <= B -> K <= r.
  Proof.
    intros V U W Q R L. assert (T : B * K <= r * q + Rabs A * K + Rabs C * K).
    { pose proof (Rabs_pos A). pose proof (Rabs_pos C). assert (B0 : 0 <= B) by lra.
      assert (X : B * K = Rabs (B * v)) by (rewrite Rabs_mult, V, (Rabs_pos_eq B) by exact B0; reflexivity). rewrite X.
      replace (B * v) with ((A * u + B * v + C * w) + (- (A * u) + - (C * w))) by ring.
      eapply Rle_trans; [apply Rabs_triang|]. eapply Rle_trans; [apply Rplus_le_compat_l, Rabs_triang|]. rewrite !Rabs_Ropp, !Rabs_mult. nra. }
    assert (K0 : 0 <= K) by (rewrite <- V; apply Rabs_pos). assert (Y : q * K <= r * q) by nra. apply Rmult_le_reg_r with q; [exact Q|lra].
  Qed.
  Lemma end_dominant h0 h1 : 0 < h0 -> 0 < h1 -> Rabs (h1 - h0 ^ 2 / h1) + (h0 + h1) <= 3 * h0 + 2 * h1 + h0 ^ 2 / h1.
  Proof. intros A B. assert (0 <= h0 ^ 2 / h1) by (apply Rmult_le_pos; [nra|left; now apply Rinv_0_lt_compat]). unfold Rabs. destruct (Rcase_abs _); lra. Qed.

  Variables (m C : nat -> R) (eps : R).
  Hypothesis Mm : moments m.
  Hypothesis rows : forall i, (1 <= i)%nat -> (i < n - 2)%nat ->
    Rabs (h i * C i + 2 * (h i + h (S i)) * C (S i) + h (S i) * C (S (S i)) - 3 * (D (S i) - D i)) <= eps * (h i + h (S i)).
  Hypothesis row_0 : Rabs ((3 * h 0%nat + 2 * h 1%nat + h 0%nat ^ 2 / h 1%nat) * C 1%nat + (h 1%nat - h 0%nat ^ 2 / h 1%nat) * C 2%nat - 3 * (D 1%nat - D 0%nat)) <= eps * (h 0%nat + h 1%nat).
  Hypothesis row_n : Rabs ((3 * h (n - 1)%nat + 2 * h (n - 2)%nat + h (n - 1)%nat ^ 2 / h (n - 2)%nat) * C (n - 1)%nat + (h (n - 2)%nat - h (n - 1)%nat ^ 2 / h (n - 2)%nat) * C (n - 2)%nat
    - 3 * (D (n - 1)%nat - D (n - 2)%nat)) <= eps * (h (n - 1)%nat + h (n - 2)%nat).
  Lemma moments_close i : (1 <= i <= n - 1)%nat -> Rabs (m i - C i) <= eps.
  Proof.
    destruct Mm as (R & E0 & En). destruct (largest (fun i => m (S i) - C (S i)) (n - 2)) as (k & K & H). intros I.
    specialize (H (i - 1)%nat ltac:(lia)) as HI. cbv beta in HI. replace (S (i - 1)) with i in HI by lia. eapply Rle_trans; [exact HI|].
    assert (B : forall j, (1 <= j <= n - 1)%nat -> Rabs (m j - C j) <= Rabs (m (S k) - C (S k))) by (intros j J; specialize (H (j - 1)%nat ltac:(lia)); replace (S (j - 1)) with j in H by lia; exact H).
    destruct (Nat.eq_dec k 0) as [->|K0]; [|destruct (Nat.eq_dec k (n - 2)) as [->|K1]].
    - pose proof (h_pos 0 ltac:(lia)) as P0. pose proof (h_pos 1 ltac:(lia)) as P1. specialize (R 0%nat ltac:(lia)). rewrite (first_row _ _ _ _ _ P1 E0) in R.
      apply (dominated 0 (3 * h 0%nat + 2 * h 1%nat + h 0%nat ^ 2 / h 1%nat) (h 1%nat - h 0%nat ^ 2 / h 1%nat) 0 (m 1%nat - C 1%nat) (m 2%nat - C 2%nat) _ _ (h 0%nat + h 1%nat)).
      + reflexivity.
      + rewrite Rabs_R0. apply Rabs_pos.
      + apply B. lia.
      + lra.
      + replace (0 * 0 + _ * (m 1%nat - C 1%nat) + _ * (m 2%nat - C 2%nat)) with
          (- ((3 * h 0%nat + 2 * h 1%nat + h 0%nat ^ 2 / h 1%nat) * C 1%nat + (h 1%nat - h 0%nat ^ 2 / h 1%nat) * C 2%nat - 3 * (D 1%nat - D 0%nat))) by (rewrite <- R; ring).
        rewrite Rabs_Ropp. exact row_0.
      + rewrite Rabs_R0. pose proof (end_dominant _ _ P0 P1). lra.
    - pose proof (h_pos (n - 1) ltac:(lia)) as P0. pose proof (h_pos (n - 2) ltac:(lia)) as P1. specialize (R (n - 2)%nat ltac:(lia)).
      replace (S (S (n - 2))) with n in R by lia. replace (S (n - 2)) with (n - 1)%nat in * by lia.
      assert (E' : (m (n - 1)%nat - m n) * h (n - 2)%nat = (m (n - 2)%nat - m (n - 1)%nat) * h (n - 1)%nat) by lra.
      pose proof (first_row _ _ _ _ _ P1 E') as F.
      apply (dominated 0 (3 * h (n - 1)%nat + 2 * h (n - 2)%nat + h (n - 1)%nat ^ 2 / h (n - 2)%nat) (h (n - 2)%nat - h (n - 1)%nat ^ 2 / h (n - 2)%nat) 0 (m (n - 1)%nat - C (n - 1)%nat) (m (n - 2)%nat - C (n - 2)%nat) _ _
        (h (n - 1)%nat + h (n - 2)%nat)).
      + reflexivity.
      + rewrite Rabs_R0. apply Rabs_pos.
      + apply B. lia.
      + lra.
      + replace (0 * 0 + _ * (m (n - 1)%nat - C (n - 1)%nat) + _ * (m (n - 2)%nat - C (n - 2)%nat)) with
          (- ((3 * h (n - 1)%nat + 2 * h (n - 2)%nat + h (n - 1)%nat ^ 2 / h (n - 2)%nat) * C (n - 1)%nat + (h (n - 2)%nat - h (n - 1)%nat ^ 2 / h (n - 2)%nat) * C (n - 2)%nat - 3 * (D (n - 1)%nat - D (n - 2)%nat))) by lra.
        rewrite Rabs_Ropp. exact row_n.
      + rewrite Rabs_R0. pose proof (end_dominant _ _ P0 P1). lra.
    - pose proof (h_pos k ltac:(lia)) as P0. pose proof (h_pos (S k) ltac:(lia)) as P1. specialize (R k ltac:(lia)).
      apply (dominated (h k) (2 * (h k + h (S k))) (h (S k)) (m k - C k) (m (S k) - C (S k)) (m (S (S k)) - C (S (S k))) _ _ (h k + h (S k))).
      + reflexivity.
      + apply B. lia.
      + apply B. lia.
      + lra.
      + replace (h k * (m k - C k) + 2 * (h k + h (S k)) * (m (S k) - C (S k)) + h (S k) * (m (S (S k)) - C (S (S k)))) with
          (- (h k * C k + 2 * (h k + h (S k)) * C (S k) + h (S k) * C (S (S k)) - 3 * (D (S k) - D k))) by (rewrite <- R; ring).
        rewrite Rabs_Ropp. apply rows; lia.
      + rewrite !Rabs_pos_eq by lra. lra.
  Qed.
  Lemma weighted q u v K e : 0 <= q <= K -> 0 <= K -> Rabs u <= e -> Rabs v <= e -> (1 + q) * Rabs u + q * Rabs v <= (1 + 2 * K) * e.
  Proof. intros Q K0 U V. pose proof (Rabs_pos u). assert (E : 0 <= e) by lra. assert ((1 + q) * Rabs u <= (1 + q) * e) by nra. assert (q * Rabs v <= q * e) by nra. assert (q * e <= K * e) by nra. lra. Qed.
  (** At the ends. *)
  Lemma moments_close_0 : h 0%nat <= h 1%nat -> Rabs (m 0%nat - (C 1%nat - (C 2%nat - C 1%nat) * h 0%nat / h 1%nat)) <= (1 + 2 * 1) * eps.
  Proof.
    intros L. destruct Mm as (_ & E0 & _). pose proof (h_pos 0 ltac:(lia)) as P0. pose proof (h_pos 1 ltac:(lia)) as P1.
    pose proof (moments_close 1 ltac:(lia)) as A1. pose proof (moments_close 2 ltac:(lia)) as A2.
    assert (Z : m 0%nat = m 1%nat - (m 2%nat - m 1%nat) * h 0%nat / h 1%nat) by (rewrite <- E0; field; lra).
    set (q := h 0%nat / h 1%nat). assert (Q : 0 <= q <= 1) by (unfold q; split; [left; now apply Rdiv_lt_0_compat|apply Rmult_le_reg_r with (h 1%nat); [exact P1|unfold Rdiv; rewrite Rmult_assoc, Rinv_l; lra]]).
    replace (m 0%nat - _) with ((1 + q) * (m 1%nat - C 1%nat) - q * (m 2%nat - C 2%nat)) by (rewrite Z; unfold q; field; lra).
    eapply Rle_trans; [apply Rabs_triang|]. rewrite Rabs_Ropp, !Rabs_mult, (Rabs_pos_eq (1 + q)), (Rabs_pos_eq q) by lra. apply weighted; [exact Q|lra|exact A1|exact A2].
  Qed.
  Lemma moments_close_n : h (n - 1)%nat <= 2 * h (n - 2)%nat -> Rabs (m n - (C (n - 1)%nat - (C (n - 2)%nat - C (n - 1)%nat) * h (n - 1)%nat / h (n - 2)%nat)) <= (1 + 2 * 2) * eps.
  Proof.
    intros L. destruct Mm as (_ & _ & En). pose proof (h_pos (n - 1) ltac:(lia)) as P0. pose proof (h_pos (n - 2) ltac:(lia)) as P1.
    pose proof (moments_close (n - 1) ltac:(lia)) as A1. pose proof (moments_close (n - 2) ltac:(lia)) as A2.
    assert (Z : m n = m (n - 1)%nat + (m (n - 1)%nat - m (n - 2)%nat) * h (n - 1)%nat / h (n - 2)%nat) by (rewrite <- En; field; lra).
    set (q := h (n - 1)%nat / h (n - 2)%nat). assert (Q : 0 <= q <= 2) by (unfold q; split; [left; now apply Rdiv_lt_0_compat|apply Rmult_le_reg_r with (h (n - 2)%nat); [exact P1|unfold Rdiv; rewrite Rmult_assoc, Rinv_l; lra]]).
    replace (m n - _) with ((1 + q) * (m (n - 1)%nat - C (n - 1)%nat) - q * (m (n - 2)%nat - C (n - 2)%nat)) by (rewrite Z; unfold q; field; lra).
    eapply Rle_trans; [apply Rabs_triang|]. rewrite Rabs_Ropp, !Rabs_mult, (Rabs_pos_eq (1 + q)), (Rabs_pos_eq q) by lra. apply weighted; [exact Q|lra|exact A1|exact A2].
  Qed.
End spline.

(** Bounds between two points. *)
Lemma between x0 x1 y0 y1 m0 m1 t : x0 < x1 -> x0 <= t <= x1 ->
  let h := x1 - x0 in let u := (t - x0) / h in
  cubic y0 ((y1 - y0) / h - h * (2 * m0 + m1) / 3) m0 ((m1 - m0) / (3 * h)) x0 t = y0 * (1 - u) + y1 * u - h ^ 2 * (u * (1 - u)) / 3 * (m0 * (2 - u) + m1 * (1 + u)) /\ 0 <= u <= 1.
Proof.
  intros L T h u. assert (P : 0 < h) by (unfold h; lra). split.
  - assert (E : t - x0 = u * h) by (unfold u; field; lra). unfold cubic. rewrite E. field. lra.
  - unfold u. split; [apply Rmult_le_pos; [lra|left; now apply Rinv_0_lt_compat]|apply Rmult_le_reg_r with h; [exact P|unfold Rdiv; rewrite Rmult_assoc, Rinv_l; unfold h; lra]].
Qed.
Lemma between_bounds x0 x1 y0 y1 m0 m1 t lo hi k K : x0 < x1 -> x0 <= t <= x1 -> lo <= y0 <= hi -> lo <= y1 <= hi -> - k <= m0 <= K -> - k <= m1 <= K -> 0 <= k -> 0 <= K ->
  let h := x1 - x0 in
  lo - h ^ 2 / 4 * K <= cubic y0 ((y1 - y0) / h - h * (2 * m0 + m1) / 3) m0 ((m1 - m0) / (3 * h)) x0 t <= hi + h ^ 2 / 4 * k.
Proof.
  intros L T Y0 Y1 M0 M1 k0 K0 h. destruct (between x0 x1 y0 y1 m0 m1 t L T) as (E & U). cbv zeta in E, U. fold h in E, U. rewrite E. set (u := (t - x0) / h) in *.
  assert (H : 0 <= h ^ 2) by apply pow2_ge_0. assert (V0 : 0 <= u * (1 - u)) by (apply Rmult_le_pos; lra).
  assert (V1 : u * (1 - u) <= / 4) by (pose proof (pow2_ge_0 (u - / 2)); nra).
  assert (W : - (3 * k) <= m0 * (2 - u) + m1 * (1 + u) <= 3 * K).
  { assert (- k * (2 - u) <= m0 * (2 - u)) by (apply Rmult_le_compat_r; lra). assert (m0 * (2 - u) <= K * (2 - u)) by (apply Rmult_le_compat_r; lra).
    assert (- k * (1 + u) <= m1 * (1 + u)) by (apply Rmult_le_compat_r; lra). assert (m1 * (1 + u) <= K * (1 + u)) by (apply Rmult_le_compat_r; lra). lra. }
  set (z := m0 * (2 - u) + m1 * (1 + u)) in *. set (v := u * (1 - u)) in *.
  assert (A : lo <= y0 * (1 - u) + y1 * u <= hi).
  { assert (lo * (1 - u) <= y0 * (1 - u)) by (apply Rmult_le_compat_r; lra). assert (y0 * (1 - u) <= hi * (1 - u)) by (apply Rmult_le_compat_r; lra).
    assert (lo * u <= y1 * u) by (apply Rmult_le_compat_r; lra). assert (y1 * u <= hi * u) by (apply Rmult_le_compat_r; lra). lra. }
  assert (B : - (h ^ 2 / 4 * k) <= h ^ 2 * v / 3 * z <= h ^ 2 / 4 * K).
  { assert (Q0 : 0 <= h ^ 2 * v) by (now apply Rmult_le_pos). assert (Q1 : h ^ 2 * v <= h ^ 2 * / 4) by (now apply Rmult_le_compat_l). set (q := h ^ 2 * v) in *.
    assert (q * (3 * K) <= h ^ 2 * / 4 * (3 * K)) by (apply Rmult_le_compat_r; lra). assert (q * (3 * k) <= h ^ 2 * / 4 * (3 * k)) by (apply Rmult_le_compat_r; lra).
    assert (q * z <= q * (3 * K)) by (apply Rmult_le_compat_l; lra). assert (q * - (3 * k) <= q * z) by (apply Rmult_le_compat_l; lra). lra. }
  lra.
Qed.

(** Tridiagonal equations with a dominant diagonal have a solution (Thomas' algorithm). *)
Section tridiagonal.
  Variables (A B C Q : nat -> R) (K : nat).
  Fixpoint sweep (k : nat) : R * R :=
    match k with
    | O => (C 0%nat / B 0%nat, Q 0%nat / B 0%nat)
    | S k' => let (a, b) := sweep k' in (C k / (B k - A k * a), (Q k - A k * b) / (B k - A k * a))
    end.
  Fixpoint back (j : nat) : R :=
    match j with O => snd (sweep K) | S j' => snd (sweep (K - j)) - fst (sweep (K - j)) * back j' end.
  Definition thomas (k : nat) : R := back (K - k).
  Hypothesis dom : forall k, (k <= K)%nat -> Rabs (A k) + Rabs (C k) < B k.
  Hypothesis C_K : C K = 0.
  Lemma den_pos k : (S k <= K)%nat -> Rabs (fst (sweep k)) <= 1 -> Rabs (C (S k)) < B (S k) - A (S k) * fst (sweep k).
  Proof.
    intros H L. specialize (dom (S k) H). assert (X : A (S k) * fst (sweep k) <= Rabs (A (S k))); [|lra].
    eapply Rle_trans; [apply Rle_abs|]. rewrite Rabs_mult. pose proof (Rabs_pos (A (S k))). nra.
  Qed.
  Lemma ratio_le_1 c b : Rabs c < b -> Rabs (c / b) <= 1.
  Proof.
    intros L. pose proof (Rabs_pos c). unfold Rdiv. rewrite Rabs_mult, Rabs_inv, (Rabs_pos_eq b) by lra. apply Rmult_le_reg_r with b; [lra|]. rewrite Rmult_assoc, Rinv_l; lra.
  Qed.
  Lemma sweep_le k : (k <= K)%nat -> Rabs (fst (sweep k)) <= 1.
  Proof.
    induction k as [|k IH]; intros H.
    - cbn. apply ratio_le_1. specialize (dom 0%nat H). pose proof (Rabs_pos (A 0%nat)). lra.
    - pose proof (den_pos k H (IH ltac:(lia))) as P. cbn [sweep]. destruct (sweep k) as (a, b). cbn [fst snd] in *. now apply ratio_le_1.
  Qed.
  Lemma thomas_step k : (k < K)%nat -> thomas k + fst (sweep k) * thomas (S k) = snd (sweep k).
  Proof. intros H. unfold thomas. replace (K - k)%nat with (S (K - S k)) by lia. cbn [back]. replace (K - S (K - S k))%nat with k by lia. ring. Qed.
  Lemma thomas_last : thomas K = snd (sweep K).
  Proof. unfold thomas. rewrite Nat.sub_diag. reflexivity. Qed.
  Lemma last_0 : fst (sweep K) = 0.
  Proof. destruct K as [|k]; cbn [sweep]; [cbn; rewrite C_K; unfold Rdiv; ring|]. destruct (sweep k). cbn [fst]. rewrite C_K. unfold Rdiv. ring. Qed.
  Lemma thomas_step' k z : (k <= K)%nat -> thomas k + fst (sweep k) * (if Nat.eqb k K then z else thomas (S k)) = snd (sweep k).
  Proof.
    intros H. destruct (Nat.eqb_spec k K) as [->|]; [rewrite last_0, thomas_last; ring|apply thomas_step; lia].
  Qed.
  Lemma thomas_row_0 z : B 0%nat * thomas 0 + C 0%nat * (if Nat.eqb 0 K then z else thomas 1) = Q 0%nat.
  Proof.
    pose proof (thomas_step' 0 z ltac:(lia)) as T. assert (P : 0 < B 0%nat) by (specialize (dom 0%nat ltac:(lia)); pose proof (Rabs_pos (A 0%nat)); pose proof (Rabs_pos (C 0%nat)); lra).
    cbn [sweep fst snd] in T. apply Rmult_eq_reg_r with (/ B 0%nat); [|apply Rinv_neq_0_compat; lra].
    replace ((B 0%nat * thomas 0 + C 0%nat * (if Nat.eqb 0 K then z else thomas 1)) * / B 0%nat) with (thomas 0 + C 0%nat / B 0%nat * (if Nat.eqb 0 K then z else thomas 1)) by (field; lra). exact T.
  Qed.
  Lemma thomas_row k z : (S k <= K)%nat -> A (S k) * thomas k + B (S k) * thomas (S k) + C (S k) * (if Nat.eqb (S k) K then z else thomas (S (S k))) = Q (S k).
  Proof.
    intros H. pose proof (thomas_step' (S k) z H) as T. pose proof (thomas_step k ltac:(lia)) as T'. pose proof (den_pos k H (sweep_le k ltac:(lia))) as P. cbn [sweep] in T. destruct (sweep k) as (a, b). cbn [fst snd] in *.
    set (w := if Nat.eqb (S k) K then z else thomas (S (S k))) in *. pose proof (Rabs_pos (C (S k))).
    assert (X : (B (S k) - A (S k) * a) * thomas (S k) + C (S k) * w = Q (S k) - A (S k) * b).
    { apply Rmult_eq_reg_r with (/ (B (S k) - A (S k) * a)); [|apply Rinv_neq_0_compat; lra].
      transitivity (thomas (S k) + C (S k) / (B (S k) - A (S k) * a) * w); [field; lra|]. rewrite T. reflexivity. }
    assert (Y : thomas k = b - a * thomas (S k)) by lra. rewrite Y. lra.
  Qed.
End tridiagonal.

(** The interpolating spline, written down. *)
Section built.
  Variables (n : nat) (x y : nat -> R).
  Let h i := x (S i) - x i.
  Let D i := (y (S i) - y i) / h i.
  (** Row k belongs to the point k + 1; K = n - 2. *)
  Definition tri_A k := if Nat.eqb k 0 then 0 else if Nat.eqb k (n - 2) then h (n - 2)%nat - h (n - 1)%nat ^ 2 / h (n - 2)%nat else h k.
  Definition tri_B k := if Nat.eqb k 0 then 3 * h 0%nat + 2 * h 1%nat + h 0%nat ^ 2 / h 1%nat
    else if Nat.eqb k (n - 2) then 3 * h (n - 1)%nat + 2 * h (n - 2)%nat + h (n - 1)%nat ^ 2 / h (n - 2)%nat else 2 * (h k + h (S k)).
  Definition tri_C k := if Nat.eqb k 0 then h 1%nat - h 0%nat ^ 2 / h 1%nat else if Nat.eqb k (n - 2) then 0 else h (S k).
  Definition tri_Q k := 3 * (D (S k) - D k).
  Definition built_inner k := thomas tri_A tri_B tri_C tri_Q (n - 2) k.
  Definition built i := if Nat.eqb i 0 then built_inner 0 - (built_inner 1 - built_inner 0) * h 0%nat / h 1%nat
    else if Nat.eqb i n then built_inner (n - 2) + (built_inner (n - 2) - built_inner (n - 3)) * h (n - 1)%nat / h (n - 2)%nat else built_inner (i - 1).
  Hypothesis N : (4 <= n)%nat.
  Hypothesis inc : forall i, (i < n)%nat -> x i < x (S i).
  Lemma tri_dom k : (k <= n - 2)%nat -> Rabs (tri_A k) + Rabs (tri_C k) < tri_B k.
  Proof.
    intros H. assert (P : forall i, (i < n)%nat -> 0 < h i) by (intros i I; unfold h; specialize (inc i I); lra). unfold tri_A, tri_B, tri_C.
    destruct (Nat.eqb_spec k 0); [|destruct (Nat.eqb_spec k (n - 2))].
    - pose proof (P 0%nat ltac:(lia)) as P0. pose proof (P 1%nat ltac:(lia)) as P1. pose proof (end_dominant _ _ P0 P1). rewrite Rabs_R0. lra.
    - pose proof (P (n - 1)%nat ltac:(lia)) as P0. pose proof (P (n - 2)%nat ltac:(lia)) as P1. pose proof (end_dominant _ _ P0 P1). rewrite Rabs_R0. lra.
    - pose proof (P k ltac:(lia)). pose proof (P (S k) ltac:(lia)). rewrite !Rabs_pos_eq by lra. lra.
  Qed.
  Lemma built_moments : moments n x y built.
  Proof.
    assert (P : forall i, (i < n)%nat -> 0 < h i) by (intros i I; unfold h; specialize (inc i I); lra).
    assert (CK : tri_C (n - 2) = 0) by (unfold tri_C; destruct (Nat.eqb_spec (n - 2) 0); [lia|now rewrite Nat.eqb_refl]).
    assert (In : forall i, (1 <= i <= n - 1)%nat -> built i = built_inner (i - 1)). { intros i I. unfold built. destruct (Nat.eqb_spec i 0); [lia|]. destruct (Nat.eqb_spec i n); [lia|reflexivity]. }
    assert (B0 : (built 1%nat - built 0%nat) * h 1%nat = (built 2%nat - built 1%nat) * h 0%nat).
    { pose proof (P 1%nat ltac:(lia)). rewrite (In 1%nat), (In 2%nat) by lia. unfold built. cbn [Nat.eqb Nat.sub]. field. lra. }
    assert (Bn : (built n - built (n - 1)%nat) * h (n - 2)%nat = (built (n - 1)%nat - built (n - 2)%nat) * h (n - 1)%nat).
    { pose proof (P (n - 2)%nat ltac:(lia)). rewrite (In (n - 1)%nat), (In (n - 2)%nat) by lia. unfold built. rewrite Nat.eqb_refl. destruct (Nat.eqb_spec n 0); [lia|].
      replace (n - 1 - 1)%nat with (n - 2)%nat by lia. replace (n - 2 - 1)%nat with (n - 3)%nat by lia. field. lra. }
    split; [|split; [exact B0|exact Bn]]. intros i H. fold (h i) (h (S i)). change ((y (S (S i)) - y (S i)) / h (S i)) with (D (S i)). change ((y (S i) - y i) / h i) with (D i).
    destruct i as [|i]; [|destruct (Nat.eq_dec (S i) (n - 2)) as [E|E]].
    - rewrite (first_row _ _ _ _ _ (P 1%nat ltac:(lia)) B0). rewrite (In 1%nat), (In 2%nat) by lia.
      pose proof (thomas_row_0 tri_A tri_B tri_C tri_Q (n - 2) tri_dom CK 0) as T. destruct (Nat.eqb_spec 0 (n - 2)); [lia|]. exact T.
    - pose proof (thomas_row tri_A tri_B tri_C tri_Q (n - 2) tri_dom CK i 0 ltac:(lia)) as T. change (thomas tri_A tri_B tri_C tri_Q (n - 2)) with built_inner in T. rewrite E in T. rewrite Nat.eqb_refl, CK in T.
      unfold tri_A, tri_B in T. destruct (Nat.eqb_spec (n - 2) 0); [lia|]. rewrite Nat.eqb_refl in T.
      assert (E' : (built (n - 1)%nat - built n) * h (n - 2)%nat = (built (n - 2)%nat - built (n - 1)%nat) * h (n - 1)%nat) by lra.
      pose proof (first_row _ _ _ _ _ (P (n - 2)%nat ltac:(lia)) E') as F. rewrite (In (n - 1)%nat), (In (n - 2)%nat) in F by lia.
      replace (S i) with (n - 2)%nat by lia. replace (S (S (n - 2))) with n by lia. replace (S (n - 2)) with (n - 1)%nat by lia. rewrite (In (n - 1)%nat), (In (n - 2)%nat) by lia.
      replace (n - 1 - 1)%nat with (n - 2)%nat in * by lia. replace (n - 2 - 1)%nat with i in * by lia. unfold tri_Q in T. replace (S (n - 2)) with (n - 1)%nat in T by lia. lra.
    - pose proof (thomas_row tri_A tri_B tri_C tri_Q (n - 2) tri_dom CK i 0 ltac:(lia)) as T. change (thomas tri_A tri_B tri_C tri_Q (n - 2)) with built_inner in T. destruct (Nat.eqb_spec (S i) (n - 2)); [lia|].
      unfold tri_A, tri_B, tri_C in T. destruct (Nat.eqb_spec (S i) 0); [lia|]. destruct (Nat.eqb_spec (S i) (n - 2)); [lia|].
      rewrite (In (S i)), (In (S (S i))), (In (S (S (S i)))) by lia. replace (S i - 1)%nat with i by lia. replace (S (S i) - 1)%nat with (S i) by lia. replace (S (S (S i)) - 1)%nat with (S (S i)) by lia. exact T.
  Qed.
  (** The piece for [t]: the first one that ends at or after [t]; the last one if there is none. *)
  Fixpoint piece_from (k i : nat) (t : R) : nat := match k with O => i | S k' => if Rle_dec t (x (S i)) then i else piece_from k' (S i) t end.
  Definition built_spline (t : R) : R := from_moments x y built (piece_from (n - 1) 0 t) t.
  Lemma inc_lt i j : (i < j <= n)%nat -> x i < x j.
  Proof. intros (L & J). induction L as [|j L IH]; [apply inc; lia|]. specialize (IH ltac:(lia)). specialize (inc j ltac:(lia)). lra. Qed.
  Lemma piece_from_spec k : forall i t, (i + k = n - 1)%nat -> let j := piece_from k i t in (i <= j <= n - 1)%nat /\ (j = (n - 1)%nat \/ t <= x (S j)) /\ (forall l, (i <= l < j)%nat -> x (S l) < t).
  Proof.
    induction k as [|k IH]; intros i t E; cbn [piece_from]; cbv zeta; [split; [lia|split; [left; lia|intros; lia]]|].
    destruct (Rle_dec t (x (S i))) as [L|L]; [split; [lia|split; [now right|intros; lia]]|].
    destruct (IH (S i) t ltac:(lia)) as (A & B & C). cbv zeta in *. split; [lia|split; [exact B|]]. intros l Hl. destruct (Nat.eq_dec l i) as [->|]; [lra|apply C; lia].
  Qed.
  Lemma built_pieces i t : (i < n)%nat -> i = 0%nat \/ x i <= t -> S i = n \/ t <= x (S i) -> built_spline t = from_moments x y built i t.
  Proof.
    intros I L U. unfold built_spline. destruct (piece_from_spec (n - 1) 0 t ltac:(lia)) as (A & B & C). cbv zeta in *. set (j := piece_from (n - 1) 0 t) in *.
    destruct (Nat.lt_trichotomy j i) as [G|[G|G]]; [|now rewrite G|].
    - destruct L as [->|L]; [lia|]. destruct B as [B|B]; [lia|].
      destruct (Nat.eq_dec (S j) i) as [E|E]; [|pose proof (inc_lt (S j) i ltac:(lia)); lra]. assert (T : t = x i) by (rewrite <- E in *; lra). subst t.
      destruct (moments_pieces n x y N inc built built_moments) as (V & _). cbv zeta in V. destruct (V i I) as (V1 & _). destruct (V j ltac:(lia)) as (_ & V2). rewrite E in V2.
      unfold from_moments. rewrite V1. rewrite E. exact V2.
    - specialize (C i ltac:(lia)). destruct U as [U|U]; [lia|lra].
  Qed.
End built.

Definition spline_of (xs ys : list R) : R -> R := built_spline (length xs - 1) (fun i => nth i xs 0) (fun i => nth i ys 0).
Lemma spline_of_cubic xs ys : increasing xs -> (5 <= length xs)%nat -> length ys = length xs -> cubic_spline xs ys (spline_of xs ys).
Proof.
  intros I L E. set (n := (length xs - 1)%nat). set (x i := nth i xs 0). set (y i := nth i ys 0). assert (N : (4 <= n)%nat) by (unfold n; lia).
  assert (J : forall i, (i < n)%nat -> x i < x (S i)) by (intros i H; apply I; unfold n in H; lia).
  exists n. exists y. exists (fun i => (y (S i) - y i) / (x (S i) - x i) - (x (S i) - x i) * (2 * built n x y i + built n x y (S i)) / 3). exists (built n x y). exists (fun i => (built n x y (S i) - built n x y i) / (3 * (x (S i) - x i))).
  split; [unfold n; lia|]. split; [unfold n; lia|]. cbv zeta.
  destruct (moments_pieces n x y N J _ (built_moments n x y N J)) as (A & B & C & D). split; [exact A|]. split; [exact B|]. split; [exact C|]. split; [exact D|].
  intros i t H P Q. exact (built_pieces n x y N J i t H P Q).
Qed.
(** Stretching the abscissae. *)
Lemma nth_scale xs k i : nth i (map (fun x => x * k) xs) 0 = nth i xs 0 * k.
Proof. rewrite <- (map_nth (fun x => x * k)). f_equal. ring. Qed.
Lemma cubic_spline_scale xs ys s k : 0 < k -> cubic_spline (map (fun x => x * k) xs) ys s -> cubic_spline xs ys (fun t => s (t * k)).
Proof.
  intros K (n & a & b & c & d & L & L' & H). cbv zeta in H. destruct H as (V & S' & E0 & En & P). rewrite map_length in L.
  exists n. exists a. exists (fun i => b i * k). exists (fun i => c i * k ^ 2). exists (fun i => d i * k ^ 3). split; [exact L|]. split; [exact L'|]. cbv zeta.
  assert (Q : forall i t, cubic (a i) (b i * k) (c i * k ^ 2) (d i * k ^ 3) (nth i xs 0) t = cubic (a i) (b i) (c i) (d i) (nth i xs 0 * k) (t * k)) by (intros i t; unfold cubic; ring).
  split; [|split; [|split; [|split]]].
  - intros i H. specialize (V i H). rewrite !nth_scale in V. rewrite !Q. exact V.
  - intros i H. destruct (S' i H) as (A & B). rewrite !nth_scale in A, B. split; [rewrite <- A; ring|]. transitivity (2 * c (S i) * k ^ 2); [rewrite <- B; ring|ring].
  - now rewrite E0.
  - now rewrite En.
  - intros i t H A B. rewrite Q. specialize (P i (t * k) H). rewrite !nth_scale in P. apply P; [destruct A as [A|A]; [now left|right; nra]|destruct B as [B|B]; [now left|right; nra]].
Qed.
(** What a spline says about its moments. *)
Lemma spline_moments xs ys s : increasing xs -> (5 <= length xs)%nat -> cubic_spline xs ys s ->
  let n := (length xs - 1)%nat in let x i := nth i xs 0 in let y i := nth i ys 0 in
  exists m, moments n x y m /\ forall i t, (i < n)%nat -> i = 0%nat \/ x i <= t -> S i = n \/ t <= x (S i) -> s t = from_moments x y m i t.
Proof.
  intros I L (n' & a & b & c & d & Lx & Ly & H) n x y. assert (E : n' = n) by (unfold n; lia). subst n'. cbv zeta in H. destruct H as (V & S' & E0 & En & P).
  assert (N : (4 <= n)%nat) by lia. assert (J : forall i, (i < n)%nat -> x i < x (S i)) by (intros i H; apply I; lia).
  destruct (pieces_moments n x y N J a b c d V S' E0 En) as (m & M & F). exists m. split; [exact M|]. intros i t H A B. rewrite <- F by exact H. now apply P.
Qed.
Lemma moments_ext n x y x' y' m : (forall i, x i = x' i) -> (forall i, y i = y' i) -> moments n x y m -> moments n x' y' m.
Proof. intros A B (R & E0 & En). split; [|split]; [intros i H; rewrite <- !A, <- !B; now apply R|now rewrite <- !A|now rewrite <- !A]. Qed.
Lemma from_moments_ext x y x' y' m i t : (forall i, x i = x' i) -> (forall i, y i = y' i) -> from_moments x y m i t = from_moments x' y' m i t.
Proof. intros A B. unfold from_moments. now rewrite !A, !B. Qed.
