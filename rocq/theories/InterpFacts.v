(** InterpFacts.v -- lemmas about linspace, interp1d and the rounding functions. *)
From Coq Require Import Reals ZArith List Bool Lra Lia Psatz.
From Verif Require Import Num NumFacts Interp.
Import ListNotations.
Open Scope R_scope.

(** ** Rounding *)
Lemma Rfloor_spec x : IZR (Rfloor x) <= x < IZR (Rfloor x) + 1.
Proof. unfold Rfloor. destruct (base_Int_part x). lra. Qed.
Lemma Rceil_spec x : x <= IZR (Rceil x) < x + 1.
Proof. unfold Rceil. rewrite opp_IZR. pose proof (Rfloor_spec (- x)). lra. Qed.
Lemma Rceil_unique x k : x <= IZR k < x + 1 -> Rceil x = k.
Proof.
  intros H. pose proof (Rceil_spec x).
  assert (Rceil x < k + 1)%Z by (apply lt_IZR; rewrite plus_IZR; lra).
  assert (k < Rceil x + 1)%Z by (apply lt_IZR; rewrite plus_IZR; lra). lia.
Qed.
Lemma Rceil_INR k : Rceil (INR k) = Z.of_nat k.
Proof. apply Rceil_unique. rewrite <- INR_IZR_INZ. lra. Qed.
Lemma Rceil_le x y : x <= y -> (Rceil x <= Rceil y)%Z.
Proof. intros H. pose proof (Rceil_spec x). pose proof (Rceil_spec y).
  assert (Rceil x < Rceil y + 1)%Z by (apply lt_IZR; rewrite plus_IZR; lra). lia. Qed.
Lemma Rfloor_unique x k : IZR k <= x < IZR k + 1 -> Rfloor x = k.
Proof.
  intros H. pose proof (Rfloor_spec x).
  assert (Rfloor x < k + 1)%Z by (apply lt_IZR; rewrite plus_IZR; lra).
  assert (k < Rfloor x + 1)%Z by (apply lt_IZR; rewrite plus_IZR; lra). lia.
Qed.
Lemma Rround_INR k : Rround (INR k) = Z.of_nat k.
Proof.
  unfold Rround. assert (E : Rfloor (INR k) = Z.of_nat k) by (apply Rfloor_unique; rewrite <- INR_IZR_INZ; lra).
  rewrite E, <- INR_IZR_INZ. replace (INR k - INR k) with 0 by ring.
  assert (Rltb 0 (1/2) = true) as -> by (apply Rltb_true; lra). reflexivity.
Qed.
Lemma Rround_near x : Rabs (IZR (Rround x) - x) <= 1/2.
Proof.
  unfold Rround. pose proof (Rfloor_spec x).
  destruct (Rltb (x - IZR (Rfloor x)) (1/2)) eqn:A; [apply Rltb_true in A|apply Rltb_false in A].
  - unfold Rabs. destruct Rcase_abs; lra.
  - destruct (Rltb (1/2) (x - IZR (Rfloor x))) eqn:B; [apply Rltb_true in B|apply Rltb_false in B];
    [|destruct Z.even]; rewrite ?plus_IZR; unfold Rabs; destruct Rcase_abs; lra.
Qed.

(** ** linspace *)
Lemma linspace_length a b n : length (linspace a b n) = n.
Proof. destruct n as [|[|n]]; auto. unfold linspace. now rewrite map_length, seq_length. Qed.
Lemma linspace_nth a b n i : (2 <= n)%nat -> (i < n)%nat ->
  nth_error (linspace a b n) i = Some (a + INR i * ((b - a) / INR (n - 1))).
Proof.
  intros Hn Hi. destruct n as [|[|n]]; try lia. unfold linspace.
  erewrite map_nth_error; [|rewrite nth_error_nth' with (d := 0%nat) by (rewrite seq_length; lia);
                            rewrite seq_nth by lia; reflexivity].
  now replace (S (S n) - 1)%nat with (S n) by lia.
Qed.

(** ** Strictly increasing lists *)
Definition increasing (xs : list R) : Prop :=
  forall i j a b, nth_error xs i = Some a -> nth_error xs j = Some b -> (i < j)%nat -> a < b.
Lemma increasing_tail x xs : increasing (x :: xs) -> increasing xs.
Proof. intros H i j a b Hi Hj L. apply (H (S i) (S j)); auto; lia. Qed.

(** ** Interpolation *)
Lemma interp_in_segment : forall xs ys i a b u v x, increasing xs ->
  nth_error xs i = Some a -> nth_error xs (S i) = Some b -> nth_error ys i = Some u -> nth_error ys (S i) = Some v ->
  a <= x < b -> interp_in (combine (map Fin xs) ys) (Fin x) = segment (Fin a) u (Fin b) v (Fin x).
Proof.
  induction xs as [|x0 xs IH]; intros ys i a b u v x Hinc Ha Hb Hu Hv Hx; [now destruct i|].
  destruct ys as [|y0 ys]; [now destruct i|].
  destruct xs as [|x1 xs]; [now destruct i|].
  destruct ys as [|y1 ys]; [now destruct i|].
  destruct i as [|i].
  - cbn in Ha, Hb, Hu, Hv. inversion Ha; inversion Hb; inversion Hu; inversion Hv; subst.
    cbn [map combine interp_in]. rewrite nlt_t by lra. reflexivity.
  - cbn [map combine interp_in].
    assert (x1 <= x).
    { cbn [nth_error] in Ha. destruct i as [|i]; [cbn in Ha; inversion Ha; subst; lra|].
      assert (x1 < a) by (apply (Hinc 1%nat (S (S i))); cbn; auto; lia). lra. }
    rewrite nlt_f by auto.
    apply (IH (y1 :: ys) i a b u v x); auto. now apply increasing_tail in Hinc.
Qed.
Lemma segment_left a u b v : segment (Fin a) u (Fin b) v (Fin a) = u.
Proof. unfold segment. now rewrite neqb_t. Qed.
Lemma segment_fin a u b v x : a < b -> segment (Fin a) (Fin u) (Fin b) (Fin v) (Fin x) = Fin (u + (v - u) * ((x - a) / (b - a))).
Proof.
  intros H. unfold segment. destruct (Req_dec x a) as [->|N].
  - rewrite neqb_t by auto. f_equal. field. lra.
  - rewrite neqb_f by auto. rewrite !nsub_fin, ndiv_fin by lra. rewrite nmul_fin, nadd_fin. cbn [is_nan].
    f_equal. field. lra.
Qed.
Lemma interp_in_last : forall xs ys x a v, increasing xs -> length xs = length ys -> xs <> [] ->
  last xs 0 = a -> last ys NaN = v -> a <= x -> interp_in (combine (map Fin xs) ys) (Fin x) = v.
Proof.
  induction xs as [|x0 xs IH]; intros ys x a v Hinc L Hne Ha Hv Hx; [easy|].
  destruct ys as [|y0 ys]; [easy|]. destruct xs as [|x1 xs]; destruct ys as [|y1 ys]; try easy.
  cbn [map combine interp_in].
  assert (x1 <= a).
  { destruct xs as [|x2 xs]; [cbn in Ha; subst; lra|].
    assert (P : x1 :: x2 :: xs <> []) by easy.
    destruct (exists_last P) as (l' & z & El). assert (z = a).
    { change (last (x0 :: x1 :: x2 :: xs) 0) with (last (x1 :: x2 :: xs) 0) in Ha. rewrite El in Ha. now rewrite last_last in Ha. }
    subst z. apply Rlt_le. apply (Hinc 1%nat (S (length l'))); [reflexivity| |].
    - change (nth_error (x1 :: x2 :: xs) (length l') = Some a). rewrite El, nth_error_app2, Nat.sub_diag by lia. reflexivity.
    - assert (length (x1 :: x2 :: xs) = length (l' ++ [a])) by congruence. rewrite app_length in H. cbn in H. lia. }
  rewrite nlt_f by lra. apply (IH (y1 :: ys) x a v); auto; try easy. now apply increasing_tail in Hinc.
Qed.

Lemma last_nth_error {A} (l : list A) d a : nth_error l (length l - 1) = Some a -> last l d = a.
Proof.
  destruct l as [|x l]; [easy|]. destruct (exists_last (l := x :: l)) as (l' & z & E); [easy|].
  rewrite E, last_last, app_length. cbn. replace (length l' + 1 - 1)%nat with (length l') by lia.
  rewrite nth_error_app2, Nat.sub_diag by lia. cbn. congruence.
Qed.

Section Table.
  Variable xs : list R.
  Variable ys : list num.
  Variable lo hi : num.
  Hypothesis Hinc : increasing xs.
  Hypothesis Hlen : length xs = length ys.

  Let f := interp1d (map Fin xs) ys lo hi.

  Lemma hd_map_fin x0 : nth_error xs 0 = Some x0 -> hd NaN (map Fin xs) = Fin x0.
  Proof. destruct xs; cbn; congruence. Qed.
  Lemma last_map_fin xl : nth_error xs (length xs - 1) = Some xl -> last (map Fin xs) NaN = Fin xl.
  Proof. intros H. apply last_nth_error. rewrite map_length. now apply map_nth_error. Qed.

  Lemma interp1d_below x0 x : nth_error xs 0 = Some x0 -> x < x0 -> f (Fin x) = lo.
  Proof. intros H0 H. unfold f, interp1d. cbn [is_nan]. now rewrite (hd_map_fin x0 H0), nlt_t. Qed.
  Lemma first_le i a x0 : nth_error xs 0 = Some x0 -> nth_error xs i = Some a -> x0 <= a.
  Proof. intros H0 H. destruct i; [assert (x0 = a) by congruence; lra|].
    apply Rlt_le, (Hinc 0%nat (S i)); auto. lia. Qed.
  Lemma le_last i a xl : nth_error xs (length xs - 1) = Some xl -> nth_error xs i = Some a -> a <= xl.
  Proof. intros H0 H. assert (i < length xs)%nat by (apply nth_error_Some; congruence).
    destruct (Nat.eq_dec i (length xs - 1)) as [->|N]; [assert (xl = a) by congruence; lra|].
    apply Rlt_le, (Hinc i (length xs - 1)%nat); auto. lia. Qed.
  Lemma interp1d_above xl x : nth_error xs (length xs - 1) = Some xl -> xl < x -> f (Fin x) = hi.
  Proof.
    intros Hl H. unfold f, interp1d. cbn [is_nan].
    destruct (nth_error xs 0) as [x0|] eqn:E0; [|now destruct xs].
    pose proof (first_le _ _ _ E0 Hl). rewrite (hd_map_fin _ E0), (last_map_fin _ Hl), nlt_f, nlt_t by lra. reflexivity.
  Qed.
  Lemma interp1d_grid i a v : nth_error xs i = Some a -> nth_error ys i = Some v -> f (Fin a) = v.
  Proof.
    intros Ha Hv. unfold f, interp1d. cbn [is_nan].
    destruct (nth_error xs 0) as [x0|] eqn:E0; [|now destruct xs, i].
    destruct (nth_error xs (length xs - 1)) as [xl|] eqn:El.
    2:{ apply nth_error_None in El. destruct xs; [now destruct i|cbn in El; lia]. }
    rewrite (hd_map_fin _ E0), (last_map_fin _ El), nlt_f by (eapply first_le; eauto).
    rewrite nlt_f by (eapply le_last; eauto).
    assert (Hi : (i < length xs)%nat) by (apply nth_error_Some; congruence).
    destruct (Nat.eq_dec i (length xs - 1)) as [->|N].
    - assert (a = xl) by congruence. subst xl.
      apply (interp_in_last xs ys a a v); auto; try lra.
      + destruct xs; [now destruct (length [] - 1)%nat|easy].
      + now apply last_nth_error.
      + apply last_nth_error. now rewrite <- Hlen.
    - destruct (nth_error xs (S i)) as [b|] eqn:Eb.
      2:{ apply nth_error_None in Eb. lia. }
      destruct (nth_error ys (S i)) as [w|] eqn:Ew.
      2:{ apply nth_error_None in Ew. lia. }
      assert (a < b) by (apply (Hinc i (S i)); auto).
      rewrite (interp_in_segment xs ys i a b v w a) by (auto; lra). apply segment_left.
  Qed.
  Lemma interp1d_between i a b u v x : nth_error xs i = Some a -> nth_error xs (S i) = Some b ->
    nth_error ys i = Some u -> nth_error ys (S i) = Some v -> a <= x < b ->
    f (Fin x) = segment (Fin a) u (Fin b) v (Fin x).
  Proof.
    intros Ha Hb Hu Hv Hx. unfold f, interp1d. cbn [is_nan].
    destruct (nth_error xs 0) as [x0|] eqn:E0; [|now destruct xs, i].
    destruct (nth_error xs (length xs - 1)) as [xl|] eqn:El.
    2:{ apply nth_error_None in El. destruct xs; [now destruct i|cbn in El; lia]. }
    pose proof (first_le _ _ _ E0 Ha). pose proof (le_last _ _ _ El Hb).
    rewrite (hd_map_fin _ E0), (last_map_fin _ El), !nlt_f by lra.
    now apply (interp_in_segment xs ys i).
  Qed.
  (** Every abscissa of the table's range lies at a grid point or strictly inside a segment. *)
  Lemma locate x x0 xl : nth_error xs 0 = Some x0 -> nth_error xs (length xs - 1) = Some xl -> x0 <= x <= xl ->
    x = xl \/ exists i a b, nth_error xs i = Some a /\ nth_error xs (S i) = Some b /\ a <= x < b.
  Proof.
    clear f Hlen. intros E0 El Hx. destruct (Req_dec x xl) as [->|N]; [now left|right].
    assert (G : forall n, (n < length xs)%nat -> forall an, nth_error xs n = Some an -> x < an ->
                exists i a b, nth_error xs i = Some a /\ nth_error xs (S i) = Some b /\ a <= x < b).
    { induction n as [|n IH]; intros Hn an Han Hlt.
      - assert (x0 = an) by congruence. lra.
      - destruct (nth_error xs n) as [am|] eqn:Em; [|apply nth_error_None in Em; lia].
        destruct (Rlt_le_dec x am) as [L|L]; [apply (IH ltac:(lia) am eq_refl L)|].
        exists n, am, an. auto. }
    assert (Hl : (length xs - 1 < length xs)%nat) by (apply nth_error_Some; congruence).
    apply (G (length xs - 1)%nat Hl xl El). lra.
  Qed.
End Table.
