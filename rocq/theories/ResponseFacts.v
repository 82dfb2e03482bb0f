(** ResponseFacts.v -- the spline through the packaged table of LISA's response: bounds on and outside of the table. *)
From Coq Require Import ZArith Reals List Lra Lia Psatz Bool.
From Verif Require Import Num Psd SplineSpec SplineFacts ResponseData ResponseCert.
Import ListNotations.
Open Scope R_scope.

Ltac to_R H := repeat first [rewrite minus_IZR in H|rewrite mult_IZR in H|rewrite plus_IZR in H].
(** Checks of neighbouring entries of a list. *)
Fixpoint all2 {A} (f : A -> A -> bool) (l : list A) : bool :=
  match l with p :: t => match t with q :: _ => f p q | [] => true end && all2 f t | [] => true end.
Fixpoint all3 {A} (f : A -> A -> A -> bool) (l : list A) : bool :=
  match l with p :: t => match t with q :: r :: _ => f p q r | _ => true end && all3 f t | [] => true end.
Lemma all2_nth {A} f (l : list A) d : all2 f l = true -> forall i, (S i < length l)%nat -> f (nth i l d) (nth (S i) l d) = true.
Proof.
  induction l as [|p t IH]; intros H i L; [cbn in L; lia|]. cbn [all2] in H. apply andb_true_iff in H. destruct H as (H & H').
  destruct i as [|i]; [destruct t as [|q t]; [cbn in L; lia|exact H]|]. cbn [length] in L. exact (IH H' i ltac:(lia)).
Qed.
Lemma all3_nth {A} f (l : list A) d : all3 f l = true -> forall i, (S (S i) < length l)%nat -> f (nth i l d) (nth (S i) l d) (nth (S (S i)) l d) = true.
Proof.
  induction l as [|p t IH]; intros H i L; [cbn in L; lia|]. cbn [all3] in H. apply andb_true_iff in H. destruct H as (H & H').
  destruct i as [|i]; [destruct t as [|q [|r t]]; [cbn in L; lia|cbn in L; lia|exact H]|]. cbn [length] in L. exact (IH H' i ltac:(lia)).
Qed.

Lemma abs_bounds a b : Rabs a <= b -> - b <= a <= b.
Proof. unfold Rabs. destruct (Rcase_abs a); lra. Qed.

(** An entry: abscissa and value (times T) and half of the second derivative (times K). *)
Definition cell := (Z * Z * Z)%type.
Definition cX (p : cell) : Z := fst (fst p).
Definition cY (p : cell) : Z := snd (fst p).
Definition cC (p : cell) : Z := snd p.
Section check.
  Variables (T K e lo hi : Z).
  Open Scope Z_scope.
  Definition row_ok (p q r : cell) : bool :=
    let P := cX q - cX p in let Q := cX r - cX q in
    Z.abs (P * Q * (P * cC p + 2 * (P + Q) * cC q + Q * cC r) - 3 * T * K * ((cY r - cY q) * P - (cY q - cY p) * Q)) <=? e * (P + Q) * P * Q.
  (** The row at the point [q] next to the end [p]; steps count as positive. *)
  Definition end_ok (p q r : cell) : bool :=
    let P := Z.abs (cX q - cX p) in let Q := Z.abs (cX r - cX q) in
    (Z.abs (P * ((3 * P * Q + 2 * Q * Q + P * P) * cC q + (Q * Q - P * P) * cC r) - 3 * T * K * ((cY r - cY q) * P - (cY q - cY p) * Q)) <=? e * (P + Q) * P * Q)
    && (Z.abs (cC p * Q - (cC q * Q - (cC r - cC q) * P)) <=? Q).
  Definition piece_ok (p q : cell) : bool :=
    let H := cX q - cX p in
    (0 <? H) && (lo * (4 * T * K) <=? 4 * T * K * Z.min (cY p) (cY q) - H * H * (Z.max 0 (Z.max (cC p) (cC q)) + (5 * e + 1)))
    && (4 * T * K * Z.max (cY p) (cY q) + H * H * (Z.max 0 (Z.max (- cC p) (- cC q)) + (5 * e + 1)) <=? hi * (4 * T * K)).
  Variable (l : list cell).
  Let d : cell := (0, 0, 0).
  Let n := (length l - 1)%nat.
  Definition table_ok : bool :=
    (4 <=? n)%nat && all2 piece_ok l && all3 row_ok l && end_ok (nth 0 l d) (nth 1 l d) (nth 2 l d) && end_ok (nth n l d) (nth (n - 1) l d) (nth (n - 2) l d)
    && (cX (nth 1 l d) - cX (nth 0 l d) <=? cX (nth 2 l d) - cX (nth 1 l d)) && (cX (nth n l d) - cX (nth (n - 1) l d) <=? 2 * (cX (nth (n - 1) l d) - cX (nth (n - 2) l d))).
  Close Scope Z_scope.
  Let x i := IZR (cX (nth i l d)) / IZR T.
  Let y i := IZR (cY (nth i l d)) / IZR T.
  Let c i := IZR (cC (nth i l d)) / IZR K.
  Hypothesis (T0 : (0 < T)%Z) (K0 : (0 < K)%Z) (e0 : (0 <= e)%Z).
  Hypothesis ok : table_ok = true.
  Let Tp : 0 < IZR T. Proof. now apply IZR_lt. Qed.
  Let Kp : 0 < IZR K. Proof. now apply IZR_lt. Qed.

  Lemma scaled_row P Q B E : 0 < P -> 0 < Q -> Rabs (P * Q * B - E) <= IZR e * (P + Q) * P * Q ->
    forall z, z = (P * Q * B - E) / (IZR T * IZR K * P * Q) -> Rabs z <= IZR e / IZR K * (P / IZR T + Q / IZR T).
  Proof.
    intros p q H z ->. assert (W : 0 < IZR T * IZR K * P * Q) by (repeat apply Rmult_lt_0_compat; assumption).
    unfold Rdiv at 1. rewrite Rabs_mult, Rabs_inv, (Rabs_pos_eq (IZR T * IZR K * P * Q)) by lra.
    apply Rmult_le_reg_r with (IZR T * IZR K * P * Q); [exact W|]. rewrite Rmult_assoc, Rinv_l, Rmult_1_r by lra. eapply Rle_trans; [exact H|]. apply Req_le. field. lra.
  Qed.
  Lemma ok_n : (4 <= n)%nat.
  Proof. unfold table_ok in ok. rewrite !andb_true_iff in ok. apply Nat.leb_le. tauto. Qed.
  Lemma ok_piece i : (i < n)%nat -> piece_ok (nth i l d) (nth (S i) l d) = true.
  Proof. intros H. unfold table_ok in ok. rewrite !andb_true_iff in ok. apply all2_nth; [tauto|unfold n in H; lia]. Qed.
  Lemma ok_inc i : (i < n)%nat -> x i < x (S i).
  Proof.
    intros H. pose proof (ok_piece i H) as P. unfold piece_ok in P. rewrite !andb_true_iff in P. destruct P as ((P & _) & _). apply Z.ltb_lt in P. unfold x.
    apply Rmult_lt_compat_r; [now apply Rinv_0_lt_compat|]. apply IZR_lt. lia.
  Qed.
  Lemma ok_step i : (i < n)%nat -> (0 < cX (nth (S i) l d) - cX (nth i l d))%Z.
  Proof. intros H. pose proof (ok_piece i H) as P. unfold piece_ok in P. rewrite !andb_true_iff in P. destruct P as ((P & _) & _). now apply Z.ltb_lt in P. Qed.
  Lemma abs_IZR a b : (Z.abs a <= b)%Z -> Rabs (IZR a) <= IZR b.
  Proof. intros H. rewrite <- abs_IZR. now apply IZR_le. Qed.
  Lemma ok_row i : (S i < n)%nat ->
    Rabs ((x (S i) - x i) * c i + 2 * ((x (S i) - x i) + (x (S (S i)) - x (S i))) * c (S i) + (x (S (S i)) - x (S i)) * c (S (S i))
      - 3 * ((y (S (S i)) - y (S i)) / (x (S (S i)) - x (S i)) - (y (S i) - y i) / (x (S i) - x i))) <= IZR e / IZR K * ((x (S i) - x i) + (x (S (S i)) - x (S i))).
  Proof.
    intros H. assert (O : row_ok (nth i l d) (nth (S i) l d) (nth (S (S i)) l d) = true) by (unfold table_ok in ok; rewrite !andb_true_iff in ok; apply all3_nth; [tauto|unfold n in H; lia]).
    pose proof (ok_step i ltac:(lia)) as P. pose proof (ok_step (S i) ltac:(lia)) as Q. unfold row_ok in O. apply Z.leb_le in O.
    set (a := nth i l d) in *. set (b := nth (S i) l d) in *. set (g := nth (S (S i)) l d) in *. apply abs_IZR in O. rewrite minus_IZR, !mult_IZR, !plus_IZR, !mult_IZR, !plus_IZR, !minus_IZR, !mult_IZR, !minus_IZR in O.
    apply IZR_lt in P, Q. rewrite minus_IZR in P, Q. unfold x, y, c. fold a b g.
    replace (IZR (cX b) / IZR T - IZR (cX a) / IZR T) with ((IZR (cX b) - IZR (cX a)) / IZR T) by (field; lra).
    replace (IZR (cX g) / IZR T - IZR (cX b) / IZR T) with ((IZR (cX g) - IZR (cX b)) / IZR T) by (field; lra).
    eapply scaled_row; [exact P|exact Q|exact O|]. field. lra.
  Qed.
  Lemma end_real a b g (s : R) : s = 1 \/ s = -1 -> 0 < s * (IZR (cX b) - IZR (cX a)) -> 0 < s * (IZR (cX g) - IZR (cX b)) -> end_ok a b g = true ->
    let h0 := s * (IZR (cX b) / IZR T - IZR (cX a) / IZR T) in let h1 := s * (IZR (cX g) / IZR T - IZR (cX b) / IZR T) in
    let ca := IZR (cC a) / IZR K in let cb := IZR (cC b) / IZR K in let cg := IZR (cC g) / IZR K in
    Rabs ((3 * h0 + 2 * h1 + h0 ^ 2 / h1) * cb + (h1 - h0 ^ 2 / h1) * cg
      - 3 * ((IZR (cY g) / IZR T - IZR (cY b) / IZR T) / h1 - (IZR (cY b) / IZR T - IZR (cY a) / IZR T) / h0)) <= IZR e / IZR K * (h0 + h1)
    /\ Rabs (ca - (cb - (cg - cb) * h0 / h1)) <= 1 / IZR K.
  Proof.
    intros S P Q O. cbv zeta. unfold end_ok in O. apply andb_true_iff in O. destruct O as (O & O'). apply Z.leb_le in O, O'.
    assert (AP : IZR (Z.abs (cX b - cX a)) = s * (IZR (cX b) - IZR (cX a))).
    { rewrite <- Rabs_Zabs. rewrite minus_IZR. destruct S as [-> | ->]; [rewrite Rabs_pos_eq; lra|rewrite Rabs_left; lra]. }
    assert (AQ : IZR (Z.abs (cX g - cX b)) = s * (IZR (cX g) - IZR (cX b))).
    { rewrite <- Rabs_Zabs. rewrite minus_IZR. destruct S as [-> | ->]; [rewrite Rabs_pos_eq; lra|rewrite Rabs_left; lra]. }
    set (P' := s * (IZR (cX b) - IZR (cX a))) in *. set (Q' := s * (IZR (cX g) - IZR (cX b))) in *.
    replace (s * (IZR (cX b) / IZR T - IZR (cX a) / IZR T)) with (P' / IZR T) by (unfold P'; field; lra).
    replace (s * (IZR (cX g) / IZR T - IZR (cX b) / IZR T)) with (Q' / IZR T) by (unfold Q'; field; lra).
    apply abs_IZR in O, O'. to_R O. to_R O'. rewrite AP, AQ in O, O'. clearbody P' Q'. split.
    - apply (scaled_row P' Q' ((3 * P' * Q' + 2 * Q' * Q' + P' * P') / Q' * IZR (cC b) + (Q' * Q' - P' * P') / Q' * IZR (cC g)) (3 * IZR T * IZR K * ((IZR (cY g) - IZR (cY b)) * P' - (IZR (cY b) - IZR (cY a)) * Q')) P Q); [|field; lra].
      eapply Rle_trans; [|exact O]. apply Req_le. f_equal. field. lra.
    - replace (IZR (cC a) / IZR K - _) with ((IZR (cC a) * Q' - (IZR (cC b) * Q' - (IZR (cC g) - IZR (cC b)) * P')) / (IZR K * Q')) by (field; lra).
      assert (W : 0 < IZR K * Q') by (now apply Rmult_lt_0_compat). unfold Rdiv at 1. rewrite Rabs_mult, Rabs_inv, (Rabs_pos_eq (IZR K * Q')) by lra.
      apply Rmult_le_reg_r with (IZR K * Q'); [exact W|]. rewrite Rmult_assoc, Rinv_l, Rmult_1_r by lra. eapply Rle_trans; [exact O'|]. apply Req_le. field. lra.
  Qed.

  Variable m : nat -> R.
  Hypothesis Mm : moments n x y m.
  Let E := (5 * IZR e + 1) / IZR K.
  Lemma ok_moments i : (i <= n)%nat -> Rabs (m i - c i) <= E.
  Proof.
    pose proof ok_n as N. intros I. assert (ok' := ok). unfold table_ok in ok'. fold n in ok'. rewrite !andb_true_iff in ok'. destruct ok' as ((((_ & O0) & On) & L0) & Ln). apply Z.leb_le in L0, Ln.
    pose proof (IZR_le _ _ e0) as e0'. assert (X : forall j, (j < n)%nat -> 0 < IZR (cX (nth (S j) l d)) - IZR (cX (nth j l d))) by (intros j J; pose proof (ok_step j J) as Q; apply IZR_lt in Q; now rewrite minus_IZR in Q).
    destruct (end_real (nth 0 l d) (nth 1 l d) (nth 2 l d) 1) as (R0 & A0); [now left|rewrite Rmult_1_l; apply X; lia|rewrite Rmult_1_l; apply X; lia|exact O0|]. rewrite !Rmult_1_l in R0, A0.
    pose proof (X (n - 1)%nat ltac:(lia)) as X1. pose proof (X (n - 2)%nat ltac:(lia)) as X2. replace (S (n - 1)) with n in X1 by lia. replace (S (n - 2)) with (n - 1)%nat in X2 by lia.
    destruct (end_real (nth n l d) (nth (n - 1) l d) (nth (n - 2) l d) (-1)) as (Rn & An); [now right|lra|lra|exact On|].
    assert (Hn : forall u v, -1 * (u - v) = v - u) by (intros; ring). rewrite !Hn in Rn, An.
    assert (R : forall j, (1 <= j)%nat -> (j < n - 2)%nat -> Rabs ((x (S j) - x j) * c j + 2 * ((x (S j) - x j) + (x (S (S j)) - x (S j))) * c (S j) + (x (S (S j)) - x (S j)) * c (S (S j))
      - 3 * ((y (S (S j)) - y (S j)) / (x (S (S j)) - x (S j)) - (y (S j) - y j) / (x (S j) - x j))) <= IZR e / IZR K * ((x (S j) - x j) + (x (S (S j)) - x (S j)))) by (intros j J1 J2; apply ok_row; lia).
    assert (Rn' : Rabs ((3 * (x (S (n - 1)) - x (n - 1)%nat) + 2 * (x (S (n - 2)) - x (n - 2)%nat) + (x (S (n - 1)) - x (n - 1)%nat) ^ 2 / (x (S (n - 2)) - x (n - 2)%nat)) * c (n - 1)%nat
      + ((x (S (n - 2)) - x (n - 2)%nat) - (x (S (n - 1)) - x (n - 1)%nat) ^ 2 / (x (S (n - 2)) - x (n - 2)%nat)) * c (n - 2)%nat
      - 3 * ((y (S (n - 1)) - y (n - 1)%nat) / (x (S (n - 1)) - x (n - 1)%nat) - (y (S (n - 2)) - y (n - 2)%nat) / (x (S (n - 2)) - x (n - 2)%nat))) <= IZR e / IZR K * ((x (S (n - 1)) - x (n - 1)%nat) + (x (S (n - 2)) - x (n - 2)%nat))).
    { replace (S (n - 1)) with n by lia. replace (S (n - 2)) with (n - 1)%nat by lia. eapply Rle_trans; [|exact Rn]. apply Req_le. f_equal. unfold x, y, c. field. lra. }
    assert (B : IZR e / IZR K <= E). { unfold E. apply Rmult_le_compat_r; [left; now apply Rinv_0_lt_compat|lra]. }
    assert (B3 : (1 + 2 * 1) * (IZR e / IZR K) + 1 / IZR K <= E). { unfold E. replace ((1 + 2 * 1) * (IZR e / IZR K) + 1 / IZR K) with ((3 * IZR e + 1) / IZR K) by (field; lra). apply Rmult_le_compat_r; [left; now apply Rinv_0_lt_compat|lra]. }
    assert (B5 : (1 + 2 * 2) * (IZR e / IZR K) + 1 / IZR K <= E). { unfold E. replace ((1 + 2 * 2) * (IZR e / IZR K) + 1 / IZR K) with ((5 * IZR e + 1) / IZR K) by (field; lra). lra. }
    destruct (Nat.eq_dec i 0) as [->|I0]; [|destruct (Nat.eq_dec i n) as [->|In]].
    - pose proof (moments_close_0 n x y N ok_inc m c (IZR e / IZR K) Mm R R0 Rn') as Z.
      assert (Q : x 1%nat - x 0%nat <= x 2%nat - x 1%nat). { apply IZR_le in L0. rewrite !minus_IZR in L0. unfold x. assert (0 < / IZR T) by (now apply Rinv_0_lt_compat). unfold Rdiv. nra. }
      specialize (Z Q). unfold c. fold (c 1%nat) in A0. eapply Rle_trans; [|exact B3].
      replace (m 0%nat - IZR (cC (nth 0 l d)) / IZR K) with ((m 0%nat - (c 1%nat - (c 2%nat - c 1%nat) * (x 1%nat - x 0%nat) / (x 2%nat - x 1%nat))) + - (c 0%nat - (c 1%nat - (c 2%nat - c 1%nat) * (x 1%nat - x 0%nat) / (x 2%nat - x 1%nat)))) by (unfold c; ring).
      eapply Rle_trans; [apply Rabs_triang|]. rewrite Rabs_Ropp. apply Rplus_le_compat; [exact Z|exact A0].
    - pose proof (moments_close_n n x y N ok_inc m c (IZR e / IZR K) Mm R R0 Rn') as Z. cbv beta in Z. replace (S (n - 1)) with n in Z by lia. replace (S (n - 2)) with (n - 1)%nat in Z by lia.
      assert (Q : x n - x (n - 1)%nat <= 2 * (x (n - 1)%nat - x (n - 2)%nat)). { apply IZR_le in Ln. rewrite mult_IZR, !minus_IZR in Ln. unfold x. assert (0 < / IZR T) by (now apply Rinv_0_lt_compat). unfold Rdiv. nra. }
      specialize (Z Q). eapply Rle_trans; [|exact B5].
      replace (m n - c n) with ((m n - (c (n - 1)%nat - (c (n - 2)%nat - c (n - 1)%nat) * (x n - x (n - 1)%nat) / (x (n - 1)%nat - x (n - 2)%nat))) + - (c n - (c (n - 1)%nat - (c (n - 2)%nat - c (n - 1)%nat) * (x n - x (n - 1)%nat) / (x (n - 1)%nat - x (n - 2)%nat)))) by ring.
      eapply Rle_trans; [apply Rabs_triang|]. rewrite Rabs_Ropp. apply Rplus_le_compat; [exact Z|exact An].
    - eapply Rle_trans; [|exact B]. apply (moments_close n x y N ok_inc m c (IZR e / IZR K) Mm R R0 Rn'). lia.
  Qed.
  Lemma ok_bounds i t : (i < n)%nat -> x i <= t <= x (S i) -> IZR lo / IZR T <= from_moments x y m i t <= IZR hi / IZR T.
  Proof.
    intros I B. pose proof (ok_piece i I) as O. unfold piece_ok in O. rewrite !andb_true_iff in O. destruct O as ((_ & O1) & O2). apply Z.leb_le in O1, O2.
    pose proof (ok_moments i ltac:(lia)) as M0. pose proof (ok_moments (S i) ltac:(lia)) as M1. pose proof (ok_step i I) as P. pose proof (IZR_le _ _ e0) as e0'. unfold c in M0, M1.
    set (a := nth i l d) in *. set (b := nth (S i) l d) in *. set (kk := Z.max 0 (Z.max (cC a) (cC b))) in *. set (k' := Z.max 0 (Z.max (- cC a) (- cC b))) in *.
    assert (Z1 : (0 <= kk /\ cC a <= kk /\ cC b <= kk)%Z) by lia. assert (Z2 : (0 <= k' /\ - cC a <= k' /\ - cC b <= k')%Z) by lia.
    destruct Z1 as (Za & Zb & Zc). destruct Z2 as (Zd & Ze & Zf). apply IZR_le in Za, Zb, Zc, Zd, Ze, Zf. rewrite opp_IZR in Ze, Zf.
    assert (Ki : 0 < / IZR K) by (now apply Rinv_0_lt_compat). assert (Ti : 0 < / IZR T) by (now apply Rinv_0_lt_compat).
    assert (E0 : 0 <= E) by (unfold E; apply Rmult_le_pos; lra).
    apply abs_bounds in M0, M1.
    assert (D1 : IZR (cC a) / IZR K <= IZR kk / IZR K) by (apply Rmult_le_compat_r; lra). assert (D2 : IZR (cC b) / IZR K <= IZR kk / IZR K) by (apply Rmult_le_compat_r; lra).
    assert (D3 : - (IZR (cC a) / IZR K) <= IZR k' / IZR K) by (replace (- (IZR (cC a) / IZR K)) with (- IZR (cC a) / IZR K) by (field; lra); apply Rmult_le_compat_r; lra).
    assert (D4 : - (IZR (cC b) / IZR K) <= IZR k' / IZR K) by (replace (- (IZR (cC b) / IZR K)) with (- IZR (cC b) / IZR K) by (field; lra); apply Rmult_le_compat_r; lra).
    assert (D5 : 0 <= IZR kk / IZR K) by (apply Rmult_le_pos; lra). assert (D6 : 0 <= IZR k' / IZR K) by (apply Rmult_le_pos; lra).
    assert (Y1 : IZR (Z.min (cY a) (cY b)) / IZR T <= y i <= IZR (Z.max (cY a) (cY b)) / IZR T) by (unfold y; fold a; split; apply Rmult_le_compat_r; try lra; apply IZR_le; lia).
    assert (Y2 : IZR (Z.min (cY a) (cY b)) / IZR T <= y (S i) <= IZR (Z.max (cY a) (cY b)) / IZR T) by (unfold y; fold b; split; apply Rmult_le_compat_r; try lra; apply IZR_le; lia).
    pose proof (between_bounds (x i) (x (S i)) (y i) (y (S i)) (m i) (m (S i)) t _ _ (IZR k' / IZR K + E) (IZR kk / IZR K + E) (ok_inc i I) B Y1 Y2 ltac:(lra) ltac:(lra) ltac:(lra) ltac:(lra)) as F. cbv zeta in F.
    unfold from_moments. assert (Hx : x (S i) - x i = (IZR (cX b) - IZR (cX a)) / IZR T) by (unfold x; fold a b; field; lra).
    apply IZR_le in O1, O2. to_R O1. to_R O2. set (Hh := IZR (cX b) - IZR (cX a)) in *. assert (W : 0 < 4 * IZR T * IZR K) by nra. assert (W' : 0 < 4 * IZR T * IZR T * IZR K) by nra.
    set (V := cubic _ _ _ _ _ _) in *. rewrite Hx in F. split.
    - eapply Rle_trans; [|apply F]. unfold E. apply Rmult_le_reg_r with (4 * IZR T * IZR T * IZR K); [exact W'|].
      replace (IZR lo / IZR T * (4 * IZR T * IZR T * IZR K)) with (IZR lo * (4 * IZR T * IZR K)) by (field; lra). eapply Rle_trans; [exact O1|]. apply Req_le. field. lra.
    - eapply Rle_trans; [apply F|]. unfold E. apply Rmult_le_reg_r with (4 * IZR T * IZR T * IZR K); [exact W'|].
      replace (IZR hi / IZR T * (4 * IZR T * IZR T * IZR K)) with (IZR hi * (4 * IZR T * IZR K)) by (field; lra). eapply Rle_trans; [|exact O2]. apply Req_le. field. lra.
  Qed.
  Lemma located t : x 0%nat <= t <= x n -> exists i, (i < n)%nat /\ x i <= t <= x (S i).
  Proof.
    pose proof ok_n as N. intros (L & U). assert (G : forall k, (k <= n)%nat -> t <= x k -> exists i, (i < n)%nat /\ x i <= t <= x (S i) \/ k = 0%nat).
    { induction k as [|k IH]; intros H Q; [exists 0%nat; now right|]. destruct (Rle_lt_dec (x k) t) as [A|A]; [exists k; left; split; [lia|lra]|].
      destruct (IH ltac:(lia) ltac:(lra)) as (i & [B|B]); [exists i; now left|subst k; lra]. }
    destruct (G n ltac:(lia) U) as (i & [B|B]); [now exists i|lia].
  Qed.
End check.

(** The packaged table. *)
Definition cells : list cell := combine response_table response_cert.
Lemma cells_ok : table_ok 100000000000 1000000000 3 3240000 30070000000 cells = true.
Proof. vm_compute. reflexivity. Qed.
Lemma map_fst_combine {A B} (l : list A) : forall l' : list B, length l = length l' -> map fst (combine l l') = l.
Proof. induction l as [|a l IH]; intros [|b l'] E; try discriminate; [reflexivity|]. cbn. f_equal. apply IH. now injection E. Qed.
Lemma table_cells : map fst cells = response_table.
Proof. apply map_fst_combine. vm_compute. reflexivity. Qed.
Lemma T_pos : (0 < 100000000000)%Z.
Proof. reflexivity. Qed.
Lemma K_pos : (0 < 1000000000)%Z.
Proof. reflexivity. Qed.
Lemma e_pos : (0 <= 3)%Z.
Proof. discriminate. Qed.
Lemma abscissae_nth i : nth i response_abscissae 0 = IZR (cX (nth i cells (0, 0, 0)%Z)) / IZR 100000000000.
Proof.
  unfold response_abscissae. rewrite <- table_cells, map_map. rewrite <- (map_nth (fun p : cell => IZR (cX p) / IZR 100000000000)). unfold cX. cbn [fst]. f_equal. unfold Rdiv. ring.
Qed.
Lemma values_nth i : nth i response_values 0 = IZR (cY (nth i cells (0, 0, 0)%Z)) / IZR 100000000000.
Proof.
  unfold response_values. rewrite <- table_cells, map_map. rewrite <- (map_nth (fun p : cell => IZR (cY p) / IZR 100000000000)). unfold cY. cbn [fst snd]. f_equal. unfold Rdiv. ring.
Qed.
Lemma abscissae_length : length response_abscissae = length cells.
Proof. unfold response_abscissae. rewrite map_length, <- table_cells. apply map_length. Qed.
Lemma values_length : length response_values = length cells.
Proof. unfold response_values. rewrite map_length, <- table_cells. apply map_length. Qed.
Lemma cells_many : (5 <= length cells)%nat.
Proof. pose proof (ok_n _ _ _ _ _ _ cells_ok). lia. Qed.
Lemma abscissae_increasing : increasing response_abscissae.
Proof.
  intros i H. rewrite !abscissae_nth. apply (ok_inc _ _ _ _ _ _ T_pos cells_ok). rewrite abscissae_length in H. lia.
Qed.
Lemma near_left a b g d x t : a = 0.3 -> -1 <= b <= 1 -> -1 <= g <= 1 -> -1 <= d <= 1 -> -1.1e-5 <= t - x <= 0 -> 0.2999 <= cubic a b g d x t <= 0.3001.
Proof.
  intros -> B G D Z. unfold cubic. set (z := t - x) in *. replace (0.3 + b * z + g * z ^ 2 + d * z ^ 3) with (0.3 + z * (b + z * (g + z * d))) by ring.
  assert (Q1 : -1 <= z * d <= 1) by nra. set (q := z * d) in *. assert (Q2 : -1 <= z * (g + q) <= 1) by nra. set (r := z * (g + q)) in *. assert (Q3 : - 2.2e-5 <= z * (b + r) <= 2.2e-5) by nra. lra.
Qed.
Section packaged.
  Variable s : R -> R.
  Hypothesis sp : cubic_spline response_abscissae response_values s.
  Let n := (length cells - 1)%nat.
  Let x i := IZR (cX (nth i cells (0, 0, 0)%Z)) / IZR 100000000000.
  Let y i := IZR (cY (nth i cells (0, 0, 0)%Z)) / IZR 100000000000.
  Let c i := IZR (cC (nth i cells (0, 0, 0)%Z)) / IZR 1000000000.
  Lemma packaged_moments : exists m, moments n x y m /\ (forall i, (i <= n)%nat -> - 16e-9 <= m i - c i <= 16e-9) /\
    (forall i t, (i < n)%nat -> i = 0%nat \/ x i <= t -> S i = n \/ t <= x (S i) -> s t = from_moments x y m i t).
  Proof.
    destruct (spline_moments _ _ _ abscissae_increasing ltac:(rewrite abscissae_length; apply cells_many) sp) as (m & M & F). cbv zeta in M, F. rewrite abscissae_length in M, F. fold n in M, F.
    apply (moments_ext _ _ _ x y) in M; [|exact abscissae_nth|exact values_nth]. exists m. split; [exact M|]. split.
    - intros i I. pose proof (ok_moments _ _ _ _ _ _ T_pos K_pos e_pos cells_ok m M i I) as Q. apply abs_bounds in Q. unfold c. lra.
    - intros i t I A B. rewrite <- (from_moments_ext _ _ x y m i t abscissae_nth values_nth). apply F; [exact I| |]; rewrite abscissae_nth; assumption.
  Qed.
  Lemma packaged_bounds t : 0 <= t <= 108.5065 -> 3.24e-5 <= s t <= 0.3007.
  Proof.
    destruct packaged_moments as (m & M & C & F). intros (L & U). pose proof cells_many as N.
    destruct (Rle_lt_dec (x 0%nat) t) as [G|G].
    - destruct (located _ _ _ _ _ _ cells_ok t) as (i & I & B).
      { split; [exact G|]. replace (nth (length cells - 1) cells (0, 0, 0)%Z) with (10850650000000, 6157572, -37752)%Z by (vm_compute; reflexivity). cbn [cX fst]. lra. }
      rewrite (F i t I) by (right; apply B). assert (Q : 3240000 / 100000000000 <= from_moments x y m i t <= 30070000000 / 100000000000) by exact (ok_bounds _ _ _ _ _ _ T_pos K_pos e_pos cells_ok m M i t I B). lra.
    - rewrite (F 0%nat t) by (unfold n; try lia; first [now left|right; pose proof (ok_inc _ _ _ _ _ _ T_pos cells_ok 0%nat ltac:(lia)); unfold x in *; lra]).
      pose proof (C 0%nat ltac:(lia)) as C0. pose proof (C 1%nat ltac:(unfold n; lia)) as C1. unfold c in C0, C1.
      assert (E0 : nth 0 cells (0, 0, 0)%Z = (1023300, 30000000000, 0)%Z) by (vm_compute; reflexivity). assert (E1 : nth 1 cells (0, 0, 0)%Z = (1047143, 30000000000, 0)%Z) by (vm_compute; reflexivity).
      unfold from_moments, x, y in *. rewrite E0 in *. rewrite E1 in *. cbn [cX cY cC fst snd] in *.
      match goal with |- _ <= ?v <= _ => assert (X : 0.2999 <= v <= 0.3001); [|lra] end. replace (1047143 / 100000000000 - 1023300 / 100000000000) with (23843 / 100000000000) by lra.
      replace ((m 1%nat - m 0%nat) / (3 * (23843 / 100000000000))) with ((m 1%nat - m 0%nat) * (100000000000 / 71529)) by field. apply near_left; lra.
  Qed.
  Lemma packaged_beyond t : 110 <= t -> s t <= - 7e-5 /\ (t <= 210 -> - 20 <= s t).
  Proof.
    destruct packaged_moments as (m & M & C & F). intros L. pose proof cells_many as N.
    assert (E0 : nth (n - 1) cells (0, 0, 0)%Z = (10816290000000, 6096188, -26084)%Z) by (vm_compute; reflexivity). assert (E1 : nth (S (n - 1)) cells (0, 0, 0)%Z = (10850650000000, 6157572, -37752)%Z) by (vm_compute; reflexivity).
    assert (I : (n - 1 < n)%nat) by (unfold n; lia). rewrite (F (n - 1)%nat t I); [|right; unfold x; rewrite E0; cbn [cX fst]; lra|left; unfold n; lia].
    pose proof (C (n - 1)%nat ltac:(lia)) as C0. pose proof (C (S (n - 1))%nat ltac:(lia)) as C1. unfold c in C0, C1. unfold from_moments, x, y. rewrite E0 in *. rewrite E1 in *. cbn [cX cY cC fst snd] in *.
    set (u := m (n - 1)%nat) in *. set (v := m (S (n - 1))) in *. clearbody u v.
    replace (10850650000000 / 100000000000 - 10816290000000 / 100000000000) with (3436 / 10000) by lra.
    replace ((v - u) / (3 * (3436 / 10000))) with ((v - u) * (10000 / 10308)) by field. replace (6157572 / 100000000000 - 6096188 / 100000000000) with (61384 / 100000000000) by lra.
    replace (61384 / 100000000000 / (3436 / 10000)) with (61384 / 34360000000) by lra.
    set (b := 61384 / 34360000000 - 3436 / 10000 * (2 * u + v) / 3). set (d := (v - u) * (10000 / 10308)).
    set (z := t - 110). assert (Z : 0 <= z) by (unfold z; lra).
    assert (X : cubic (6096188 / 100000000000) b u d (10816290000000 / 100000000000) t
      = (6096188 / 100000000000 + b * (18371 / 10000) + u * (18371 / 10000) ^ 2 + d * (18371 / 10000) ^ 3) + z * ((b + 2 * u * (18371 / 10000) + 3 * d * (18371 / 10000) ^ 2) + z * ((u + 3 * d * (18371 / 10000)) + z * d))).
    { unfold cubic. replace (t - 10816290000000 / 100000000000) with (z + 18371 / 10000) by (unfold z; lra). ring. }
    rewrite X. clear X. assert (D : d <= 0) by (unfold d; lra). assert (A2 : u + 3 * d * (18371 / 10000) <= 0) by (unfold d; lra). assert (A1 : b + 2 * u * (18371 / 10000) + 3 * d * (18371 / 10000) ^ 2 <= 0) by (unfold b, d; lra).
    assert (A0 : 6096188 / 100000000000 + b * (18371 / 10000) + u * (18371 / 10000) ^ 2 + d * (18371 / 10000) ^ 3 <= - 7e-5) by (unfold b, d; lra).
    assert (Q : forall w, w <= 0 -> z * w <= 0) by (intros w W; nra). pose proof (Q _ D) as Q1.
    pose proof (Q (u + 3 * d * (18371 / 10000) + z * d) ltac:(lra)) as Q2.
    pose proof (Q (b + 2 * u * (18371 / 10000) + 3 * d * (18371 / 10000) ^ 2 + z * (u + 3 * d * (18371 / 10000) + z * d)) ltac:(lra)). split; [lra|]. intros U.
    assert (Z' : z <= 100) by (unfold z; lra). assert (W : forall w k, - k <= w -> 0 <= k -> - (100 * k) <= z * w) by (intros w k W K; nra).
    pose proof (W d 1.2e-5 ltac:(unfold d; lra) ltac:(lra)) as W1. set (q1 := z * d) in *.
    pose proof (W (u + 3 * d * (18371 / 10000) + q1) 1.4e-3 ltac:(unfold d in *; lra) ltac:(lra)) as W2. set (q2 := z * (u + 3 * d * (18371 / 10000) + q1)) in *.
    pose proof (W (b + 2 * u * (18371 / 10000) + 3 * d * (18371 / 10000) ^ 2 + q2) 0.15 ltac:(unfold b, d in *; lra) ltac:(lra)) as W3. unfold b, d in *; lra.
  Qed.
End packaged.
