(** AccuracyFacts.v -- how far the merger-time approximations are from Peters' integral. *)
From Coq Require Import String Reals ZArith QArith Qreals List Bool Lra Lia.
From Coquelicot Require Import Coquelicot.
From Verif Require Import Num NumFacts Np NpFacts Utils Spec UtilsFacts Evol EvolSpec EvolFacts MergeFacts PosCheck.
Import ListNotations.
Open Scope R_scope.

(** ** Comparing the integral with a known antiderivative *)
Lemma I514_le F h e : 0 <= e < 1 -> F 0 = 0 ->
  (forall x, 0 <= x <= e -> is_derive F x (h x)) -> (forall x, 0 <= x <= e -> continuous h x) ->
  (forall x, 0 < x < e -> p514 x <= h x) -> I514 e <= F e.
Proof.
  intros He F0 HD HC HL.
  assert (R : is_RInt h 0 e (F e)).
  { replace (F e) with (minus (F e) (F 0)) by (rewrite F0; unfold minus, plus, opp; simpl; ring).
    apply (is_RInt_derive F h); intros x Hx; rewrite Rmin_left, Rmax_right in Hx by lra; auto. }
  rewrite <- (is_RInt_unique _ _ _ _ R). unfold I514. apply RInt_le; [lra|apply ex_RInt_p514; lra|eexists; exact R|auto].
Qed.
Lemma I514_ge F h e : 0 <= e < 1 -> F 0 = 0 ->
  (forall x, 0 <= x <= e -> is_derive F x (h x)) -> (forall x, 0 <= x <= e -> continuous h x) ->
  (forall x, 0 < x < e -> h x <= p514 x) -> F e <= I514 e.
Proof.
  intros He F0 HD HC HL.
  assert (R : is_RInt h 0 e (F e)).
  { replace (F e) with (minus (F e) (F 0)) by (rewrite F0; unfold minus, plus, opp; simpl; ring).
    apply (is_RInt_derive F h); intros x Hx; rewrite Rmin_left, Rmax_right in Hx by lra; auto. }
  rewrite <- (is_RInt_unique _ _ _ _ R). unfold I514. apply RInt_le; [lra|eexists; exact R|apply ex_RInt_p514; lra|auto].
Qed.

(** ** Polynomials in s = sqrt(1 - e^2) *)
Definition sq (x : R) : R := sqrt (1 - x ^ 2).
Definition CP (P dP : R -> R) (s : R) : R :=
  (1 + 73/24 * (1 - s ^ 2) + 37/96 * (1 - s ^ 2) ^ 2) * P s
  - 19/48 * (1 + 121/304 * (1 - s ^ 2)) * (1 - s ^ 2) * (s * dP s + 7 * P s).
Lemma sq_pos x : -1 < x < 1 -> 0 < sq x.
Proof. intros. apply sqrt_lt_R0. simpl; nra. Qed.
Lemma sq_2 x : -1 < x < 1 -> sq x ^ 2 = 1 - x ^ 2.
Proof. intros. unfold sq. rewrite <- Rsqr_pow2. apply Rsqr_sqrt. simpl; nra. Qed.
Lemma is_derive_sq x : -1 < x < 1 -> is_derive sq x (- x / sq x).
Proof.
  intros H. pose proof (sq_pos x H). assert (A : 0 < 1 - x ^ 2) by (simpl; nra).
  assert (D : is_derive (fun x => 1 - x ^ 2) x (- (2 * x))) by (auto_derive; [auto|ring]).
  assert (D2 : is_derive sqrt (1 - x ^ 2) (/ (2 * sqrt (1 - x ^ 2)))).
  { apply is_derive_Reals. now apply derivable_pt_lim_sqrt. }
  evar_last; [apply (is_derive_comp sqrt (fun x => 1 - x ^ 2) x _ _ D2 D)|].
  unfold scal; simpl; unfold mult; simpl. unfold sq in *. simpl in *. field. lra.
Qed.
Lemma P4_p514 x : -1 < x < 1 -> P4 x * sq x ^ 5 = p514 x * (19/48 * x * (1 + 121/304 * x ^ 2)).
Proof.
  intros Hx. assert (A : 0 < 1 - x ^ 2) by (simpl; nra). assert (B : 0 < 1 + 121/304 * x ^ 2) by (simpl; nra).
  assert (E0 : pw (48/19) x = x * pw (29/19) x).
  { unfold pw. destruct (Rle_dec x 0); [ring|]. replace (48/19) with (1 + 29/19) by field.
    rewrite Rpower_plus, Rpower_1 by lra. reflexivity. }
  unfold P4, p514, sq. rewrite E0, <- Rpower_52 by auto.
  replace (Rpower (1 - x ^ 2) (-4)) with (/ Rpower (1 - x ^ 2) (3/2) / Rpower (1 - x ^ 2) (5/2)).
  2:{ unfold Rdiv. rewrite <- !Rpower_Ropp, <- Rpower_plus. f_equal. field. }
  replace (3480/2299) with (1181/2299 + 1) by field. rewrite Rpower_plus, (Rpower_1 _ B).
  field. split; apply Rpower_neq0.
Qed.
Lemma derive_F (P dP : R -> R) x : -1 < x < 1 -> is_derive P (sq x) (dP (sq x)) ->
  is_derive (fun x => P4 x * (sq x ^ 7 * P (sq x))) x (p514 x * CP P dP (sq x)).
Proof.
  intros Hx HP. pose proof (sq_pos x Hx) as S. pose proof (is_derive_sq x Hx) as DS. pose proof (sq_2 x Hx) as S2.
  evar_last.
  { apply (is_derive_mult P4 (fun x => sq x ^ 7 * P (sq x))); [apply is_derive_P4; auto| |intros; apply Rmult_comm].
    apply (is_derive_mult (fun x => sq x ^ 7) (fun x => P (sq x))); [apply is_derive_pow; exact DS| |intros; apply Rmult_comm].
    apply (is_derive_comp P sq); [exact HP|exact DS]. }
  unfold plus, mult, scal; cbn -[pow enhancement sq]. unfold mult; cbn -[pow enhancement sq].
  pose proof (P4_p514 x Hx) as E.
  replace (P4 x * ((1 + 1 + 1 + 1 + 1 + 1 + 1) * (- x / sq x) * sq x ^ 6 * P (sq x) + sq x ^ 7 * (- x / sq x * dP (sq x))))
    with (- (P4 x * sq x ^ 5) * (x * (7 * P (sq x) + sq x * dP (sq x)))).
  2:{ field. lra. }
  rewrite E. unfold enhancement. fold (sq x). unfold CP. rewrite S2. field. lra.
Qed.

(** A polynomial whose [CP] is close to 1 is close to the merger time in units of the circular one. *)
Definition pr (e : R) : R := I514 e / (P4 e * sq e ^ 7).
Lemma P4_pos e : 0 < e < 1 -> 0 < P4 e.
Proof. intros He. rewrite P4_aeR by auto. pose proof (aeR_pos e 1 ltac:(lra) He). pos. Qed.
Lemma texR_pr b a e : 0 < b -> 0 < a -> 0 < e < 1 -> texR b a e = tmR b a * (sq e ^ 7 * pr e).
Proof.
  intros Hb Ha He. pose proof (P4_pos e He). pose proof (sq_pos e ltac:(lra)). pose proof (c0_P4 a e Ha He) as E.
  unfold texR, pr, tmR. replace (a ^ 4 / (4 * b)) with (a ^ 4 / 4 / b) by (field; lra). rewrite <- E. field.
  repeat split; try lra; apply Rgt_not_eq; pos.
Qed.
Section Poly.
Variable p : poly.
Let P (s : R) : R := pev p s.
Fixpoint pder (p : poly) : poly := match p with [] => [] | c :: q => padd q (0%Q :: pder q) end.
Lemma pev_derive q s : is_derive (pev q) s (pev (pder q) s).
Proof.
  induction q as [|c q IH]; cbn [pev pder].
  - apply (is_derive_const (V:=R_NormedModule)).
  - evar_last.
    { apply (is_derive_plus (V:=R_NormedModule) (fun _ => Q2R c) (fun s => s * pev q s)); [apply (is_derive_const (V:=R_NormedModule))|].
      apply (is_derive_mult (fun s => s) (pev q)); [apply is_derive_id|exact IH|intros; apply Rmult_comm]. }
    rewrite pev_add. cbn [pev]. rewrite Q2R_0. unfold plus, mult, zero, one; simpl. ring.
Qed.
Definition cpoly : poly :=
  let y := [1%Q; 0%Q; (-1)%Q] in
  padd (pmul (padd [1%Q] (padd (pscale (Qmake (73) 24) y) (pscale (Qmake (37) 96) (pmul y y)))) p)
       (pscale (Qmake (-19) 48) (pmul (pmul (padd [1%Q] (pscale (Qmake (121) 304) y)) y) (padd (0%Q :: pder p) (pscale (Qmake (7) 1) p)))).
Lemma Q2R_frac a b : Q2R (Qmake a b) = IZR a / IZR (Zpos b).
Proof. reflexivity. Qed.
Lemma cpoly_CP s : pev cpoly s = CP P (pev (pder p)) s.
Proof.
  unfold cpoly, CP, P. repeat (rewrite ?pev_add, ?pev_mul, ?pev_scale). cbn [pev]. rewrite !Q2R_frac. field.
Qed.
Lemma pev_continuous q s : continuous (pev q) s.
Proof. apply (ex_derive_continuous (V:=R_NormedModule)). eexists. apply pev_derive. Qed.
Lemma h_continuous k x : -1 < x < 1 -> continuous (fun x => p514 x * CP (fun s => k * P s) (fun s => k * pev (pder p) s) (sq x)) x.
Proof.
  intros Hx. apply (continuous_mult p514); [apply continuous_p514; auto|].
  apply (continuous_ext (fun x => k * pev cpoly (sq x))).
  { intros y. rewrite cpoly_CP. unfold CP. match goal with |- ?a = ?b => change (@eq R a b) end. ring. }
  apply (continuous_mult (fun _ => k) (fun x => pev cpoly (sq x))); [apply continuous_const|].
  apply (continuous_comp sq (pev cpoly)); [|apply pev_continuous].
  apply (ex_derive_continuous (V:=R_NormedModule)). eexists. now apply is_derive_sq.
Qed.
Lemma sq_le_1 x : 0 <= x < 1 -> 0 <= sq x <= 1.
Proof.
  intros Hx. split; [left; apply sq_pos; lra|]. unfold sq. apply Rle_trans with (sqrt 1); [|rewrite sqrt_1; lra].
  apply sqrt_le_1_alt.
  pose proof (pow2_ge_0 x). lra.
Qed.
Lemma CP_scale k s : CP (fun s => k * P s) (fun s => k * pev (pder p) s) s = k * pev cpoly s.
Proof. rewrite cpoly_CP. unfold CP. ring. Qed.
Lemma F_derive k x : -1 < x < 1 -> is_derive (fun x => P4 x * (sq x ^ 7 * (k * P (sq x)))) x
  (p514 x * CP (fun s => k * P s) (fun s => k * pev (pder p) s) (sq x)).
Proof.
  intros Hx. apply (derive_F (fun s => k * P s) (fun s => k * pev (pder p) s)); auto.
  apply (is_derive_scal P). apply pev_derive.
Qed.
Lemma pr_ge k e : 0 < e < 1 -> (forall s, 0 <= s <= 1 -> k * pev cpoly s <= 1) -> k * pev p (sq e) <= pr e.
Proof.
  intros He H. pose proof (P4_pos e He) as P0. pose proof (sq_pos e ltac:(lra)) as S0.
  assert (W : 0 < P4 e * sq e ^ 7) by pos.
  assert (G : P4 e * (sq e ^ 7 * (k * P (sq e))) <= I514 e).
  { apply (I514_ge (fun x => P4 x * (sq x ^ 7 * (k * P (sq x))))
             (fun x => p514 x * CP (fun s => k * P s) (fun s => k * pev (pder p) s) (sq x))); try lra.
    - rewrite P4_0. ring.
    - intros x Hx. apply F_derive. lra.
    - intros x Hx. apply h_continuous. lra.
    - intros x Hx. rewrite CP_scale. pose proof (p514_nonneg x). pose proof (H (sq x) (sq_le_1 x ltac:(lra))). nra. }
  unfold pr. apply Rmult_le_reg_r with (P4 e * sq e ^ 7); auto.
  replace (I514 e / (P4 e * sq e ^ 7) * (P4 e * sq e ^ 7)) with (I514 e) by (field; split; apply Rgt_not_eq; auto; pos).
  replace (k * pev p (sq e) * (P4 e * sq e ^ 7)) with (P4 e * (sq e ^ 7 * (k * P (sq e)))); auto. unfold P. ring.
Qed.
Lemma pr_le k e : 0 < e < 1 -> (forall s, 0 <= s <= 1 -> 1 <= k * pev cpoly s) -> pr e <= k * pev p (sq e).
Proof.
  intros He H. pose proof (P4_pos e He) as P0. pose proof (sq_pos e ltac:(lra)) as S0.
  assert (W : 0 < P4 e * sq e ^ 7) by pos.
  assert (G : I514 e <= P4 e * (sq e ^ 7 * (k * P (sq e)))).
  { apply (I514_le (fun x => P4 x * (sq x ^ 7 * (k * P (sq x))))
             (fun x => p514 x * CP (fun s => k * P s) (fun s => k * pev (pder p) s) (sq x))); try lra.
    - rewrite P4_0. ring.
    - intros x Hx. apply F_derive. lra.
    - intros x Hx. apply h_continuous. lra.
    - intros x Hx. rewrite CP_scale. pose proof (p514_nonneg x). pose proof (H (sq x) (sq_le_1 x ltac:(lra))). nra. }
  unfold pr. apply Rmult_le_reg_r with (P4 e * sq e ^ 7); auto.
  replace (I514 e / (P4 e * sq e ^ 7) * (P4 e * sq e ^ 7)) with (I514 e) by (field; split; apply Rgt_not_eq; auto; pos).
  replace (k * pev p (sq e) * (P4 e * sq e ^ 7)) with (P4 e * (sq e ^ 7 * (k * P (sq e)))); auto. unfold P. ring.
Qed.
End Poly.

(** ** Three polynomials *)
Definition p_mid : poly := [Qmake 768 425; Qmake (-262989) 100000; Qmake 3023 800; Qmake (-418121) 100000;
                            Qmake 379983 100000; Qmake (-43387) 20000; Qmake 1487 2500].
Definition p_low : poly := [Qmake 768 425; Qmake (-2679) 1000; Qmake 686592 180625; Qmake (-4201) 1000; Qmake 3293 1000;
                            Qmake (-1071) 1000].
Definition p_top : poly := [Qmake 768 425].
Lemma mid_check : nonneg 12 (padd [Qmake 4001 4000] (pscale (-1) (cpoly p_mid)))
                  && nonneg 12 (padd (cpoly p_mid) [Qmake (-3999) 4000]) = true.
Proof. vm_compute. reflexivity. Qed.
(** 1 - C vanishes to third order at 0 *)
Definition low_rest : poly := skipn 3 (padd [1%Q] (pscale (-1) (cpoly p_low))).
Lemma low_check : nonneg 12 low_rest = true /\ firstn 3 (padd [1%Q] (pscale (-1) (cpoly p_low))) = [0%Q; 0%Q; 0%Q].
Proof. split; vm_compute; reflexivity. Qed.
Definition top_rest : poly := skipn 2 (padd (cpoly p_top) [(-1)%Q]).
Lemma top_check : nonneg 12 top_rest = true /\ firstn 2 (padd (cpoly p_top) [(-1)%Q]) = [0%Q; 0%Q].
Proof. split; vm_compute; reflexivity. Qed.

Lemma pev_split n q x : pev q x = pev (firstn n q) x + x ^ n * pev (skipn n q) x.
Proof.
  revert q. induction n as [|n IH]; intros q; [cbn; ring|]. destruct q as [|c q]; [cbn; ring|].
  cbn [firstn skipn pev pow]. rewrite (IH q). ring.
Qed.
Lemma low_C s : 0 <= s <= 1 -> pev (cpoly p_low) s <= 1.
Proof.
  intros Hs. destruct low_check as [A B]. pose proof (nonneg_correct _ _ A s Hs) as N.
  pose proof (pev_split 3 (padd [1%Q] (pscale (-1) (cpoly p_low))) s) as E. rewrite B in E. fold low_rest in E.
  rewrite pev_add, pev_scale in E. cbn [pev] in E. rewrite Q2R_0, Q2R_1 in E.
  replace (Q2R (-1)) with (-1) in E by (unfold Q2R; simpl; lra).
  assert (0 <= s ^ 3) by (apply pow_le; lra). nra.
Qed.
Lemma top_C s : 0 <= s <= 1 -> 1 <= pev (cpoly p_top) s.
Proof.
  intros Hs. destruct top_check as [A B]. pose proof (nonneg_correct _ _ A s Hs) as N.
  pose proof (pev_split 2 (padd (cpoly p_top) [(-1)%Q]) s) as E. rewrite B in E. fold top_rest in E.
  rewrite pev_add in E. cbn [pev] in E. rewrite Q2R_0 in E.
  replace (Q2R (-1)) with (-1) in E by (unfold Q2R; simpl; lra).
  assert (0 <= s ^ 2) by (apply pow_le; lra). nra.
Qed.
Lemma mid_C s : 0 <= s <= 1 -> 3999/4000 <= pev (cpoly p_mid) s <= 4001/4000.
Proof.
  intros Hs. pose proof mid_check as C. apply andb_true_iff in C. destruct C as [A B].
  apply nonneg_correct with (x := s) in A; auto. apply nonneg_correct with (x := s) in B; auto.
  rewrite pev_add, pev_scale in A. rewrite pev_add in B. cbn [pev] in A, B. rewrite !Q2R_frac in *.
  replace (Q2R (-1)) with (-1) in A by (unfold Q2R; simpl; lra). lra.
Qed.
Lemma pr_mid e : 0 < e < 1 -> 4000/4001 * pev p_mid (sq e) <= pr e <= 4000/3999 * pev p_mid (sq e).
Proof.
  intros He. split; [apply pr_ge|apply pr_le]; auto; intros s Hs; pose proof (mid_C s Hs); lra.
Qed.
Lemma pr_top e : 0 < e < 1 -> pr e <= 768/425.
Proof.
  intros He. pose proof (pr_le p_top 1 e He) as H. cbn [pev p_top] in H. rewrite Q2R_frac in H.
  apply Rle_trans with (1 * (768/425 + sq e * 0)); [|lra]. apply H. intros s Hs. pose proof (top_C s Hs). lra.
Qed.
Lemma pr_low e : 9/10 <= e < 1 -> 768/425 * (1 - 3/2 * sq e) <= pr e.
Proof.
  intros He. pose proof (pr_ge p_low 1 e ltac:(lra)) as H. cbn [pev p_low] in H. rewrite !Q2R_frac in H.
  assert (S : 0 <= sq e <= 1/2).
  { split; [left; apply sq_pos; lra|]. apply Rsqr_incr_0_var; [|lra]. rewrite !Rsqr_pow2, sq_2 by lra. simpl. nra. }
  refine (Rle_trans _ _ _ _ (H _)); [|intros s Hs; pose proof (low_C s Hs); lra].
  set (s := sq e) in *. clearbody s. assert (S2 : 0 <= s * s) by nra. assert (S4 : 0 <= s * s * (s * s)) by nra.
  assert (A : 0 <= s * s * (686592/180625 - 4201/1000 * s)) by (apply Rmult_le_pos; lra).
  assert (B : 0 <= s * s * (s * s) * (3293/1000 - 1071/1000 * s)) by (apply Rmult_le_pos; lra).
  lra.
Qed.
(** Small eccentricities. *)
Lemma I514_small_low e : 0 < e < 1 -> 19/48 * Rpower e (48/19) <= I514 e.
Proof.
  intros He. rewrite <- (pw_pos _ e) by lra.
  apply (I514_ge (fun x => 19/48 * pw (48/19) x) (fun x => pw (29/19) x)); try lra.
  - rewrite pw_neg by lra. ring.
  - intros x Hx. evar_last; [apply is_derive_scal, is_derive_pw; lra|].
    replace (48/19 - 1) with (29/19) by field. field.
  - intros x Hx. apply continuous_pw. lra.
  - intros x Hx. unfold p514. destruct (e_facts x ltac:(lra)) as [A B].
    assert (1 <= Rpower (1 + 121/304 * x ^ 2) (1181/2299)).
    { apply Rle_trans with (Rpower 1 (1181/2299)); [rewrite Rpower_1_base; lra|]. apply Rpower_mono_base_le; [|lra].
      assert (0 <= x ^ 2) by (apply pow_le; lra). lra. }
    assert (0 < Rpower (1 - x ^ 2) (3/2) <= 1).
    { split; [apply Rpower_pos|]. apply Rle_trans with (Rpower 1 (3/2)); [|rewrite Rpower_1_base; lra].
      apply Rpower_mono_base_le; [|lra]. assert (0 <= x ^ 2) by (apply pow_le; lra). split; lra. }
    pose proof (pw_nonneg (29/19) x).
    assert (1 <= / Rpower (1 - x ^ 2) (3/2)) by (apply Rle_trans with (/ 1); [rewrite Rinv_1; lra|apply Rinv_le_contravar; lra]).
    unfold Rdiv. assert (pw (29/19) x * 1 <= pw (29/19) x * Rpower (1 + 121/304 * x ^ 2) (1181/2299)) by (apply Rmult_le_compat_l; lra).
    nra.
Qed.
Lemma small_weight y : 0 <= y <= 225/10000 ->
  Rpower (1 + 121/304 * y) (1181/2299) / Rpower (1 - y) (3/2) <= 1 + 51 * 43 / 1200 * y.
Proof.
  intros Hy. set (k := 1181/2299 * (121/304)).
  assert (V : Rpower (1 + 121/304 * y) (1181/2299) <= / (1 - k * y)).
  { assert (L : ln (1 + 121/304 * y) <= 121/304 * y).
    { rewrite <- (ln_exp (121/304 * y)) at 2. destruct (Req_dec y 0) as [->|Hy0].
      - rewrite Rmult_0_r, Rplus_0_r, exp_0. lra.
      - apply ln_le; [lra|]. apply exp_ineq1_le. }
    apply Rle_trans with (exp (k * y)).
    - unfold Rpower. assert (1181/2299 * ln (1 + 121/304 * y) <= k * y) by (unfold k; lra).
      destruct H as [H|H]; [left; now apply exp_increasing|right; now rewrite H].
    - assert (0 < 1 - k * y) by (unfold k; lra). pose proof (exp_ineq1_le (- (k * y))) as X.
      rewrite exp_Ropp in X. rewrite <- (Rinv_inv (exp (k * y))). apply Rinv_le_contravar; lra. }
  assert (U : (1 - y) * (1 - 51/100 * y) <= Rpower (1 - y) (3/2)).
  { replace (3/2) with (1 + /2) by field. rewrite Rpower_plus, Rpower_1, Rpower_sqrt by lra.
    apply Rmult_le_compat_l; [lra|]. rewrite <- (sqrt_pow2 (1 - 51/100 * y)) by lra. apply sqrt_le_1_alt. nra. }
  assert (D : 0 < (1 - y) * (1 - 51/100 * y)) by (apply Rmult_lt_0_compat; lra).
  assert (K : 0 < 1 - k * y) by (unfold k; lra).
  apply Rle_trans with (/ (1 - k * y) * / ((1 - y) * (1 - 51/100 * y))).
  - unfold Rdiv. apply Rmult_le_compat; auto; [left; apply Rpower_pos|left; apply Rinv_0_lt_compat, Rpower_pos|].
    apply Rinv_le_contravar; auto.
  - rewrite <- Rinv_mult. apply Rmult_le_reg_r with ((1 - k * y) * ((1 - y) * (1 - 51/100 * y))); [now apply Rmult_lt_0_compat|].
    rewrite Rinv_l by (apply Rgt_not_eq; now apply Rmult_lt_0_compat).
    assert (B : 0 <= y * (225/10000 - y)) by (apply Rmult_le_pos; lra).
    assert (B2 : 0 <= y * y) by nra. assert (B3 : 0 <= y * y * (225/10000 - y)) by (apply Rmult_le_pos; lra).
    assert (B4 : 0 <= y * y * y * (225/10000 - y)) by (apply Rmult_le_pos; [nra|lra]).
    unfold k. nra.
Qed.
Lemma I514_small_up e : 0 < e <= 15/100 -> I514 e <= 19/48 * Rpower e (48/19) * (1 + 51/50 * e ^ 2).
Proof.
  intros He. rewrite <- (pw_pos _ e) by lra.
  apply (I514_le (fun x => 19/48 * pw (48/19) x * (1 + 51/50 * x ^ 2)) (fun x => pw (29/19) x * (1 + 51 * 43 / 1200 * x ^ 2))); try lra.
  - rewrite pw_neg by lra. ring.
  - intros x Hx. evar_last.
    { apply (is_derive_mult (fun x => 19/48 * pw (48/19) x) (fun x => 1 + 51/50 * x ^ 2)); [|auto_derive; [auto|reflexivity]|intros; apply Rmult_comm].
      apply is_derive_scal, is_derive_pw; lra. }
    unfold plus, mult; cbn -[pow]. replace (48/19 - 1) with (29/19) by field.
    assert (E0 : pw (48/19) x = x * pw (29/19) x).
    { unfold pw. destruct (Rle_dec x 0); [ring|]. replace (48/19) with (1 + 29/19) by field.
      rewrite Rpower_plus, Rpower_1 by lra. reflexivity. }
    rewrite E0. simpl. field.
  - intros x Hx. apply (continuous_mult (pw (29/19)) (fun x => 1 + 51 * 43 / 1200 * x ^ 2)); [apply continuous_pw; lra|].
    apply (ex_derive_continuous (V:=R_NormedModule)). auto_derive. auto.
  - intros x Hx. unfold p514. unfold Rdiv at 1. rewrite Rmult_assoc. apply Rmult_le_compat_l; [apply pw_nonneg|].
    apply (small_weight (x ^ 2)). split; [apply pow_le; lra|]. simpl. nra.
Qed.
