(** MergeFacts.v -- proofs about de_dt and the eccentric merger times. *)
From Coq Require Import String Reals ZArith List Bool Lra Lia.
From Coquelicot Require Import Coquelicot.
From Verif Require Import Num NumFacts Np NpFacts Utils Spec UtilsFacts Evol EvolSpec EvolFacts.
Import ListNotations.
Open Scope R_scope.

(** ** de_dt *)
Definition dedtR b c0 e := -19/12 * b / c0 ^ 4 * (Rpower e (-29/19) * Rpower (1 - e ^ 2) (3/2))
                           / Rpower (1 + 121/304 * e ^ 2) (1181/2299).
Lemma de_dt_fin b c0 e : 0 < c0 -> 0 < e < 1 -> de_dt (Fin b) (Fin c0) (Fin e) = Fin (dedtR b c0 e).
Proof.
  intros Hc He. destruct (e_facts e He) as [A B]. unfold de_dt.
  rewrite npowi4, npowi2, !nmul_fin, nadd_fin, nsub_fin, ndiv_fin by nz.
  rewrite !npowr_fin by (auto; lra). rewrite !nmul_fin, ndiv_fin by nz. reflexivity.
Qed.
Lemma dedtR_neg b c0 e : 0 < b -> 0 < c0 -> 0 < e < 1 -> dedtR b c0 e < 0.
Proof.
  intros Hb Hc He. destruct (e_facts e He) as [A B]. unfold dedtR.
  assert (0 < b / c0 ^ 4 * (Rpower e (-29/19) * Rpower (1 - e ^ 2) (3/2))
            / Rpower (1 + 121/304 * e ^ 2) (1181/2299)) by pos.
  unfold Rdiv in *. nra.
Qed.
Lemma betaR_SI m1 m2 : betaR m1 m2 = 64/5 * G_SI ^ 3 / c_SI ^ 5 * m1 * m2 * (m1 + m2).
Proof. unfold betaR. now rewrite G_SI_Ggrav, c_SI_clight. Qed.
(** de_dt is Peters' (5.7) at the separation belonging to (e, c0). *)
Lemma dedtR_peters m1 m2 c0 e : 0 < m1 -> 0 < m2 -> 0 < c0 -> 0 < e < 1 ->
  dedtR (betaR m1 m2) c0 e = peters_de_dt m1 m2 (aeR e c0) e.
Proof.
  intros H1 H2 Hc He. destruct (e_facts e He) as [A B]. pose proof (aeR_pos e c0 Hc He) as Ha.
  pose proof (betaR_pos m1 m2 H1 H2) as Hb. pose proof clight_pos. 
  assert (S : 0 < sqrt (1 - e ^ 2)) by now apply sqrt_lt_R0.
  assert (E : peters_de_dt m1 m2 (aeR e c0) e =
     - (19/12 * betaR m1 m2 * e / (aeR e c0 ^ 4 * Rpower (1 - e ^ 2) (5/2)) * (1 + 121/304 * e ^ 2))).
  { unfold peters_de_dt. rewrite Rpower_52 by auto. unfold betaR. rewrite G_SI_Ggrav, c_SI_clight.
    field. repeat split; lra. }
  rewrite E. unfold dedtR.
  replace (-19/12 * betaR m1 m2 / c0 ^ 4 * (Rpower e (-29/19) * Rpower (1 - e ^ 2) (3/2))
             / Rpower (1 + 121/304 * e ^ 2) (1181/2299))
    with (- (19/12 * betaR m1 m2 / c0 ^ 4 * (Rpower e (-29/19) * Rpower (1 - e ^ 2) (3/2))
             / Rpower (1 + 121/304 * e ^ 2) (1181/2299))) by (field; repeat split; (apply Rpower_neq0 || lra)).
  f_equal. destruct He. apply eq_by_ln; try pos. unfold aeR. lnexp. lra.
Qed.

(** derivative of aeR along a trajectory e(t) *)
Lemma aeR_alt e c0 : 0 < c0 -> 0 < e < 1 ->
  aeR e c0 = exp (ln c0 + 12/19 * ln e - ln (1 - e ^ 2) + 870/2299 * ln (1 + 121/304 * e ^ 2)).
Proof.
  intros Hc He. destruct (e_facts e He) as [A B]. pose proof (aeR_pos e c0 Hc He). destruct He.
  apply eq_by_ln; try pos. rewrite ln_exp. unfold aeR. lnexp. lra.
Qed.
Lemma is_derive_aeR c0 e : 0 < c0 -> 0 < e < 1 ->
  is_derive (fun x => aeR x c0) e
    (aeR e c0 * (12/19 * (1 + 73/24 * e ^ 2 + 37/96 * e ^ 4) / (e * (1 - e ^ 2) * (1 + 121/304 * e ^ 2)))).
Proof.
  intros Hc He. destruct (e_facts e He) as [A B].
  apply (is_derive_ext_loc (fun x => exp (ln c0 + 12/19 * ln x - ln (1 - x ^ 2) + 870/2299 * ln (1 + 121/304 * x ^ 2)))).
  { assert (L : locally e (fun x => 0 < x < 1)).
    { apply filter_and; [apply (open_gt 0)|apply (open_lt 1)]; lra. }
    revert L. apply filter_imp. intros x Hx. symmetry. now apply aeR_alt. }
  rewrite (aeR_alt e c0) by auto. set (E := exp _).
  auto_derive.
  - simpl in *. repeat split; lra.
  - fold E. replace (exp _) with E by (unfold E; f_equal; ring). 
    simpl. field. simpl in A, B. repeat split; lra.
Qed.
Lemma dedt_to_dadt m1 m2 c0 e : 0 < m1 -> 0 < m2 -> 0 < c0 -> 0 < e < 1 ->
  aeR e c0 * (12/19 * (1 + 73/24 * e ^ 2 + 37/96 * e ^ 4) / (e * (1 - e ^ 2) * (1 + 121/304 * e ^ 2)))
  * dedtR (betaR m1 m2) c0 e = peters_da_dt m1 m2 (aeR e c0) e.
Proof.
  intros H1 H2 Hc He. destruct (e_facts e He) as [A B]. pose proof (aeR_pos e c0 Hc He) as Ha.
  rewrite dedtR_peters by auto. unfold peters_de_dt, peters_da_dt. rewrite G_SI_Ggrav, c_SI_clight.
  pose proof clight_pos. assert (S : 0 < sqrt (1 - e ^ 2)) by now apply sqrt_lt_R0.
  assert (SS : sqrt (1 - e ^ 2) * sqrt (1 - e ^ 2) = 1 - e ^ 2) by (apply sqrt_sqrt; lra).
  replace (sqrt (1 - e ^ 2) ^ 7) with (sqrt (1 - e ^ 2) ^ 5 * (1 - e ^ 2)) by (rewrite <- SS at 2; ring).
  set (s := sqrt (1 - e ^ 2)) in *. clearbody s. set (aa := aeR e c0) in *. clearbody aa.
  field. repeat split; lra.
Qed.

Lemma follows_unfold b c0 T e t : 0 < c0 -> follows_de_dt b c0 T e -> 0 <= t <= T ->
  0 < e t < 1 /\ is_derive e t (dedtR b c0 (e t)).
Proof.
  intros Hc H Ht. destruct (H t Ht) as [He [d [E D]]]. split; auto.
  rewrite de_dt_fin in E by auto. apply Fin_inj in E. now subst d.
Qed.
Lemma follows_inspiral m1 m2 c0 T e : 0 < m1 -> 0 < m2 -> 0 < c0 ->
  follows_de_dt (betaR m1 m2) c0 T e -> peters_inspiral m1 m2 T (fun t => aeR (e t) c0) e.
Proof.
  intros H1 H2 Hc H t Ht. destruct (follows_unfold _ _ _ _ _ Hc H Ht) as [He D].
  split; [now apply aeR_pos|]. split; [lra|]. split.
  - rewrite <- dedt_to_dadt by auto. rewrite Rmult_comm.
    apply (is_derive_comp (fun x => aeR x c0) e); auto. now apply is_derive_aeR.
  - rewrite <- dedtR_peters by auto. exact D.
Qed.

(** ** Powers extended by 0 to the non-positive half line *)
Definition pw (p x : R) : R := if Rle_dec x 0 then 0 else Rpower x p.
Lemma pw_pos p x : 0 < x -> pw p x = Rpower x p.
Proof. intros H. unfold pw. destruct (Rle_dec x 0); auto; lra. Qed.
Lemma pw_neg p x : x <= 0 -> pw p x = 0.
Proof. intros H. unfold pw. destruct (Rle_dec x 0); auto; lra. Qed.
Lemma pw_nonneg p x : 0 <= pw p x.
Proof. unfold pw. destruct (Rle_dec x 0); [lra|]. left. apply Rpower_pos. Qed.
Lemma Rpower_small q eps : 0 < q -> 0 < eps -> forall h, 0 < h < Rpower eps (/ q) -> Rpower h q < eps.
Proof.
  intros Hq He h Hh. replace eps with (Rpower (Rpower eps (/ q)) q).
  - now apply Rpower_mono_base.
  - rewrite Rpower_mult. replace (/ q * q) with 1 by (field; lra). now apply Rpower_1.
Qed.
Lemma is_derive_pw p x : 1 < p -> is_derive (pw p) x (p * pw (p - 1) x).
Proof.
  intros Hp. destruct (Rtotal_order x 0) as [N|[->|P]].
  - rewrite pw_neg, Rmult_0_r by lra.
    apply (is_derive_ext_loc (fun _ => 0)).
    + assert (L : locally x (fun y => y < 0)) by (apply (open_lt 0); auto).
      revert L. apply filter_imp. intros y Hy. now rewrite pw_neg by lra.
    + apply (is_derive_const (K := R_AbsRing) (V := R_NormedModule) 0 x).
  - rewrite pw_neg, Rmult_0_r by lra. apply is_derive_Reals. intros eps He.
    assert (D : 0 < Rpower eps (/ (p - 1))) by apply Rpower_pos.
    exists (mkposreal _ D). intros h Hh Hd. simpl in Hd.
    rewrite Rplus_0_l, (pw_neg p 0), !Rminus_0_r by lra.
    destruct (Rle_lt_dec h 0) as [H0|H0].
    + rewrite pw_neg by auto. unfold Rdiv. rewrite Rmult_0_l, Rabs_R0. exact He.
    + rewrite pw_pos by auto. rewrite Rabs_pos_eq in Hd by lra.
      replace (Rpower h p / h) with (Rpower h (p - 1)).
      * rewrite Rabs_pos_eq by (left; apply Rpower_pos). apply Rpower_small; lra.
      * unfold Rminus. rewrite Rpower_plus, Rpower_Ropp, Rpower_1 by auto. reflexivity.
  - rewrite pw_pos by auto.
    apply (is_derive_ext_loc (fun y => Rpower y p)).
    + assert (L : locally x (fun y => 0 < y)) by (apply (open_gt 0); auto).
      revert L. apply filter_imp. intros y Hy. now rewrite pw_pos by lra.
    + now apply is_derive_Rpower.
Qed.
Lemma continuous_pw p x : 1 < p -> continuous (pw p) x.
Proof.
  intros Hp. apply (ex_derive_continuous (K := R_AbsRing) (V := R_NormedModule)). eexists. now apply is_derive_pw.
Qed.

(** ** The integrand of Peters (5.14) and its integral *)
Definition p514 x := pw (29/19) x * Rpower (1 + 121/304 * x ^ 2) (1181/2299) / Rpower (1 - x ^ 2) (3/2).
Lemma p514_fin x : 0 <= x < 1 -> peters_5_14 (Fin x) = Fin (p514 x).
Proof.
  intros Hx. destruct (e_facts0 x Hx) as [A B]. unfold peters_5_14, p514.
  rewrite npowi2, nmul_fin, nadd_fin, nsub_fin, (npowr_fin (1 + _)), (npowr_fin (1 - _)) by auto.
  destruct Hx as [[Hx| <-] Hx1].
  - rewrite npowr_fin, pw_pos by auto. rewrite nmul_fin, ndiv_fin by nz. reflexivity.
  - rewrite npowr_0_pos, pw_neg by lra. rewrite nmul_fin, ndiv_fin by nz. reflexivity.
Qed.
Lemma p514_nonneg x : 0 <= p514 x.
Proof.
  unfold p514. apply Rmult_le_pos; [apply Rmult_le_pos; [apply pw_nonneg|]|]; apply Rlt_le; pos.
Qed.
Lemma p514_pos x : 0 < x -> 0 < p514 x.
Proof. intros H. unfold p514. rewrite pw_pos by auto. pos. Qed.
Lemma continuous_p514 x : -1 < x < 1 -> continuous p514 x.
Proof.
  intros Hx. assert (A : 0 < 1 - x ^ 2) by (simpl; nra). assert (B : 0 < 1 + 121/304 * x ^ 2) by (simpl; nra).
  unfold p514. apply (ex_derive_continuous (K := R_AbsRing) (V := R_NormedModule)). unfold Rdiv.
  apply ex_derive_mult; [apply ex_derive_mult|].
  - eexists. apply is_derive_pw. lra.
  - unfold Rpower. auto_derive. simpl in *. lra.
  - unfold Rpower. auto_derive. split; [simpl in *; lra|]. split; auto. apply Rgt_not_eq. apply exp_pos.
Qed.
(** antiderivative of p514 * enhancement *)
Definition P4 x := 19/48 * (pw (48/19) x * (Rpower (1 - x ^ 2) (-4) * Rpower (1 + 121/304 * x ^ 2) (3480/2299))).
Lemma P4_aeR e : 0 < e < 1 -> P4 e = 19/48 * aeR e 1 ^ 4.
Proof.
  intros He. destruct (e_facts e He) as [A B]. pose proof (aeR_pos e 1 ltac:(lra) He). unfold P4.
  rewrite pw_pos by lra. f_equal. destruct He. apply eq_by_ln; try pos. unfold aeR. lnexp. rewrite ln_1. lra.
Qed.
Lemma is_derive_P4 x : -1 < x < 1 -> is_derive P4 x (p514 x * enhancement x).
Proof.
  intros Hx. assert (A : 0 < 1 - x ^ 2) by (simpl; nra). assert (B : 0 < 1 + 121/304 * x ^ 2) by (simpl; nra).
  assert (D1 : is_derive (fun x => Rpower (1 - x ^ 2) (-4)) x ((- (2 * x)) * (-4 * Rpower (1 - x ^ 2) (-4 - 1)))).
  { apply (is_derive_Rpower_comp (fun x => 1 - x ^ 2)); auto. auto_derive; auto. ring. }
  assert (D2 : is_derive (fun x => Rpower (1 + 121/304 * x ^ 2) (3480/2299)) x
             ((121/152 * x) * (3480/2299 * Rpower (1 + 121/304 * x ^ 2) (3480/2299 - 1)))).
  { apply (is_derive_Rpower_comp (fun x => 1 + 121/304 * x ^ 2)); auto. auto_derive; auto. field. }
  assert (D0 : is_derive (pw (48/19)) x (48/19 * pw (48/19 - 1) x)) by (apply is_derive_pw; lra).
  unfold P4. evar_last.
  { apply is_derive_scal. apply (is_derive_mult (pw (48/19))); [exact D0| |intros; apply Rmult_comm].
    apply (is_derive_mult (fun x => Rpower (1 - x ^ 2) (-4))); [exact D1|exact D2|intros; apply Rmult_comm]. }
  unfold plus, mult; cbn -[pow Rpower].
  replace (48/19 - 1) with (29/19) by field.
  assert (E0 : pw (48/19) x = x * pw (29/19) x).
  { unfold pw. destruct (Rle_dec x 0); [ring|]. replace (48/19) with (1 + 29/19) by field.
    rewrite Rpower_plus, Rpower_1 by lra. reflexivity. }
  rewrite E0. unfold p514, enhancement. rewrite <- Rpower_72 by auto.
  set (u := 1 - x ^ 2) in *. set (v := 1 + 121/304 * x ^ 2) in *.
  replace (3480/2299) with (1181/2299 + 1) by field. replace (1181/2299 + 1 - 1) with (1181/2299) by ring.
  rewrite (Rpower_plus (1181/2299) 1 v), (Rpower_1 v) by auto.
  replace (Rpower u (-4 - 1)) with (/ (Rpower u (3/2) * Rpower u (7/2))).
  2:{ rewrite <- Rpower_plus, <- Rpower_Ropp. f_equal. field. }
  replace (Rpower u (-4)) with (u / (Rpower u (3/2) * Rpower u (7/2))).
  2:{ rewrite <- Rpower_plus. unfold Rdiv. rewrite <- Rpower_Ropp. rewrite <- (Rpower_1 u) at 1 by auto.
      rewrite <- Rpower_plus. f_equal. field. }
  set (p := pw (29/19) x). set (V := Rpower v (1181/2299)).
  assert (HU1 : Rpower u (3/2) <> 0) by apply Rpower_neq0. assert (HU2 : Rpower u (7/2) <> 0) by apply Rpower_neq0.
  set (U1 := Rpower u (3/2)) in *. set (U2 := Rpower u (7/2)) in *. clearbody U1 U2 p V.
  unfold u, v. field. auto.
Qed.
Lemma P4_0 : P4 0 = 0.
Proof. unfold P4. rewrite pw_neg by lra. ring. Qed.

Definition I514 (e : R) : R := RInt p514 0 e.
Lemma ex_RInt_p514 a b : -1 < a -> a <= b -> b < 1 -> ex_RInt p514 a b.
Proof.
  intros. apply (ex_RInt_continuous (V := R_CompleteNormedModule)). intros z Hz.
  rewrite Rmin_left, Rmax_right in Hz by auto. apply continuous_p514. lra.
Qed.
Lemma continuous_p514_enh x : 0 <= x < 1 -> continuous (fun y => p514 y * enhancement y) x.
Proof.
  intros Hx. destruct (e_facts0 x Hx) as [A B].
  apply (continuous_mult p514 enhancement); [apply continuous_p514; lra|].
  apply (ex_derive_continuous (K := R_AbsRing) (V := R_NormedModule)). unfold enhancement. auto_derive.
  split; [simpl in *; lra|]. split; auto. apply Rgt_not_eq.
  assert (0 < sqrt (1 - x ^ 2)) by now apply sqrt_lt_R0. simpl in *. pos.
Qed.
Lemma RInt_p514_enh e : 0 <= e < 1 -> is_RInt (fun x => p514 x * enhancement x) 0 e (P4 e).
Proof.
  intros He. replace (P4 e) with (minus (P4 e) (P4 0)).
  2:{ rewrite P4_0. unfold minus, plus, opp; simpl. ring. }
  apply (is_RInt_derive P4 (fun x => p514 x * enhancement x)).
  - intros x Hx. rewrite Rmin_left, Rmax_right in Hx by lra. apply is_derive_P4. lra.
  - intros x Hx. rewrite Rmin_left, Rmax_right in Hx by lra. apply continuous_p514_enh. lra.
Qed.
Lemma I514_upper e : 0 <= e < 1 -> I514 e <= P4 e.
Proof.
  intros He. rewrite <- (is_RInt_unique _ _ _ _ (RInt_p514_enh e He)). unfold I514.
  apply RInt_le; [lra|apply ex_RInt_p514; lra|eexists; apply RInt_p514_enh; auto|].
  intros x Hx. pose proof (p514_nonneg x). pose proof (enhancement_ge_1 x ltac:(lra)). nra.
Qed.
Lemma I514_lower e : 0 <= e < 1 -> P4 e / enhancement e <= I514 e.
Proof.
  intros He. pose proof (enhancement_pos e He) as Hp.
  assert (E : P4 e <= enhancement e * I514 e).
  { rewrite <- (is_RInt_unique _ _ _ _ (RInt_p514_enh e He)). unfold I514.
    rewrite <- (RInt_scal (V := R_CompleteNormedModule)) by (apply ex_RInt_p514; lra).
    apply RInt_le; [lra|eexists; apply RInt_p514_enh; auto| |].
    - apply (ex_RInt_scal (V := R_CompleteNormedModule)). apply ex_RInt_p514; lra.
    - intros x Hx. unfold scal; simpl; unfold mult; simpl. rewrite Rmult_comm.
      apply Rmult_le_compat_r; [apply p514_nonneg|]. left. apply enhancement_mono; lra. }
  unfold Rdiv. apply Rmult_le_reg_l with (enhancement e); auto.
  replace (enhancement e * (P4 e * / enhancement e)) with (P4 e) by (field; lra). lra.
Qed.
Lemma I514_pos e : 0 < e < 1 -> 0 < I514 e.
Proof.
  intros He. apply Rlt_le_trans with (P4 e / enhancement e); [|apply I514_lower; lra].
  pose proof (enhancement_pos e ltac:(lra)). rewrite P4_aeR by auto.
  pose proof (aeR_pos e 1 ltac:(lra) He). pos.
Qed.
Lemma is_derive_I514 e : 0 < e < 1 -> is_derive I514 e (p514 e).
Proof.
  intros He. unfold I514. apply (is_derive_RInt p514 (fun b => RInt p514 0 b) 0 e).
  - assert (L : locally e (fun x => 0 < x < 1)).
    { apply filter_and; [apply (open_gt 0)|apply (open_lt 1)]; lra. }
    revert L. apply filter_imp. intros x Hx. apply (RInt_correct (V := R_CompleteNormedModule)).
    apply ex_RInt_p514; lra.
  - apply continuous_p514. lra.
Qed.

Definition quad_model : quad_t := fun f a b =>
  match a, b with
  | Fin x, Fin y => Fin (RInt (fun z => match f (Fin z) with Fin r => r | _ => 0 end) x y)
  | _, _ => NaN
  end.
Lemma quad_model_exact : quad_exact quad_model.
Proof.
  intros f g a b Hab Hf Hc. unfold quad_model. f_equal. apply RInt_ext. intros x Hx.
  rewrite Rmin_left, Rmax_right in Hx by auto. rewrite Hf by lra. reflexivity.
Qed.
Lemma quad_p514 quad e : quad_exact quad -> 0 <= e < 1 -> quad peters_5_14 (Fin 0) (Fin e) = Fin (I514 e).
Proof.
  intros HQ He. apply (HQ peters_5_14 p514 0 e); [lra| |].
  - intros x Hx. apply p514_fin. lra.
  - intros x Hx. apply continuous_p514. lra.
Qed.

(** ** The formulas in terms of the circular merger time *)
Lemma t_exact_fin quad c0 b e : quad_exact quad -> 0 < b -> 0 <= e < 1 ->
  t_exact quad (Fin c0) (Fin b) (Fin e) = Fin (12/19 * c0 ^ 4 / b * I514 e).
Proof.
  intros HQ Hb He. unfold t_exact. rewrite npowi4, nmul_fin, ndiv_fin by lra. rewrite quad_p514 by auto.
  now rewrite nmul_fin.
Qed.
Lemma aeR_scale e c0 : aeR e c0 = c0 * aeR e 1.
Proof. unfold aeR, Rdiv. ring. Qed.
Lemma c0_P4 a e : 0 < a -> 0 < e < 1 -> 12/19 * c0R a e ^ 4 * P4 e = a ^ 4 / 4.
Proof.
  intros Ha He. rewrite P4_aeR by auto.
  replace (12/19 * c0R a e ^ 4 * (19/48 * aeR e 1 ^ 4)) with ((c0R a e * aeR e 1) ^ 4 / 4) by field.
  rewrite <- aeR_scale, aeR_c0R by auto. reflexivity.
Qed.
Definition texR b a e := 12/19 * c0R a e ^ 4 / b * I514 e.
Lemma texR_bounds b a e : 0 < b -> 0 < a -> 0 < e < 1 ->
  tmR b a / enhancement e <= texR b a e <= tmR b a /\ 0 < texR b a e.
Proof.
  intros Hb Ha He. pose proof (c0R_pos a e Ha He) as Hc.
  assert (He' : 0 <= e < 1) by lra. pose proof (enhancement_pos e He') as Hp.
  pose proof (I514_upper e He'). pose proof (I514_lower e He'). pose proof (I514_pos e He).
  assert (K : 0 < 12/19 * c0R a e ^ 4 / b) by pos.
  assert (E : tmR b a = 12/19 * c0R a e ^ 4 / b * P4 e).
  { replace (12/19 * c0R a e ^ 4 / b * P4 e) with ((12/19 * c0R a e ^ 4 * P4 e) / b) by (field; lra).
    rewrite c0_P4 by auto. unfold tmR. field. lra. }
  unfold texR. rewrite E. repeat split.
  - replace (12/19 * c0R a e ^ 4 / b * P4 e / enhancement e)
      with (12/19 * c0R a e ^ 4 / b * (P4 e / enhancement e)) by (field; lra).
    apply Rmult_le_compat_l; lra.
  - apply Rmult_le_compat_l; lra.
  - apply Rmult_lt_0_compat; auto.
Qed.
Definition tsmR b a e := c0R a e ^ 4 / (4 * b) * Rpower e (48/19).
Definition tlgR b a e := c0R a e ^ 4 / (4 * b) * Rpower e (48/19) * (768/425) * Rpower (1 - e ^ 2) (-1/2)
                         * Rpower (1 + 121/304 * e ^ 2) (3480/2299).
Lemma t_small_fin c0 b e : 0 < b -> 0 < e ->
  t_small (Fin c0) (Fin b) (Fin e) = Fin (c0 ^ 4 / (4 * b) * Rpower e (48/19)).
Proof. intros Hb He. unfold t_small. rewrite npowi4, nmul_fin, ndiv_fin, npowr_fin, nmul_fin by (auto; lra). reflexivity. Qed.
Lemma t_large_fin c0 b e : 0 < b -> 0 < e < 1 ->
  t_large (Fin c0) (Fin b) (Fin e) = Fin (c0 ^ 4 / (4 * b) * Rpower e (48/19) * (768/425) * Rpower (1 - e ^ 2) (-1/2)
                         * Rpower (1 + 121/304 * e ^ 2) (3480/2299)).
Proof.
  intros Hb He. destruct (e_facts e He) as [A B]. unfold t_large.
  rewrite npowi4, nmul_fin, ndiv_fin by lra. rewrite npowi2, nsub_fin, !nmul_fin, nadd_fin, !npowr_fin by (auto; lra).
  rewrite !nmul_fin. reflexivity.
Qed.
Lemma tsmR_alt b a e : 0 < b -> 0 < a -> 0 < e < 1 ->
  tsmR b a e = tmR b a * (Rpower (1 - e ^ 2) 4 * Rpower (1 + 121/304 * e ^ 2) (-3480/2299)).
Proof.
  intros Hb Ha He. destruct (e_facts e He) as [A B]. pose proof (c0R_pos a e Ha He). pose proof (tmR_pos b a Hb Ha).
  destruct He. unfold tsmR. apply eq_by_ln; try pos. unfold c0R, tmR. lnexp. lra.
Qed.
Lemma tlgR_alt b a e : 0 < b -> 0 < a -> 0 < e < 1 ->
  tlgR b a e = tmR b a * (768/425 * Rpower (1 - e ^ 2) (7/2)).
Proof.
  intros Hb Ha He. destruct (e_facts e He) as [A B]. pose proof (c0R_pos a e Ha He). pose proof (tmR_pos b a Hb Ha).
  destruct He. unfold tlgR. apply eq_by_ln; try pos. unfold c0R, tmR. lnexp. lra.
Qed.
Lemma tsmR_bounds b a e : 0 < b -> 0 < a -> 0 < e < 1 -> 0 < tsmR b a e < tmR b a.
Proof.
  intros Hb Ha He. rewrite tsmR_alt by auto. destruct (e_facts e He) as [A B]. pose proof (tmR_pos b a Hb Ha).
  assert (E : 0 < e ^ 2) by (apply pow_lt; lra).
  assert (X : 0 < Rpower (1 - e ^ 2) 4 < 1) by (split; [apply Rpower_pos|apply Rpower_lt_1; lra]).
  assert (Y : 0 < Rpower (1 + 121/304 * e ^ 2) (-3480/2299) < 1).
  { split; [apply Rpower_pos|]. apply Rlt_le_trans with (Rpower 1 (-3480/2299)).
    - apply Rpower_anti_base; lra.
    - right. apply Rpower_1_base. }
  assert (0 < Rpower (1 - e ^ 2) 4 * Rpower (1 + 121/304 * e ^ 2) (-3480/2299) < 1) by nra.
  nra.
Qed.
(** for e > 0.9999, (768/425)(1-e^2)^(7/2) < 1 *)
Lemma tlgR_bounds b a e : 0 < b -> 0 < a -> 1 - 1/10000 < e < 1 -> 0 < tlgR b a e < tmR b a.
Proof.
  intros Hb Ha He. rewrite tlgR_alt by lra. destruct (e_facts e) as [A B]; [lra|]. pose proof (tmR_pos b a Hb Ha).
  assert (E : 1 - e ^ 2 < 1/1000) by (simpl; nra).
  assert (X : 0 < Rpower (1 - e ^ 2) (7/2) < 1/1000).
  { split; [apply Rpower_pos|]. apply Rle_lt_trans with (Rpower (1 - e ^ 2) 1).
    - apply Rlt_le. unfold Rpower. apply exp_increasing.
      assert (ln (1 - e ^ 2) < 0) by (rewrite <- ln_1; apply ln_increasing; lra). lra.
    - rewrite Rpower_1 by auto. lra. }
  assert (0 < 768/425 * Rpower (1 - e ^ 2) (7/2) < 1) by lra. nra.
Qed.
