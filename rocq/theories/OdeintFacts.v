(** OdeintFacts.v -- evol_ecc with an exact integrator samples a true Peters inspiral (C75), and such an integrator
    exists. *)
From Coq Require Import String Reals ZArith List Bool Lra Lia.
From Coquelicot Require Import Coquelicot.
From Verif Require Import Num NumFacts Np NpFacts Utils Spec UtilsFacts Evol EvolSpec EvolFacts MergeFacts OdeFacts ArrEvolFacts CircFacts EccEvolFacts LocalFacts.
Import ListNotations.
Open Scope R_scope.

Lemma I514_mono x y : 0 < x -> x < y -> y < 1 -> I514 x < I514 y.
Proof.
  intros Hx Hxy Hy. apply Ropp_lt_cancel.
  apply (strictly_decr_by_derivative (fun z => - I514 z) (fun z => - p514 z) x y Hxy).
  - intros z Hz. apply (is_derive_opp (K := R_AbsRing) (V := R_NormedModule) I514 z (p514 z)). apply is_derive_I514. lra.
  - intros z Hz. pose proof (p514_pos z). lra.
Qed.

(** the inverse of I514 *)
Definition inv514 (v : R) : R := real (Lub_Rbar (fun e => 0 < e < 1 /\ I514 e <= v)).
Lemma inv514_I514 e : 0 < e < 1 -> inv514 (I514 e) = e.
Proof.
  intros He. unfold inv514. rewrite (is_lub_Rbar_unique _ (Finite e)); [reflexivity|]. split.
  - intros x [Hx HI]. simpl. destruct (Rle_dec x e); auto. pose proof (I514_mono e x). lra.
  - intros b Hb. apply (Hb e). split; auto. lra.
Qed.
(** An exact integrator: the right-hand side at e = 1/2 determines the time scale. *)
Definition odeint_model : odeint_t := fun rhs e0 ts =>
  match rhs (Fin (1/2)), e0 with
  | Fin d, Fin e0 =>
      let k := d * p514 (1/2) in
      map (fun t => match t with Fin t => Fin (inv514 (I514 e0 + k * t)) | x => x end) ts
  | _, _ => ts
  end.
Lemma odeint_model_exact : odeint_exact odeint_model.
Proof.
  intros b c0 T e ts Hb Hc HT HF Hs Hts. unfold odeint_model.
  rewrite de_dt_fin by lra. cbv zeta. rewrite map_map. apply map_ext_in. intros t Ht. f_equal.
  assert (HtT : 0 <= t <= T).
  { destruct Ht as [<-|Ht]; [lra|]. split; [|auto]. destruct (In_nth _ _ 0 Ht) as [i [Hi E]]. rewrite <- E.
    apply (Hs 0%nat (S i)); simpl; lia. }
  assert (K : dedtR b c0 (1/2) * p514 (1/2) = - (b * 19 / (12 * c0 ^ 4))).
  { pose proof (p514_dedt b c0 (1/2) Hb Hc ltac:(lra)) as P. 
    assert (c0 ^ 4 <> 0) by (apply pow_nonzero; lra).
    apply (Rmult_eq_reg_l (12/19 * c0 ^ 4 / b)); [|unfold Rdiv; repeat apply Rmult_integral_contrapositive_currified; try lra; auto; apply Rinv_neq_0_compat; lra].
    replace (12/19 * c0 ^ 4 / b * - (b * 19 / (12 * c0 ^ 4))) with (-1) by (field; lra). lra. }
  rewrite K. destruct (HF t HtT) as [He _].
  rewrite <- (inv514_I514 (e t) He) at 1. f_equal.
  pose proof (texR_countdown b c0 T e t Hb Hc HF HtT) as C.
  assert (c0 ^ 4 <> 0) by (apply pow_nonzero; lra).
  apply (Rmult_eq_reg_l (12/19 * c0 ^ 4 / b)); [|unfold Rdiv; repeat apply Rmult_integral_contrapositive_currified; try lra; auto; apply Rinv_neq_0_compat; lra].
  rewrite Rmult_plus_distr_l. replace (12/19 * c0 ^ 4 / b * (- (b * 19 / (12 * c0 ^ 4)) * t)) with (- t) by (field; lra).
  lra.
Qed.

Lemma map_nan_fin {A} (g : A -> R) l : map nan_to_num (map (fun t => Fin (g t)) l) = map (fun t => Fin (g t)) l.
Proof. rewrite map_map. reflexivity. Qed.

Lemma evol_ecc_exact quad odeint sched n_proc n m1 m2 a0 e0 b c0 T e ts : odeint_exact odeint ->
  0 < m1 -> 0 < m2 -> 0 < a0 -> 0 < e0 < 1 -> 0 <= T -> complete_schedule 1 sched ->
  beta (Fin m1) (Fin m2) = Fin b -> c_0 (Fin a0) (Fin e0) = Fin c0 -> e 0 = e0 -> follows_de_dt b c0 T e ->
  sorted (0 :: ts) -> (forall t, In t ts -> t <= T) ->
  let call var := evol_ecc quad odeint sched (POther (Fin e0)) TNone n (S1 (map Fin (0 :: ts))) PNone (PQScalar (Fin m1) tt)
       (PQScalar (Fin m2) tt) (PQScalar (Fin a0) tt) PNone [var] n_proc false true (Fin 0) None in
  exists a f : R -> R,
    a 0 = a0 /\ peters_inspiral m1 m2 T a e /\
    (forall t, 0 <= t <= T -> a t <> tiny -> kepler_third_law m1 m2 (a t) (f t)) /\
    call "ecc"%string = Ok (Single (E1 (map (fun t => Fin (e t)) (0 :: ts))), S1 (map Fin (0 :: ts))) /\
    call "a"%string = Ok (Single (E1 (map (fun t => Fin (a t)) (0 :: ts))), S1 (map Fin (0 :: ts))) /\
    call "f_orb"%string = Ok (Single (E1 (map (fun t => Fin (f t)) (0 :: ts))), S1 (map Fin (0 :: ts))).
Proof.
  intros HO H1 H2 Ha He HT HS Hb Hc0 E0 HF Hs Hts call.
  rewrite beta_fin in Hb by auto. apply Fin_inj in Hb. subst b.
  rewrite c_0_fin in Hc0 by auto. apply Fin_inj in Hc0. subst c0.
  pose proof (betaR_pos m1 m2 H1 H2) as Hb. pose proof (c0R_pos a0 e0 Ha He) as Hc.
  exists (fun t => aeR (e t) (c0R a0 e0)),
         (fun t => match freq_of_a (Fin m1) (Fin m2) (Fin (aeR (e t) (c0R a0 e0))) with Fin r => r | _ => 0 end).
  assert (R : forall t, In t (0 :: ts) -> 0 <= t <= T).
  { intros t [<-|Ht]; [lra|]. split; [|auto]. destruct (In_nth _ _ 0 Ht) as [i [Hi E]]. rewrite <- E.
    apply (Hs 0%nat (S i)); simpl; lia. }
  assert (FF : forall t, 0 <= t <= T -> exists r, freq_of_a (Fin m1) (Fin m2) (Fin (aeR (e t) (c0R a0 e0))) = Fin r).
  { intros t Ht. destruct (HF t Ht) as [Het _]. pose proof (aeR_pos (e t) (c0R a0 e0) Hc Het) as Hp.
    destruct (Req_dec (aeR (e t) (c0R a0 e0)) tiny) as [E|N].
    - exists 100. rewrite E. unfold freq_of_a. rewrite E in Hp. rewrite neqb_f by lra. now rewrite neqb_t.
    - eexists. now apply freq_of_a_fin. }
  assert (SC : forall var, call var = _)
   by (intros var; unfold call; eapply (evol_ecc_eval quad odeint sched n_proc TNone n (S1 (map Fin (0 :: ts)))
        _ _ _ _ _ _ _ _ _ _ _ _ _ [var] false true (Fin 0) None
        unit [tt] (fun _ => Fin e0) (fun _ => Fin (betaR m1 m2)) (fun _ => Fin a0) (Some (fun _ => Fin m1)) (Some (fun _ => Fin m2)) _ 
        (fun _ => map Fin (0 :: ts)));
        [reflexivity|unfold check_arr, check_mass_freq_input; cbn; now rewrite beta_fin by auto|reflexivity|reflexivity|reflexivity|reflexivity|reflexivity|intros; assumption]).
  assert (ER : ecc_row odeint (Fin e0) (Fin a0) (Fin (betaR m1 m2)) (map Fin (0 :: ts)) = map (fun t => Fin (e t)) (0 :: ts)).
  { unfold ecc_row. rewrite c_0_fin by auto. rewrite <- E0 at 2.
    rewrite (HO (betaR m1 m2) (c0R a0 e0) T e ts); auto. apply map_nan_fin. }
  assert (SR : sep_row odeint (Fin e0) (Fin a0) (Fin (betaR m1 m2)) (map Fin (0 :: ts)) = map (fun t => Fin (aeR (e t) (c0R a0 e0))) (0 :: ts)).
  { unfold sep_row. rewrite ER, map_map. apply map_ext_in. intros t Ht. rewrite c_0_fin by auto.
    destruct (HF t (R t Ht)) as [Het _]. now apply get_a_from_ecc_fin. }
  split; [rewrite E0; now apply aeR_c0R|]. split; [|split; [|split; [|split]]].
  - now apply follows_inspiral.
  - intros t Ht N. destruct (HF t Ht) as [Het _]. pose proof (aeR_pos (e t) (c0R a0 e0) Hc Het) as Hp.
    rewrite freq_of_a_fin by auto. now apply fR_kepler.
  - rewrite SC. clear - ER. set (row := map Fin (0 :: ts)) in *. set (er := map (fun t => Fin (e t)) (0 :: ts)) in *. clearbody row er.
    cbn -[ecc_row]. rewrite ER. now rewrite app_nil_r.
  - rewrite SC. clear - SR. set (row := map Fin (0 :: ts)) in *. set (er := map _ (0 :: ts)) in *. clearbody row er.
    cbn -[sep_row]. rewrite SR. now rewrite app_nil_r.
  - assert (FR : freq_row odeint (Fin m1) (Fin m2) (Fin e0) (Fin a0) (Fin (betaR m1 m2)) (map Fin (0 :: ts)) = map (fun t =>
      Fin match freq_of_a (Fin m1) (Fin m2) (Fin (aeR (e t) (c0R a0 e0))) with Fin r => r | _ => 0 end) (0 :: ts)).
    { unfold freq_row. rewrite SR, map_map. apply map_ext_in. intros t Ht. destruct (FF t (R t Ht)) as [r ->]. reflexivity. }
    rewrite SC. clear - FR. set (row := map Fin (0 :: ts)) in *. set (er := map _ (0 :: ts)) in *. clearbody row er.
    cbn -[freq_row]. rewrite FR. now rewrite app_nil_r.
Qed.
