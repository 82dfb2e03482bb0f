(** BesselFacts.v -- recurrences of the Bessel functions and the published form of g(n, e). *)
From Coq Require Import Reals ZArith List Bool Lra Lia.
From Coquelicot Require Import Coquelicot.
From Verif Require Import Num NumFacts Utils Spec UtilsFacts Bessel.
Open Scope R_scope.

Ltac eqR := match goal with |- ?a = ?b => change (@eq R a b) end.
Definition ph (n : Z) (x t : R) : R := IZR n * t + - (x * sin t).
Lemma derive_ph n x t : is_derive (ph n x) t (IZR n - x * cos t).
Proof. unfold ph. auto_derive; auto. ring. Qed.
Lemma continuous_of_derive (f : R -> R) x d : is_derive f x d -> continuous f x.
Proof. intros H. apply (ex_derive_continuous (V:=R_NormedModule)). now exists d. Qed.
Lemma continuous_cos_ph n x (t : R) : continuous (fun t => cos (ph n x t)) t.
Proof. apply (continuous_of_derive _ _ (- sin (ph n x t) * (IZR n - x * cos t))). unfold ph. auto_derive; auto. ring. Qed.
Lemma continuous_sin_ph n x (t : R) : continuous (fun t => sin t * sin (ph n x t)) t.
Proof.
  apply (continuous_of_derive _ _ (cos t * sin (ph n x t) + sin t * (cos (ph n x t) * (IZR n - x * cos t)))).
  unfold ph. auto_derive; auto. ring.
Qed.
Lemma continuous_coscos n x (t : R) : continuous (fun t => cos t * cos (ph n x t)) t.
Proof.
  apply (continuous_of_derive _ _ (- sin t * cos (ph n x t) - cos t * (sin (ph n x t) * (IZR n - x * cos t)))).
  unfold ph. auto_derive; auto. ring.
Qed.
Lemma ex_RInt_all (f : R -> R) a b : (forall t, continuous f t) -> ex_RInt f a b.
Proof. intros H. apply (@ex_RInt_continuous R_CompleteNormedModule). auto. Qed.
Lemma besselJ_ph n x : besselJ n x = / PI * RInt (fun t => cos (ph n x t)) 0 PI.
Proof. reflexivity. Qed.

(** sin(n pi) = 0 *)
Lemma sin_IZR_PI n : sin (IZR n * PI) = 0.
Proof. apply sin_eq_0_1. now exists n. Qed.

(** J_(n-1) + J_(n+1) and J_(n-1) - J_(n+1) as integrals *)
Lemma ph_pred n x t : ph (n - 1) x t = ph n x t - t.
Proof. unfold ph. rewrite minus_IZR. ring. Qed.
Lemma ph_succ n x t : ph (n + 1) x t = ph n x t + t.
Proof. unfold ph. rewrite plus_IZR. ring. Qed.
Lemma bessel_sum n x : besselJ (n - 1) x + besselJ (n + 1) x = / PI * (2 * RInt (fun t => cos t * cos (ph n x t)) 0 PI).
Proof.
  rewrite !besselJ_ph, <- Rmult_plus_distr_l. f_equal.
  rewrite <- (RInt_plus (V:=R_CompleteNormedModule)) by (apply ex_RInt_all; intros; apply continuous_cos_ph).
  change (2 * RInt (fun t => cos t * cos (ph n x t)) 0 PI)
    with (scal 2 (RInt (fun t => cos t * cos (ph n x t)) 0 PI)).
  rewrite <- RInt_scal by (apply ex_RInt_all; intros; apply continuous_coscos).
  apply RInt_ext. intros t _. change plus with Rplus. change (scal 2 (cos t * cos (ph n x t))) with (2 * (cos t * cos (ph n x t))).
  rewrite ph_pred, ph_succ, cos_plus, cos_minus. eqR. ring.
Qed.
Lemma bessel_diff n x : besselJ (n - 1) x - besselJ (n + 1) x = / PI * (2 * RInt (fun t => sin t * sin (ph n x t)) 0 PI).
Proof.
  rewrite !besselJ_ph, <- Rmult_minus_distr_l. f_equal.
  rewrite <- (RInt_minus (V:=R_CompleteNormedModule)) by (apply ex_RInt_all; intros; apply continuous_cos_ph).
  change (2 * RInt (fun t => sin t * sin (ph n x t)) 0 PI)
    with (scal 2 (RInt (fun t => sin t * sin (ph n x t)) 0 PI)).
  rewrite <- RInt_scal by (apply ex_RInt_all; intros; apply continuous_sin_ph).
  apply RInt_ext. intros t _. change minus with Rminus. change (scal 2 (sin t * sin (ph n x t))) with (2 * (sin t * sin (ph n x t))).
  rewrite ph_pred, ph_succ, cos_plus, cos_minus. eqR. ring.
Qed.
Lemma bessel_recurrence n x : x * (besselJ (n - 1) x + besselJ (n + 1) x) = 2 * IZR n * besselJ n x.
Proof.
  rewrite bessel_sum, besselJ_ph.
  assert (Z : RInt (fun t => (IZR n - x * cos t) * cos (ph n x t)) 0 PI = 0).
  { apply is_RInt_unique.
    replace 0 with (minus (sin (ph n x PI)) (sin (ph n x 0))) at 2.
    2:{ replace (ph n x 0) with 0 by (unfold ph; rewrite sin_0; ring).
        replace (ph n x PI) with (IZR n * PI) by (unfold ph; rewrite sin_PI; ring).
        rewrite sin_0, sin_IZR_PI. change (0 - 0 = 0). ring. }
    apply (is_RInt_derive (fun t => sin (ph n x t)) (fun t => (IZR n - x * cos t) * cos (ph n x t))).
    - intros t _. unfold ph. auto_derive; auto. ring.
    - intros t _. apply (continuous_of_derive _ _ (x * sin t * cos (ph n x t) - (IZR n - x * cos t) * (sin (ph n x t) * (IZR n - x * cos t)))).
      unfold ph. auto_derive; auto. ring. }
  assert (E : IZR n * RInt (fun t => cos (ph n x t)) 0 PI - x * RInt (fun t => cos t * cos (ph n x t)) 0 PI = 0).
  { refine (eq_trans _ Z).
    change (IZR n * RInt (fun t => cos (ph n x t)) 0 PI) with (scal (IZR n) (RInt (fun t => cos (ph n x t)) 0 PI)).
    change (x * RInt (fun t => cos t * cos (ph n x t)) 0 PI) with (scal x (RInt (fun t => cos t * cos (ph n x t)) 0 PI)).
    rewrite <- !RInt_scal by (apply ex_RInt_all; intros; apply continuous_coscos || apply continuous_cos_ph).
    match goal with |- ?a - ?b = _ => change (a - b) with (minus a b) end.
    rewrite <- (RInt_minus (V:=R_CompleteNormedModule)).
    - apply RInt_ext. intros t _. change minus with Rminus. change scal with Rmult. eqR. ring.
    - apply (ex_RInt_scal (V:=R_CompleteNormedModule)), ex_RInt_all; intros; apply continuous_cos_ph.
    - apply (ex_RInt_scal (V:=R_CompleteNormedModule)), ex_RInt_all; intros; apply continuous_coscos. }
  pose proof PI_RGT_0. replace (x * (/ PI * (2 * RInt (fun t => cos t * cos (ph n x t)) 0 PI)))
    with (/ PI * 2 * (x * RInt (fun t => cos t * cos (ph n x t)) 0 PI)) by ring.
  replace (x * RInt (fun t => cos t * cos (ph n x t)) 0 PI) with (IZR n * RInt (fun t => cos (ph n x t)) 0 PI) by lra. ring.
Qed.

(** The derivative, by differentiating under the integral sign. *)
Lemma besselJ_derive n x : is_derive (besselJ n) x ((besselJ (n - 1) x - besselJ (n + 1) x) / 2).
Proof.
  rewrite bessel_diff.
  replace (/ PI * (2 * RInt (fun t => sin t * sin (ph n x t)) 0 PI) / 2)
    with (/ PI * RInt (fun t => sin t * sin (ph n x t)) 0 PI) by (field; apply PI_neq0).
  change (is_derive (fun x => / PI * RInt (fun t => cos (ph n x t)) 0 PI) x (/ PI * RInt (fun t => sin t * sin (ph n x t)) 0 PI)).
  apply (is_derive_scal (fun x => RInt (fun t => cos (ph n x t)) 0 PI) x (/ PI)).
  assert (D : forall y t, Derive (fun z => cos (ph n z t)) y = sin t * sin (ph n y t)).
  { intros y t. apply is_derive_unique. unfold ph. auto_derive; auto. ring. }
  rewrite <- (RInt_ext (fun t => Derive (fun z => cos (ph n z t)) x) (fun t => sin t * sin (ph n x t))) by (intros; apply D).
  apply (is_derive_RInt_param (fun y t => cos (ph n y t))).
  - exists (mkposreal 1 Rlt_0_1). intros y _ t _. exists (sin t * sin (ph n y t)). unfold ph. auto_derive; auto. ring.
  - intros t _. apply (continuity_2d_pt_ext (fun u v => sin v * sin (ph n u v))).
    { intros u v. symmetry. apply D. }
    apply continuity_2d_pt_mult.
    + apply (continuity_1d_2d_pt_comp sin (fun _ v => v)); [apply continuity_sin|apply continuity_2d_pt_id2].
    + apply (continuity_1d_2d_pt_comp sin (ph n)); [apply continuity_sin|]. unfold ph.
      apply (continuity_2d_pt_minus (fun u v => IZR n * v) (fun u v => u * sin v)).
      * apply continuity_2d_pt_mult; [apply continuity_2d_pt_const|apply continuity_2d_pt_id2].
      * apply continuity_2d_pt_mult; [apply continuity_2d_pt_id1|].
        apply (continuity_1d_2d_pt_comp sin (fun _ v => v)); [apply continuity_sin|apply continuity_2d_pt_id2].
  - exists (mkposreal 1 Rlt_0_1). intros y _. apply ex_RInt_all. intros; apply continuous_cos_ph.
Qed.

(** Values at 0. *)
Lemma besselJ_0 n : besselJ n 0 = if (n =? 0)%Z then 1 else 0.
Proof.
  pose proof PI_RGT_0. rewrite besselJ_ph. destruct (Z.eqb_spec n 0) as [->|Hn].
  - rewrite (RInt_ext _ (fun _ => 1)).
    + rewrite RInt_const. change scal with Rmult. simpl. field. lra.
    + intros t _. replace (ph 0 0 t) with 0 by (unfold ph; ring). apply cos_0.
  - assert (IZR n <> 0) by (apply not_0_IZR; auto).
    replace (RInt (fun t => cos (ph n 0 t)) 0 PI) with 0; [ring|]. symmetry. apply is_RInt_unique.
    replace 0 with (minus (/ IZR n * sin (IZR n * PI)) (/ IZR n * sin (IZR n * 0))) at 2.
    2:{ rewrite Rmult_0_r, sin_0, sin_IZR_PI. change (/ IZR n * 0 - / IZR n * 0 = 0). ring. }
    apply (is_RInt_derive (fun t => / IZR n * sin (IZR n * t)) (fun t => cos (ph n 0 t))).
    + intros t _. replace (ph n 0 t) with (IZR n * t) by (unfold ph; ring). auto_derive; auto. field. auto.
    + intros t _. apply continuous_cos_ph.
Qed.

(** ** g(n, e) *)
Lemma bracket_1 (n : Z) e : IZR n <> 0 -> e <> 0 ->
  let x := IZR n * e in let J k := besselJ k x in let D := (J (n - 1)%Z - J (n + 1)%Z) / 2 in
  IZR n * e * (J (n-2)%Z + J n) = 2 * (IZR n - 1) * J (n-1)%Z ->
  IZR n * e * (J n + J (n+2)%Z) = 2 * (IZR n + 1) * J (n+1)%Z ->
  IZR n * e * (J (n-1)%Z + J (n+1)%Z) = 2 * IZR n * J n ->
  J (n-2)%Z - 2 * e * J (n-1)%Z + 2 / IZR n * J n + 2 * e * J (n+1)%Z - J (n+2)%Z
    = 4 * D * (1 - e ^ 2) / e - 2 * J n * (2 - e ^ 2) / (IZR n * e ^ 2) /\
  J (n-2)%Z - 2 * J n + J (n+2)%Z = 4 * J n * (1 - e ^ 2) / e ^ 2 - 4 * D / (IZR n * e).
Proof.
  intros Hn He. cbv zeta. set (a := besselJ (n-2) (IZR n * e)). set (b := besselJ (n-1) (IZR n * e)). set (c := besselJ n (IZR n * e)).
  set (d := besselJ (n+1) (IZR n * e)). set (f := besselJ (n+2) (IZR n * e)). intros A B C.
  assert (Ec : c = e * (b + d) / 2) by (apply (Rmult_eq_reg_l (2 * IZR n)); [nra|lra]).
  assert (Ea : a = 2 * (IZR n - 1) * b / (IZR n * e) - c).
  { apply (Rmult_eq_reg_l (IZR n * e)); [|now apply Rmult_integral_contrapositive]. field_simplify; [lra|auto]. }
  assert (Ef : f = 2 * (IZR n + 1) * d / (IZR n * e) - c).
  { apply (Rmult_eq_reg_l (IZR n * e)); [|now apply Rmult_integral_contrapositive]. field_simplify; [lra|auto]. }
  split; rewrite Ea, Ef, Ec; field; auto.
Qed.
Lemma published_g jv n e : (forall k x, jv k (Fin x) = Fin (besselJ k x)) -> (1 <= n)%Z -> 0 < e <= 1 ->
  exists D, is_derive (besselJ n) (IZR n * e) D /\
    peters_g jv n (Fin e) = Fin (harmonic_power (IZR n) e (besselJ n (IZR n * e)) D).
Proof.
  intros HJ Hn He. assert (N : IZR n <> 0) by (apply not_0_IZR; lia).
  eexists. split; [apply besselJ_derive|]. rewrite (peters_g_fin jv besselJ) by auto. f_equal.
  pose proof (bessel_recurrence n (IZR n * e)) as R0.
  pose proof (bessel_recurrence (n - 1) (IZR n * e)) as R1. pose proof (bessel_recurrence (n + 1) (IZR n * e)) as R2.
  replace (n - 1 - 1)%Z with (n - 2)%Z in R1 by lia. replace (n - 1 + 1)%Z with n in R1 by lia.
  replace (n + 1 - 1)%Z with n in R2 by lia. replace (n + 1 + 1)%Z with (n + 2)%Z in R2 by lia.
  rewrite minus_IZR in R1. rewrite plus_IZR in R2.
  assert (E0 : e <> 0) by lra.
  destruct (bracket_1 n e N E0 R1 R2 R0) as [B1 B2]. unfold gR, harmonic_power.
  rewrite B1, B2. change (IZR (n ^ 4)) with (IZR (n ^ Z.of_nat 4)). change (IZR (n ^ 2)) with (IZR (n ^ Z.of_nat 2)).
  rewrite <- (pow_IZR n 4), <- (pow_IZR n 2). field. auto.
Qed.
