(** UnitsThms.v -- the unit-carrying functions: agreement with the SI functions, independence of the units, errors for
    wrong dimensions. *)
From Coq Require Import Reals ZArith List Bool Lra Lia.
From Verif Require Import Num NumFacts Np NpFacts Utils Strain Evol EvolFacts Units UnitsSpec UnitsFacts.
Import ListNotations.
Open Scope R_scope.
Open Scope res_scope.

Ltac mean := repeat first
  [ eassumption | apply is_lit | apply is_pl | apply is_G | apply is_c
  | eapply is_mul | eapply is_div | eapply is_pow | (eapply is_powi; [lia|]) ].
Ltac isq := repeat first [rewrite quantity_mul | rewrite quantity_div | rewrite quantity_pow | rewrite quantity_powi]; cbn; rewrite ?orb_true_r; try reflexivity.

(** *** Sizes of the units in the code *)
Lemma msun_pos : 0 < u_size msun.
Proof. pose proof Ggrav_pos. cbn. apply Rdiv_lt_0_compat; lra. Qed.
Lemma au_pos : 0 < u_size au.
Proof. unfold au, AU. cbn. lra. Qed.
Lemma hertz_pos : 0 < u_size hertz.
Proof. cbn. lra. Qed.
Lemma year_pos : 0 < u_size year.
Proof. exact yr_pos. Qed.
Lemma gigayear_pos : 0 < u_size gigayear.
Proof. exact Gyr_pos. Qed.
Lemma hy_pos : 0 < u_size hertz_per_year.
Proof. pose proof yr_pos. cbn. apply Rdiv_lt_0_compat; lra. Qed.
Lemma m4s_pos : 0 < u_size m4_per_s.
Proof. apply Rdiv_lt_0_compat; [apply powerRZ_pos|]; cbn; lra. Qed.
Lemma radian_pos : 0 < u_size radian.
Proof. cbn. lra. Qed.
#[local] Hint Resolve msun_pos au_pos hertz_pos year_pos gigayear_pos hy_pos m4s_pos radian_pos : units.

(** *** Agreement with the SI functions *)
Lemma chirp_mass_si m_1 m_2 x y : quantity mass_dim x m_1 -> quantity mass_dim y m_2 ->
  chirp_mass_q m_1 m_2 = Ok (in_unit msun (chirp_mass x y)).
Proof.
  intros (Q1 & I1) (Q2 & I2). unfold chirp_mass_q, vadd. destruct (is_add _ _ _ _ _ I1 I2) as (s & E & IS & QS).
  rewrite E. cbn [rbind]. rewrite simplify_q by (isq; rewrite ?QS, Q1; reflexivity).
  eapply to_unit; [mean|isq; rewrite Q1; reflexivity|dim_eq|auto with units].
Qed.

Lemma a_from_f_si f m_1 m_2 z x y : is_ frequency_dim z f -> is_ mass_dim x m_1 -> is_ mass_dim y m_2 ->
  get_a_from_f_orb_q f m_1 m_2 = Ok (in_unit au (get_a_from_f_orb z x y)).
Proof.
  intros If I1 I2. unfold get_a_from_f_orb_q, vadd. destruct (is_add _ _ _ _ _ I1 I2) as (s & E & IS & QS).
  rewrite E. cbn [rbind]. rewrite simplify_q by isq.
  eapply to_unit; [mean|isq|dim_eq|auto with units].
Qed.
Lemma f_from_a_si a m_1 m_2 z x y : is_ length_dim z a -> is_ mass_dim x m_1 -> is_ mass_dim y m_2 ->
  get_f_orb_from_a_q a m_1 m_2 = Ok (in_unit hertz (get_f_orb_from_a z x y)).
Proof.
  intros If I1 I2. unfold get_f_orb_from_a_q, vadd. destruct (is_add _ _ _ _ _ I1 I2) as (s & E & IS & QS).
  rewrite E. cbn [rbind]. rewrite simplify_q by isq.
  eapply to_unit; [mean|isq|dim_eq|auto with units].
Qed.
Lemma beta_si m_1 m_2 x y : is_ mass_dim x m_1 -> is_ mass_dim y m_2 ->
  beta_q m_1 m_2 = Ok (in_unit m4_per_s (beta x y)).
Proof.
  intros I1 I2. unfold beta_q, vadd. destruct (is_add _ _ _ _ _ I1 I2) as (s & E & IS & QS).
  rewrite E. cbn [rbind]. rewrite simplify_q by isq.
  eapply to_unit; [mean|isq|dim_eq|auto with units].
Qed.

Lemma one_minus_sq e x : is_ dimensionless x e ->
  exists r, vsub (lit 1) (vpowi e 2) = Ok r /\ is_ dimensionless (Fin 1 - x ^^ 2)%num r.
Proof.
  intros I. assert (I2 : is_ dimensionless (x ^^ 2)%num (vpowi e 2)).
  { rewrite <- (dpow_none 2). now apply is_powi. }
  destruct (is_sub _ _ _ _ _ (is_lit 1) I2) as (r & E & IR & _). now exists r.
Qed.
Lemma plus_sq k e x a y n : is_ dimensionless y a -> (0 < n)%Z -> is_ dimensionless x e ->
  exists r, vadd a (vmul (lit k) (vpowi e n)) = Ok r /\ is_ dimensionless (y + Fin k * x ^^ n)%num r.
Proof.
  intros IY N I. assert (I2 : is_ dimensionless (Fin k * x ^^ n)%num (vmul (lit k) (vpowi e n))).
  { rewrite <- (dmul_none_l dimensionless) at 1. apply is_mul; [apply is_lit|]. rewrite <- (dpow_none (IZR n)). now apply is_powi. }
  destruct (is_add _ _ _ _ _ IY I2) as (r & E & IR & _). now exists r.
Qed.

Lemma c_0_si a e x y : quantity length_dim x a -> is_ dimensionless y e ->
  c_0_q a e = Ok (in_unit au (c_0 x y)).
Proof.
  intros (Q & I) Ie. unfold c_0_q. destruct (one_minus_sq e y Ie) as (d & -> & Id). cbn [rbind].
  destruct (plus_sq (121/304) e y _ _ 2 (is_lit 1) eq_refl Ie) as (s & -> & Is). cbn [rbind].
  rewrite simplify_q by (isq; rewrite Q; reflexivity).
  eapply to_unit; [mean|isq; rewrite Q; reflexivity|dim_eq|auto with units].
Qed.
Lemma a_from_ecc_si a e x y : is_ dimensionless y e -> quantity length_dim x a ->
  get_a_from_ecc_q e a = Ok (in_unit au (get_a_from_ecc y x)).
Proof.
  intros Ie (Q & I). unfold get_a_from_ecc_q. destruct (one_minus_sq e y Ie) as (d & -> & Id). cbn [rbind].
  destruct (plus_sq (121/304) e y _ _ 2 (is_lit 1) eq_refl Ie) as (s & -> & Is). cbn [rbind].
  rewrite simplify_q by (isq; rewrite Q; reflexivity).
  eapply to_unit; [mean|isq; rewrite Q; reflexivity|dim_eq|auto with units].
Qed.
Lemma peters_f_si e y : is_ dimensionless y e ->
  exists r, peters_f_q e = Ok r /\ is_ dimensionless (peters_f y) r.
Proof.
  intros Ie. unfold peters_f_q.
  destruct (plus_sq (73/24) e y _ _ 2 (is_lit 1) eq_refl Ie) as (s & -> & Is). cbn [rbind].
  destruct (plus_sq (37/96) e y _ _ 4 Is eq_refl Ie) as (n & -> & In). cbn [rbind].
  destruct (one_minus_sq e y Ie) as (d & -> & Id). cbn [rbind].
  eexists. split; [reflexivity|]. replace dimensionless with (ddiv dimensionless (dpow dimensionless (7/2))) by dim_eq.
  mean.
Qed.
Lemma fn_dot_si m f e n x z y : (1 <= n)%Z -> is_ mass_dim x m -> is_ frequency_dim z f -> is_ dimensionless y e ->
  fn_dot_q m f e n = Ok (in_unit hertz_per_year (fn_dot_elem x z y n)).
Proof.
  intros N Im If Ie. unfold fn_dot_q. replace (n <? 1)%Z with false by (symmetry; apply Z.ltb_ge; lia).
  destruct (peters_f_si e y Ie) as (p & -> & Ip). cbn [rbind]. rewrite simplify_q by isq.
  eapply to_unit; [mean|isq|dim_eq|auto with units].
Qed.
Lemma t_merge_circ_si b a x y : is_ beta_dim x b -> quantity length_dim y a ->
  get_t_merge_circ_q (Some b) None None (Some a) None = Ok (in_unit gigayear (t_merge_circ_elem x y)).
Proof.
  intros Ib (Q & Ia). unfold get_t_merge_circ_q. cbn [check_q check_mass_freq_input rbind fst snd].
  eapply to_unit; [mean|isq; rewrite Q; reflexivity|dim_eq|auto with units].
Qed.

Lemma is_in_unit u x : 0 < u_size u -> is_ (u_dim u) x (in_unit u x).
Proof. intros U. split; [exact U|]. split; [reflexivity|]. unfold si, in_unit. cbn [mag unit_of]. now apply div_scale. Qed.


Lemma not_plain d x v : d <> dimensionless -> is_ d x v -> is_quantity v = true.
Proof. intros D (_ & E & _). destruct v; [exfalso; apply D; symmetry; exact E|reflexivity]. Qed.
Lemma length_not_none : length_dim <> dimensionless.
Proof. intros E. injection E. lra. Qed.
Lemma mass_not_none : mass_dim <> dimensionless.
Proof. intros E. injection E. lra. Qed.

Lemma t_merge_si xb x1 x2 xa xf b m_1 m_2 a f :
  opt_is beta_dim xb b -> opt_is mass_dim x1 m_1 -> opt_is mass_dim x2 m_2 -> opt_is length_dim xa a ->
  opt_is frequency_dim xf f ->
  get_t_merge_circ_q b m_1 m_2 a f = rmap (in_unit gigayear) (get_t_merge_circ_sc xb x1 x2 xa xf).
Proof.
  assert (BD : u_dim m4_per_s = beta_dim) by dim_eq.
  assert (IB : forall x, is_ beta_dim x (in_unit m4_per_s x)) by (intros x; rewrite <- BD; apply is_in_unit; auto with units).
  assert (IA : forall x, is_ length_dim x (in_unit au x)) by (intros x; apply (is_in_unit au); auto with units).
  assert (FINAL : forall vb va x y, is_ beta_dim x vb -> is_ length_dim y va ->
            to (vdiv (vpowi va 4) (vmul (lit 4) vb)) gigayear = Ok (in_unit gigayear (t_merge_circ_elem x y))).
  { intros vb va x y Ib Ia. pose proof (not_plain _ _ _ length_not_none Ia) as Q.
    eapply to_unit; [mean|isq; rewrite Q; reflexivity|dim_eq|auto with units]. }
  intros HB H1 H2 HA HF. unfold get_t_merge_circ_q, get_t_merge_circ_sc, check_q, check_sc, check_mass_freq_input.
  destruct xb, b; try contradiction; destruct x1, m_1; try contradiction; destruct x2, m_2; try contradiction;
    destruct xa, a; try contradiction; destruct xf, f; try contradiction; cbn [opt_is] in *; cbn [rbind];
    try reflexivity;
    rewrite ?(beta_si _ _ _ _ H1 H2); cbn [rbind]; try reflexivity;
    rewrite ?(a_from_f_si _ _ _ _ _ _ HF H1 H2); cbn [rbind fst snd rmap]; try reflexivity;
    apply FINAL; auto.
Qed.

(** *** Independence of the units, for all inputs *)
Ltac same_t := repeat first
  [ eassumption | (apply same_refl; apply proper_pl) | (apply same_refl; apply is_G) | (apply same_refl; apply is_c)
  | apply same_mul | apply same_div | apply same_pow | (apply same_powi; [lia|]) ].

Lemma chirp_mass_same m_1 m_2 m_1' m_2' : same m_1 m_1' -> same m_2 m_2' ->
  chirp_mass_q m_1 m_2 = chirp_mass_q m_1' m_2'.
Proof.
  intros A B. unfold chirp_mass_q. eapply same_bind; [now apply same_add|]. intros x y S.
  apply same_simplify; [auto with units|same_t].
Qed.
Lemma a_from_f_same f m_1 m_2 f' m_1' m_2' : same f f' -> same m_1 m_1' -> same m_2 m_2' ->
  get_a_from_f_orb_q f m_1 m_2 = get_a_from_f_orb_q f' m_1' m_2'.
Proof.
  intros F A B. unfold get_a_from_f_orb_q. eapply same_bind; [now apply same_add|]. intros x y S.
  apply same_simplify; [auto with units|same_t].
Qed.
Lemma f_from_a_same f m_1 m_2 f' m_1' m_2' : same f f' -> same m_1 m_1' -> same m_2 m_2' ->
  get_f_orb_from_a_q f m_1 m_2 = get_f_orb_from_a_q f' m_1' m_2'.
Proof.
  intros F A B. unfold get_f_orb_from_a_q. eapply same_bind; [now apply same_add|]. intros x y S.
  apply same_simplify; [auto with units|same_t].
Qed.
Lemma beta_same m_1 m_2 m_1' m_2' : same m_1 m_1' -> same m_2 m_2' -> beta_q m_1 m_2 = beta_q m_1' m_2'.
Proof.
  intros A B. unfold beta_q. eapply same_bind; [now apply same_add|]. intros x y S.
  apply same_simplify; [auto with units|same_t].
Qed.
Lemma c_0_same a e a' e' : same a a' -> same e e' -> c_0_q a e = c_0_q a' e'.
Proof.
  intros A B. unfold c_0_q. eapply same_bind; [apply same_sub; same_t|]. intros x y S.
  eapply same_bind; [apply same_add; same_t|]. intros x' y' S'.
  apply same_simplify; [auto with units|same_t].
Qed.
Lemma a_from_ecc_same a e a' e' : same e e' -> same a a' -> get_a_from_ecc_q e a = get_a_from_ecc_q e' a'.
Proof.
  intros A B. unfold get_a_from_ecc_q. eapply same_bind; [apply same_sub; same_t|]. intros x y S.
  eapply same_bind; [apply same_add; same_t|]. intros x' y' S'.
  apply same_simplify; [auto with units|same_t].
Qed.
Lemma peters_f_same e e' : same e e' -> res_same (peters_f_q e) (peters_f_q e').
Proof.
  intros E. unfold peters_f_q. eapply same_bind2; [apply same_add; same_t|]. intros x y S.
  eapply same_bind2; [apply same_add; same_t|]. intros x' y' S'.
  eapply same_bind2; [apply same_sub; same_t|]. intros x'' y'' S''. cbn [res_same]. same_t.
Qed.
Lemma fn_dot_same m f e m' f' e' n : same m m' -> same f f' -> same e e' -> fn_dot_q m f e n = fn_dot_q m' f' e' n.
Proof.
  intros M F E. unfold fn_dot_q. destruct (n <? 1)%Z; [reflexivity|].
  eapply same_bind; [now apply peters_f_same|]. intros x y S. apply same_simplify; [auto with units|same_t].
Qed.

Lemma t_merge_same b m_1 m_2 a f b' m_1' m_2' a' f' :
  opt_same b b' -> opt_same m_1 m_1' -> opt_same m_2 m_2' -> opt_same a a' -> opt_same f f' ->
  get_t_merge_circ_q b m_1 m_2 a f = get_t_merge_circ_q b' m_1' m_2' a' f'.
Proof.
  assert (T : forall v u q, 0 < u_size u -> simplify v u = Ok q -> is_quantity v = true -> proper q).
  { intros v u q U E Q. rewrite simplify_q in E by exact Q. destruct v; [discriminate|]. cbn [to] in E.
    destruct (dim_eqb _ _); [|discriminate]. injection E as <-. exact U. }
  assert (PB : forall x y v, beta_q x y = Ok v -> proper v).
  { intros x y v E. unfold beta_q in E. destruct (vadd x y); [|discriminate]. cbn [rbind] in E.
    eapply T; [|exact E|isq]. auto with units. }
  assert (PA : forall f x y v, get_a_from_f_orb_q f x y = Ok v -> proper v).
  { intros g x y v E. unfold get_a_from_f_orb_q in E. destruct (vadd x y); [|discriminate]. cbn [rbind] in E.
    eapply T; [|exact E|isq]. auto with units. }
  assert (FINAL : forall vb va vb' va', same vb vb' -> same va va' ->
    to (vdiv (vpowi va 4) (vmul (lit 4) vb)) gigayear = to (vdiv (vpowi va' 4) (vmul (lit 4) vb')) gigayear).
  { intros vb va vb' va' SB SA. apply same_to; [auto with units|same_t]. }
  intros HB H1 H2 HA HF. unfold get_t_merge_circ_q, check_q, check_mass_freq_input.
  destruct b, b'; try contradiction; destruct m_1, m_1'; try contradiction; destruct m_2, m_2'; try contradiction;
    destruct a, a'; try contradiction; destruct f, f'; try contradiction; cbn [opt_same] in *; cbn [rbind fst snd];
    try reflexivity; try (apply FINAL; assumption);
    rewrite ?(beta_same _ _ _ _ H1 H2), ?(a_from_f_same _ _ _ _ _ _ HF H1 H2);
    repeat match goal with
           | |- context [rbind (beta_q ?x ?y) _] => let E := fresh "E" in destruct (beta_q x y) eqn:E; cbn [rbind fst snd]
           | |- context [rbind (get_a_from_f_orb_q ?z ?x ?y) _] =>
               let E := fresh "E" in destruct (get_a_from_f_orb_q z x y) eqn:E; cbn [rbind fst snd]
           end; try reflexivity; apply FINAL; eauto using same_refl.
Qed.
