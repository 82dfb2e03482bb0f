(** UnitsWrong.v -- an input of the wrong dimension raises a unit error. *)
From Coq Require Import Reals ZArith List Bool Lra Lia.
From Verif Require Import Num NumFacts Np NpFacts Utils Strain Evol Units UnitsSpec UnitsFacts UnitsThms.
Import ListNotations.
Open Scope R_scope.
Open Scope res_scope.

Ltac dims := repeat first [rewrite dim_mul | rewrite dim_div | rewrite dim_pow | rewrite dim_powi].

(** The sum of two masses, one of them of the wrong dimension. *)
Lemma sum_wrong_l m_1 m_2 y : wrong mass_dim m_1 -> is_ mass_dim y m_2 -> vadd m_1 m_2 = Err UnitError.
Proof.
  intros (_ & W & A) I. pose proof (not_plain _ _ _ mass_not_none I) as Q. destruct I as (_ & D & _).
  apply sum_wrong; [congruence|exact A|congruence].
Qed.
Lemma sum_wrong_r m_1 m_2 x : is_ mass_dim x m_1 -> wrong mass_dim m_2 -> vadd m_1 m_2 = Err UnitError.
Proof.
  intros I (_ & W & A). pose proof (not_plain _ _ _ mass_not_none I) as Q. destruct I as (_ & D & _).
  apply sum_wrong; [congruence|congruence|exact A].
Qed.

(** The sum of a mass and anything: an error, or a mass (when the other operand is one, or a plain 0, inf or nan). *)
Lemma sum_mass a b y : dim_of a <> mass_dim -> is_ mass_dim y b ->
  vadd a b = Err UnitError \/ (is_quantity a = false /\ exists r, vadd a b = Ok r /\ is_quantity r = true /\ dim_of r = mass_dim).
Proof.
  intros W I. pose proof (not_plain _ _ _ mass_not_none I) as Q. destruct I as (P & D & _).
  destruct a as [x|x u].
  - destruct b as [z|z w]; [discriminate|]. unfold dim_of in D. cbn in D. cbn [vadd vsum].
    rewrite D, dim_eqb_neq by apply mass_not_none. destruct (arbitrary_unit x); [|now left].
    right. split; [reflexivity|]. eexists. repeat split; try reflexivity. exact D.
  - left. apply sum_wrong; [congruence|discriminate|congruence].
Qed.
Lemma sum_comm_res a b y : dim_of a <> mass_dim -> is_ mass_dim y b ->
  vadd b a = Err UnitError \/ (is_quantity a = false /\ exists r, vadd b a = Ok r /\ is_quantity r = true /\ dim_of r = mass_dim).
Proof.
  intros W I. pose proof (not_plain _ _ _ mass_not_none I) as Q. destruct I as (P & D & _).
  destruct a as [x|x u].
  - destruct b as [z|z w]; [discriminate|]. unfold dim_of in D. cbn in D. cbn [vadd vsum].
    rewrite D, dim_eqb_neq by apply mass_not_none. destruct (arbitrary_unit x); [|now left].
    right. split; [reflexivity|]. eexists. repeat split; try reflexivity. exact D.
  - left. apply sum_wrong; [congruence|congruence|discriminate].
Qed.

Lemma plain_dim v : is_quantity v = false -> dim_of v = dimensionless.
Proof. destruct v; [reflexivity|discriminate]. Qed.

Lemma chirp_mass_wrong m_1 m_2 : is_quantity m_1 || is_quantity m_2 = true ->
  (is_quantity m_1 = false -> arbitrary_unit (mag m_1) = false) ->
  (is_quantity m_2 = false -> arbitrary_unit (mag m_2) = false) ->
  dim_of m_1 <> mass_dim \/ dim_of m_2 <> mass_dim -> chirp_mass_q m_1 m_2 = Err UnitError.
Proof.
  intros Q A1 A2 W. unfold chirp_mass_q.
  destruct (dim_eqb_spec (dim_of m_1) (dim_of m_2)) as [E|E].
  - assert (W1 : dim_of m_1 <> mass_dim) by (intros X; destruct W; congruence).
    destruct (vadd m_1 m_2) as [s|e] eqn:S.
    + cbn [rbind]. rewrite simplify_q by (isq; rewrite Q; reflexivity). apply to_wrong; [isq; rewrite Q; reflexivity|].
      assert (DS : dim_of s = dim_of m_1).
      { unfold vadd, dim_of in *. destruct m_1 as [x|x u], m_2 as [y|y w]; try discriminate; cbn in *.
        - rewrite <- E, dim_eqb_refl in S. injection S as <-. reflexivity.
        - rewrite E, dim_eqb_refl in S. injection S as <-. cbn. congruence.
        - rewrite E, dim_eqb_refl in S. injection S as <-. reflexivity. }
      dims. rewrite DS, <- E. intros X. apply W1. injection X. intros. dim_eq.
    + cbn. f_equal. unfold vadd, vsum, dim_of in *. destruct m_1, m_2; try discriminate; cbn in *;
        repeat match type of S with context [if ?c then _ else _] => destruct c end; congruence.
  - unfold vadd. rewrite sum_wrong by assumption. reflexivity.
Qed.

Lemma a_from_f_wrong_f f m_1 m_2 x y : dim_of f <> frequency_dim -> is_ mass_dim x m_1 -> is_ mass_dim y m_2 ->
  get_a_from_f_orb_q f m_1 m_2 = Err UnitError.
Proof.
  intros W I1 I2. unfold get_a_from_f_orb_q, vadd. destruct (is_add _ _ _ _ _ I1 I2) as (s & E & (_ & DS & _) & QS).
  rewrite E. cbn [rbind]. rewrite simplify_q by isq. apply to_wrong; [isq|]. dims. rewrite DS.
  intros X. apply W. injection X. intros. dim_eq.
Qed.
Lemma a_from_f_wrong_m f m_1 m_2 : wrong mass_dim m_1 /\ (exists y, is_ mass_dim y m_2) \/
  (exists x, is_ mass_dim x m_1) /\ wrong mass_dim m_2 -> get_a_from_f_orb_q f m_1 m_2 = Err UnitError.
Proof.
  intros [(W & y & I)|((x & I) & W)]; unfold get_a_from_f_orb_q.
  - now rewrite (sum_wrong_l _ _ _ W I).
  - now rewrite (sum_wrong_r _ _ _ I W).
Qed.
Lemma f_from_a_wrong_a f m_1 m_2 x y : dim_of f <> length_dim -> is_ mass_dim x m_1 -> is_ mass_dim y m_2 ->
  get_f_orb_from_a_q f m_1 m_2 = Err UnitError.
Proof.
  intros W I1 I2. unfold get_f_orb_from_a_q, vadd. destruct (is_add _ _ _ _ _ I1 I2) as (s & E & (_ & DS & _) & QS).
  rewrite E. cbn [rbind]. rewrite simplify_q by isq. apply to_wrong; [isq|]. dims. rewrite DS.
  intros X. apply W. injection X. intros. dim_eq.
Qed.
Lemma f_from_a_wrong_m f m_1 m_2 : wrong mass_dim m_1 /\ (exists y, is_ mass_dim y m_2) \/
  (exists x, is_ mass_dim x m_1) /\ wrong mass_dim m_2 -> get_f_orb_from_a_q f m_1 m_2 = Err UnitError.
Proof.
  intros [(W & y & I)|((x & I) & W)]; unfold get_f_orb_from_a_q.
  - now rewrite (sum_wrong_l _ _ _ W I).
  - now rewrite (sum_wrong_r _ _ _ I W).
Qed.

Lemma beta_wrong m_1 m_2 : dim_of m_1 <> mass_dim /\ (exists y, is_ mass_dim y m_2) \/
  (exists x, is_ mass_dim x m_1) /\ dim_of m_2 <> mass_dim -> beta_q m_1 m_2 = Err UnitError.
Proof.
  intros [(W & y & I)|((x & I) & W)]; unfold beta_q.
  - destruct (sum_mass _ _ _ W I) as [->|(P & r & -> & Q & D)]; [reflexivity|]. cbn [rbind].
    rewrite simplify_q by isq. apply to_wrong; [isq|]. dims. rewrite D, (plain_dim _ P). destruct I as (_ & -> & _).
    intros X. injection X. lra.
  - destruct (sum_comm_res _ _ _ W I) as [->|(P & r & -> & Q & D)]; [reflexivity|]. cbn [rbind].
    rewrite simplify_q by isq. apply to_wrong; [isq|]. dims. rewrite D, (plain_dim _ P). destruct I as (_ & -> & _).
    intros X. injection X. lra.
Qed.

(** A dimensionful eccentricity is rejected by [1 - e**2] and by [1 + k*e**2]. *)
Lemma ecc_wrong e k n op : (0 < n)%Z -> dim_of e <> dimensionless ->
  vsum op (lit 1) (vmul (lit k) (vpowi e n)) = Err UnitError /\ vsum op (lit 1) (vpowi e n) = Err UnitError.
Proof.
  intros N W. assert (Q : is_quantity e = true) by (destruct e; [exfalso; apply W; reflexivity|reflexivity]).
  assert (A : arbitrary_unit (mag (lit 1)) = false) by (cbn; unfold Reqb; destruct (Req_EM_T 1 0); [lra|reflexivity]).
  assert (NZ : 0 < IZR n) by (apply IZR_lt; lia).
  assert (Z : dpow (dim_of e) (IZR n) <> dimensionless).
  { intros X. apply W. injection X. intros.
    repeat match goal with E : IZR n * _ = 0 |- _ => apply Rmult_integral in E; destruct E as [E|E]; [lra|] end.
    dim_eq. }
  split.
  - apply sum_wrong; [|auto|isq; rewrite Q; discriminate]. dims. change (dim_of (lit 1)) with dimensionless.
    change (dim_of (lit k)) with dimensionless. rewrite dmul_none_l. congruence.
  - apply sum_wrong; [|auto|isq; rewrite Q; discriminate]. dims. change (dim_of (lit 1)) with dimensionless. congruence.
Qed.

Lemma c_0_wrong_ecc a e : dim_of e <> dimensionless -> c_0_q a e = Err UnitError.
Proof. intros W. unfold c_0_q, vsub. destruct (ecc_wrong e 1 2 nsub eq_refl W) as (_ & ->). reflexivity. Qed.
Lemma a_from_ecc_wrong_ecc a e : dim_of e <> dimensionless -> get_a_from_ecc_q e a = Err UnitError.
Proof. intros W. unfold get_a_from_ecc_q, vsub. destruct (ecc_wrong e 1 2 nsub eq_refl W) as (_ & ->). reflexivity. Qed.
Lemma fn_dot_wrong_ecc m f e n : (1 <= n)%Z -> dim_of e <> dimensionless -> fn_dot_q m f e n = Err UnitError.
Proof.
  intros N W. unfold fn_dot_q. replace (n <? 1)%Z with false by (symmetry; apply Z.ltb_ge; lia).
  unfold peters_f_q, vadd. destruct (ecc_wrong e (73/24) 2 nadd eq_refl W) as (-> & _). reflexivity.
Qed.
Lemma c_0_wrong_a a e y : is_quantity a = true -> dim_of a <> length_dim -> is_ dimensionless y e -> c_0_q a e = Err UnitError.
Proof.
  intros Q W Ie. unfold c_0_q. destruct (one_minus_sq e y Ie) as (d & -> & (_ & Dd & _)). cbn [rbind].
  destruct (plus_sq (121/304) e y _ _ 2 (is_lit 1) eq_refl Ie) as (s & -> & (_ & Ds & _)). cbn [rbind].
  rewrite simplify_q by (isq; rewrite Q; reflexivity). apply to_wrong; [isq; rewrite Q; reflexivity|].
  dims. rewrite Dd, Ds. destruct Ie as (_ & -> & _). intros X. apply W. injection X. intros. dim_eq.
Qed.
Lemma a_from_ecc_wrong_a a e y : is_quantity a = true -> dim_of a <> length_dim -> is_ dimensionless y e ->
  get_a_from_ecc_q e a = Err UnitError.
Proof.
  intros Q W Ie. unfold get_a_from_ecc_q. destruct (one_minus_sq e y Ie) as (d & -> & (_ & Dd & _)). cbn [rbind].
  destruct (plus_sq (121/304) e y _ _ 2 (is_lit 1) eq_refl Ie) as (s & -> & (_ & Ds & _)). cbn [rbind].
  rewrite simplify_q by (isq; rewrite Q; reflexivity). apply to_wrong; [isq; rewrite Q; reflexivity|].
  dims. rewrite Dd, Ds. destruct Ie as (_ & -> & _). intros X. apply W. injection X. intros. dim_eq.
Qed.
Lemma fn_dot_wrong m f e n y : (1 <= n)%Z -> is_ dimensionless y e ->
  dim_of m <> mass_dim /\ dim_of f = frequency_dim \/ dim_of m = mass_dim /\ dim_of f <> frequency_dim ->
  fn_dot_q m f e n = Err UnitError.
Proof.
  intros N Ie W. unfold fn_dot_q. replace (n <? 1)%Z with false by (symmetry; apply Z.ltb_ge; lia).
  destruct (peters_f_si e y Ie) as (p & -> & (_ & Dp & _)). cbn [rbind].
  rewrite simplify_q by isq. apply to_wrong; [isq|]. dims. rewrite Dp.
  destruct W as [(W & D)|(D & W)]; rewrite D; intros X; apply W; injection X; intros; dim_eq.
Qed.
Lemma t_merge_wrong b a : dim_of b <> beta_dim /\ dim_of a = length_dim \/ dim_of b = beta_dim /\ dim_of a <> length_dim ->
  get_t_merge_circ_q (Some b) None None (Some a) None = Err UnitError.
Proof.
  intros W. unfold get_t_merge_circ_q. cbn [check_q check_mass_freq_input rbind fst snd].
  assert (Q : is_quantity a || is_quantity b = true).
  { destruct a as [x|x u]; [|reflexivity]. destruct b as [y|y w]; [|reflexivity]. exfalso. unfold dim_of in W. cbn in W.
    destruct W as [(_ & W)|(W & _)]; injection W; lra. }
  apply to_wrong; [isq; rewrite Q; reflexivity|]. dims.
  destruct W as [(W & D)|(D & W)]; rewrite D; intros X; apply W; injection X; intros; dim_eq.
Qed.

(** *** Plain numbers *)
Lemma plain_zero_companion f m_1 z x : is_ frequency_dim z f -> is_ mass_dim x m_1 ->
  get_a_from_f_orb_q f m_1 (lit 0) = Ok (in_unit au (get_a_from_f_orb z x (Fin 0))).
Proof.
  intros If I1. unfold get_a_from_f_orb_q, vadd. pose proof (not_plain _ _ _ mass_not_none I1) as Q.
  assert (E : exists s, vsum nadd m_1 (lit 0) = Ok s /\ is_ mass_dim (x + Fin 0)%num s).
  { destruct I1 as (P & D & <-). destruct m_1 as [y|y u]; [discriminate|]. unfold dim_of, proper, lit in *. cbn in D, P |- *.
    rewrite D, dim_eqb_neq by apply mass_not_none. unfold Reqb. destruct (Req_EM_T 0 0); [|congruence].
    eexists. split; [reflexivity|]. split; [exact P|]. split; [exact D|]. unfold si. cbn [mag unit_of].
    rewrite <- add_scale by exact P. f_equal. cbn. f_equal. ring. }
  destruct E as (s & -> & Is). cbn [rbind]. rewrite simplify_q by isq. eapply to_unit; [mean|isq|dim_eq|apply au_pos].
Qed.
Lemma chirp_mass_plain x y : chirp_mass_q (Pl x) (Pl y) = Ok (Pl (chirp_mass x y)).
Proof. reflexivity. Qed.
Lemma c_0_plain x y : c_0_q (Pl x) (Pl y) = Ok (Pl (c_0 x y)).
Proof. reflexivity. Qed.
Lemma a_from_ecc_plain x y : get_a_from_ecc_q (Pl y) (Pl x) = Ok (Pl (get_a_from_ecc y x)).
Proof. reflexivity. Qed.
