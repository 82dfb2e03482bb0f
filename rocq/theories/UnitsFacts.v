(** UnitsFacts.v -- the arithmetic of quantities agrees with the arithmetic of SI values. *)
From Coq Require Import Reals ZArith List Bool Lra Lia.
From Verif Require Import Num Np Utils Strain Evol Units UnitsSpec.
Import ListNotations.
Open Scope R_scope.
Open Scope res_scope.

Ltac cmp := unfold Rltb, Rleb, Reqb in *; repeat match goal with
  | |- context [Rlt_dec ?a ?b] => destruct (Rlt_dec a b)
  | |- context [Rle_dec ?a ?b] => destruct (Rle_dec a b)
  | |- context [Req_EM_T ?a ?b] => destruct (Req_EM_T a b) end; try reflexivity; try (exfalso; lra).

(** *** Scaling by a positive factor *)
Lemma pos_mul_sgn s r : 0 < s -> (0 < r <-> 0 < r * s) /\ (r < 0 <-> r * s < 0) /\ (r = 0 <-> r * s = 0).
Proof.
  intros S. destruct (Rtotal_order r 0) as [K|[K|K]].
  - assert (r * s < 0) by nra. repeat split; intros H'; lra.
  - subst. rewrite Rmult_0_l. repeat split; intros H'; lra.
  - assert (0 < r * s) by nra. repeat split; intros H'; lra.
Qed.

Lemma scale_fin r s : (Fin r * Fin s)%num = Fin (r * s).
Proof. reflexivity. Qed.
Lemma scale_pinf s : 0 < s -> (PInf * Fin s)%num = PInf.
Proof. intros S. cbn. cmp. Qed.
Lemma scale_ninf s : 0 < s -> (NInf * Fin s)%num = NInf.
Proof. intros S. cbn. cmp. Qed.
Lemma scale_nan s : (NaN * Fin s)%num = NaN.
Proof. reflexivity. Qed.
Lemma scale_one x : (x * Fin 1)%num = x.
Proof. destruct x; [cbn; f_equal; ring|apply scale_pinf; lra|apply scale_ninf; lra|reflexivity]. Qed.
Lemma scale_scale x s t : 0 < s -> 0 < t -> (x * Fin s * Fin t = x * Fin (s * t))%num.
Proof.
  intros S T. assert (0 < s * t) by (apply Rmult_lt_0_compat; assumption).
  destruct x; rewrite ?scale_pinf, ?scale_ninf, ?scale_nan by assumption; try reflexivity.
  cbn. f_equal. ring.
Qed.
Lemma scale_div x s t : 0 < s -> 0 < t -> (x * Fin s / Fin t = x * Fin (s / t))%num.
Proof.
  intros S T. assert (0 < s / t) by (apply Rdiv_lt_0_compat; assumption).
  destruct x; rewrite ?scale_pinf, ?scale_ninf, ?scale_nan by assumption.
  - cbn. cmp; f_equal; unfold Rdiv; ring.
  - cbn. cmp.
  - cbn. cmp.
  - reflexivity.
Qed.
Lemma div_scale x s : 0 < s -> ((x / Fin s) * Fin s = x)%num.
Proof.
  intros S. destruct x as [r| | |]; try reflexivity.
  - cbn. cmp; cbn; f_equal; field; lra.
  - cbn. cmp; cbn; cmp.
  - cbn. cmp; cbn; cmp.
Qed.

(** *** Multiplication, division, powers *)
Lemma inf_times_scale r s : 0 < s -> inf_times (Fin (r * s)) = inf_times (Fin r).
Proof. intros S. destruct (pos_mul_sgn s r S) as (A & B & C). cbn. cmp; exfalso; tauto. Qed.

Lemma mul_scale x y s t : 0 < s -> 0 < t -> ((x * Fin s) * (y * Fin t) = (x * y) * Fin (s * t))%num.
Proof.
  intros S T. assert (ST : 0 < s * t) by (apply Rmult_lt_0_compat; assumption).
  destruct x as [a| | |], y as [b| | |]; rewrite ?scale_pinf, ?scale_ninf, ?scale_nan by assumption; try reflexivity.
  - cbn. f_equal. ring.
  - rewrite scale_fin. change (Fin (a * s) * PInf)%num with (inf_times (Fin (a * s))).
    change (Fin a * PInf)%num with (inf_times (Fin a)). rewrite inf_times_scale by assumption.
    cbn. cmp; rewrite ?scale_pinf, ?scale_ninf; auto.
  - rewrite scale_fin. change (Fin (a * s) * NInf)%num with (nneg (inf_times (Fin (a * s)))).
    change (Fin a * NInf)%num with (nneg (inf_times (Fin a))). rewrite inf_times_scale by assumption.
    cbn. cmp; cbn; cmp.
  - rewrite scale_fin. change (PInf * Fin (b * t))%num with (inf_times (Fin (b * t))).
    change (PInf * Fin b)%num with (inf_times (Fin b)). rewrite inf_times_scale by assumption.
    cbn. cmp; cbn; cmp.
  - rewrite scale_fin. change (NInf * Fin (b * t))%num with (nneg (inf_times (Fin (b * t)))).
    change (NInf * Fin b)%num with (nneg (inf_times (Fin b))). rewrite inf_times_scale by assumption.
    cbn. cmp; cbn; cmp.
Qed.

Lemma quot_scale x y s t : 0 < s -> 0 < t -> ((x * Fin s) / (y * Fin t) = (x / y) * Fin (s / t))%num.
Proof.
  intros S T. assert (ST : 0 < s / t) by (apply Rdiv_lt_0_compat; assumption).
  destruct x as [a| | |], y as [b| | |]; rewrite ?scale_pinf, ?scale_ninf, ?scale_nan by assumption; try reflexivity.
  - rewrite !scale_fin. destruct (pos_mul_sgn s a S) as (A & B & C), (pos_mul_sgn t b T) as (A' & B' & C').
    unfold ndiv. unfold Reqb. destruct (Req_EM_T (b * t) 0) as [Z|Z], (Req_EM_T b 0) as [W|W]; try (exfalso; tauto).
    + unfold Rltb. destruct (Rlt_dec 0 (a * s)), (Rlt_dec 0 a); try (exfalso; tauto).
      { rewrite scale_pinf; auto. }
      destruct (Rlt_dec (a * s) 0), (Rlt_dec a 0); try (exfalso; tauto).
      { rewrite scale_ninf; auto. } reflexivity.
    + cbn. f_equal. field. split; lra.
  - cbn. f_equal. ring.
  - cbn. f_equal. ring.
  - rewrite scale_fin. destruct (pos_mul_sgn t b T) as (A' & B' & C'). unfold ndiv, Rltb.
    destruct (Rlt_dec (b * t) 0), (Rlt_dec b 0); try (exfalso; tauto); rewrite ?scale_pinf, ?scale_ninf; auto.
  - rewrite scale_fin. destruct (pos_mul_sgn t b T) as (A' & B' & C'). unfold ndiv, Rltb.
    destruct (Rlt_dec (b * t) 0), (Rlt_dec b 0); try (exfalso; tauto); rewrite ?scale_pinf, ?scale_ninf; auto.
Qed.

Lemma pow_scale x s p : 0 < s -> ((x * Fin s) ** p = x ** p * Fin (Rpower s p))%num.
Proof.
  intros S. assert (P : 0 < Rpower s p) by apply exp_pos.
  destruct x as [r| | |]; rewrite ?scale_pinf, ?scale_ninf, ?scale_nan by assumption; try reflexivity.
  - rewrite scale_fin. destruct (pos_mul_sgn s r S) as (A & B & C). unfold npowr, Rltb, Reqb.
    destruct (Rlt_dec 0 (r * s)), (Rlt_dec 0 r); try (exfalso; tauto).
    + cbn. f_equal. symmetry. apply Rpower_mult_distr; assumption.
    + destruct (Req_EM_T (r * s) 0), (Req_EM_T r 0); try (exfalso; tauto).
      * destruct (Rlt_dec 0 p); [cbn; f_equal; ring|rewrite scale_pinf; auto].
      * reflexivity.
  - unfold npowr, Rltb. destruct (Rlt_dec 0 p); [rewrite scale_pinf; auto|cbn; f_equal; ring].
  - unfold npowr, Rltb. destruct (Rlt_dec 0 p); [rewrite scale_pinf; auto|cbn; f_equal; ring].
Qed.

Lemma powerRZ_pos s k : 0 < s -> 0 < powerRZ s k.
Proof. intros S. apply powerRZ_lt. exact S. Qed.
Lemma powerRZ_nonneg s k : (0 <= k)%Z -> powerRZ s k = s ^ Z.to_nat k.
Proof. intros K. destruct k; [reflexivity|reflexivity|lia]. Qed.
Lemma powerRZ_negative s k : (k < 0)%Z -> powerRZ s k = / s ^ Z.to_nat (- k).
Proof. intros K. destruct k; [lia|lia|reflexivity]. Qed.

Lemma powi_scale x s k : (0 < k)%Z -> 0 < s -> ((x * Fin s) ^^ k = x ^^ k * Fin (powerRZ s k))%num.
Proof.
  intros K S. pose proof (powerRZ_pos s k S) as P.
  assert (K0 : (0 <=? k)%Z = true) by (apply Z.leb_le; lia). assert (K1 : (0 <? k)%Z = true) by (apply Z.ltb_lt; lia).
  assert (K2 : (k =? 0)%Z = false) by (apply Z.eqb_neq; lia).
  destruct x as [r| | |]; rewrite ?scale_pinf, ?scale_ninf, ?scale_nan by assumption.
  - rewrite scale_fin. unfold npowi. rewrite K0. cbn. f_equal. rewrite powerRZ_nonneg by lia. apply Rpow_mult_distr.
  - unfold npowi. rewrite K1. now rewrite scale_pinf.
  - unfold npowi. rewrite K1. destruct (Z.even k); [now rewrite scale_pinf|now rewrite scale_ninf].
  - unfold npowi. rewrite K2. reflexivity.
Qed.

Lemma add_scale x y s : 0 < s -> (x * Fin s + y * Fin s = (x + y) * Fin s)%num.
Proof.
  intros S. destruct x, y; rewrite ?scale_pinf, ?scale_ninf, ?scale_nan by assumption; try reflexivity;
    try (rewrite scale_fin; cbn; cmp); cbn; try (cmp; fail).
  f_equal. ring.
Qed.
Lemma neg_scale x s : 0 < s -> ((- x) * Fin s = - (x * Fin s))%num.
Proof.
  intros S. destruct x as [r| | |]; cbn [nneg]; rewrite ?scale_pinf, ?scale_ninf, ?scale_nan by assumption;
    try reflexivity. cbn. f_equal. ring.
Qed.
Lemma sub_scale x y s : 0 < s -> (x * Fin s - y * Fin s = (x - y) * Fin s)%num.
Proof. intros S. unfold nsub. rewrite <- neg_scale by assumption. now apply add_scale. Qed.

(** *** Dimensions *)
Lemma dim_ext a b : d_m a = d_m b -> d_kg a = d_kg b -> d_s a = d_s b -> d_rad a = d_rad b -> d_A a = d_A b ->
  d_K a = d_K b -> d_mol a = d_mol b -> d_cd a = d_cd b -> a = b.
Proof. destruct a, b. cbn. intros; subst. reflexivity. Qed.
Ltac dim_eq := apply dim_ext; cbn; try lra.

Lemma dim_eqb_spec a b : reflect (a = b) (dim_eqb a b).
Proof.
  destruct a, b. unfold dim_eqb, Reqb. cbn.
  repeat match goal with |- context [Req_EM_T ?x ?y] => destruct (Req_EM_T x y); subst end; cbn; constructor; congruence.
Qed.
Lemma dim_eqb_refl a : dim_eqb a a = true.
Proof. destruct (dim_eqb_spec a a); congruence. Qed.
Lemma dim_eqb_neq a b : a <> b -> dim_eqb a b = false.
Proof. destruct (dim_eqb_spec a b); congruence. Qed.

Lemma dmul_none_l d : dmul dimensionless d = d.
Proof. dim_eq. Qed.
Lemma dmul_none_r d : dmul d dimensionless = d.
Proof. dim_eq. Qed.
Lemma ddiv_none_r d : ddiv d dimensionless = d.
Proof. dim_eq. Qed.
Lemma dpow_none p : dpow dimensionless p = dimensionless.
Proof. dim_eq. Qed.

(** *** Values *)
Lemma si_pl x : si (Pl x) = x.
Proof. apply scale_one. Qed.
Lemma proper_pl x : proper (Pl x).
Proof. unfold proper. cbn. lra. Qed.
Lemma is_pl x : is_ dimensionless x (Pl x).
Proof. split; [apply proper_pl|split; [reflexivity|apply si_pl]]. Qed.
Lemma is_lit r : is_ dimensionless (Fin r) (lit r).
Proof. apply is_pl. Qed.
Lemma is_G : is_ (mkDim 3 (-1) (-2) 0 0 0 0 0) (Fin Ggrav) Gq.
Proof. split; [unfold proper; cbn; lra|split; [reflexivity|apply scale_one]]. Qed.
Lemma is_c : is_ (mkDim 1 0 (-1) 0 0 0 0 0) (Fin clight) cq.
Proof. split; [unfold proper; cbn; lra|split; [reflexivity|apply scale_one]]. Qed.

Lemma mul_as a b : is_quantity a || is_quantity b = true ->
  vmul a b = Qy (mag a * mag b) (umul (unit_of a) (unit_of b)).
Proof. destruct a, b; cbn; intros; (discriminate || reflexivity). Qed.
Lemma div_as a b : is_quantity a || is_quantity b = true ->
  vdiv a b = Qy (mag a / mag b) (udiv (unit_of a) (unit_of b)).
Proof. destruct a, b; cbn; intros; (discriminate || reflexivity). Qed.

Lemma quantity_mul a b : is_quantity (vmul a b) = is_quantity a || is_quantity b.
Proof. destruct a, b; reflexivity. Qed.
Lemma quantity_div a b : is_quantity (vdiv a b) = is_quantity a || is_quantity b.
Proof. destruct a, b; reflexivity. Qed.
Lemma quantity_pow a p : is_quantity (vpow a p) = is_quantity a.
Proof. destruct a; reflexivity. Qed.
Lemma quantity_powi a k : is_quantity (vpowi a k) = is_quantity a.
Proof. destruct a; reflexivity. Qed.

Lemma dim_mul a b : dim_of (vmul a b) = dmul (dim_of a) (dim_of b).
Proof. destruct a, b; try reflexivity. unfold dim_of. cbn. now rewrite dmul_none_l. Qed.
Lemma dim_div a b : dim_of (vdiv a b) = ddiv (dim_of a) (dim_of b).
Proof. destruct a, b; try reflexivity. unfold dim_of. cbn. now rewrite ddiv_none_r. Qed.
Lemma dim_pow a p : dim_of (vpow a p) = dpow (dim_of a) p.
Proof. destruct a; try reflexivity. unfold dim_of. cbn. now rewrite dpow_none. Qed.
Lemma dim_powi a k : dim_of (vpowi a k) = dpow (dim_of a) (IZR k).
Proof. destruct a; try reflexivity. unfold dim_of. cbn. now rewrite dpow_none. Qed.

Lemma proper_mul a b : proper a -> proper b -> proper (vmul a b).
Proof.
  intros A B. destruct (is_quantity a || is_quantity b) eqn:Q.
  - rewrite mul_as by exact Q. unfold proper. cbn. apply Rmult_lt_0_compat; assumption.
  - destruct a, b; try discriminate. apply proper_pl.
Qed.
Lemma proper_div a b : proper a -> proper b -> proper (vdiv a b).
Proof.
  intros A B. destruct (is_quantity a || is_quantity b) eqn:Q.
  - rewrite div_as by exact Q. unfold proper. cbn. apply Rdiv_lt_0_compat; assumption.
  - destruct a, b; try discriminate. apply proper_pl.
Qed.
Lemma proper_pow a p : proper a -> proper (vpow a p).
Proof. destruct a; intros A; [apply proper_pl|apply exp_pos]. Qed.
Lemma proper_powi a k : proper a -> proper (vpowi a k).
Proof. destruct a; intros A; [apply proper_pl|apply powerRZ_pos; exact A]. Qed.

Lemma si_mul a b : proper a -> proper b -> si (vmul a b) = (si a * si b)%num.
Proof.
  intros A B. destruct (is_quantity a || is_quantity b) eqn:Q.
  - rewrite mul_as by exact Q. unfold si at 1. cbn [mag unit_of umul u_size]. symmetry. apply mul_scale; assumption.
  - destruct a, b; try discriminate. cbn [vmul]. now rewrite !si_pl.
Qed.
Lemma si_div a b : proper a -> proper b -> si (vdiv a b) = (si a / si b)%num.
Proof.
  intros A B. destruct (is_quantity a || is_quantity b) eqn:Q.
  - rewrite div_as by exact Q. unfold si at 1. cbn [mag unit_of udiv u_size]. symmetry. apply quot_scale; assumption.
  - destruct a, b; try discriminate. cbn [vdiv]. now rewrite !si_pl.
Qed.
Lemma si_pow a p : proper a -> si (vpow a p) = (si a ** p)%num.
Proof.
  destruct a; intros A; cbn [vpow]; [now rewrite !si_pl|].
  unfold si. cbn [mag unit_of upow u_size]. symmetry. apply pow_scale. exact A.
Qed.
Lemma si_powi a k : (0 < k)%Z -> proper a -> si (vpowi a k) = (si a ^^ k)%num.
Proof.
  intros K. destruct a; intros A; cbn [vpowi]; [now rewrite !si_pl|].
  unfold si. cbn [mag unit_of upowi u_size]. symmetry. apply powi_scale; assumption.
Qed.

(** *** What each operation means *)
Lemma is_mul a b d e x y : is_ d x a -> is_ e y b -> is_ (dmul d e) (x * y) (vmul a b).
Proof.
  intros (A & <- & <-) (B & <- & <-).
  split; [now apply proper_mul|split; [apply dim_mul|now apply si_mul]].
Qed.
Lemma is_div a b d e x y : is_ d x a -> is_ e y b -> is_ (ddiv d e) (x / y) (vdiv a b).
Proof.
  intros (A & <- & <-) (B & <- & <-).
  split; [now apply proper_div|split; [apply dim_div|now apply si_div]].
Qed.
Lemma is_pow a d x p : is_ d x a -> is_ (dpow d p) (x ** p) (vpow a p).
Proof. intros (A & <- & <-). split; [now apply proper_pow|split; [apply dim_pow|now apply si_pow]]. Qed.
Lemma is_powi a d x k : (0 < k)%Z -> is_ d x a -> is_ (dpow d (IZR k)) (x ^^ k) (vpowi a k).
Proof. intros K (A & <- & <-). split; [now apply proper_powi|split; [apply dim_powi|now apply si_powi]]. Qed.

Section Sum.
Variable op : num -> num -> num.
Hypothesis op_scale : forall x y s, 0 < s -> (op (x * Fin s) (y * Fin s) = op x y * Fin s)%num.

Lemma is_sum a b d x y : is_ d x a -> is_ d y b ->
  exists r, vsum op a b = Ok r /\ is_ d (op x y) r /\ is_quantity r = is_quantity a || is_quantity b.
Proof.
  intros (A & DA & <-) (B & DB & <-). unfold proper, dim_of in *.
  destruct a as [x|x u], b as [y|y w]; cbn [unit_of u_dim one_] in *.
  - exists (Pl (op x y)). rewrite !si_pl. subst d. split; [reflexivity|split; [apply is_pl|reflexivity]].
  - cbn [vsum]. rewrite DB, <- DA, dim_eqb_refl. eexists. split; [reflexivity|]. split; [|reflexivity].
    split; [unfold proper; cbn; lra|]. split; [reflexivity|]. unfold si. cbn [mag unit_of u_size one_].
    now rewrite !scale_one.
  - cbn [vsum]. rewrite DA, <- DB, dim_eqb_refl. eexists. split; [reflexivity|]. split; [|reflexivity].
    split; [unfold proper; cbn; lra|]. split; [reflexivity|]. unfold si. cbn [mag unit_of u_size one_].
    now rewrite !scale_one.
  - cbn [vsum]. rewrite DB, <- DA, dim_eqb_refl. eexists. split; [reflexivity|]. split; [|reflexivity].
    split; [exact A|]. split; [reflexivity|]. unfold si. cbn [mag unit_of u_size].
    rewrite <- op_scale by exact A. f_equal. rewrite scale_scale by (try apply Rdiv_lt_0_compat; assumption).
    do 2 f_equal. field. lra.
Qed.
End Sum.
Definition is_add := is_sum nadd add_scale.
Definition is_sub := is_sum nsub sub_scale.

Lemma to_unit v u d x : is_ d x v -> is_quantity v = true -> u_dim u = d -> 0 < u_size u -> to v u = Ok (in_unit u x).
Proof.
  intros (P & D & S) Q U Z. destruct v as [y|y w]; [discriminate|]. unfold proper, dim_of, si in *. cbn in P, D, S.
  cbn [to]. rewrite D, U, dim_eqb_refl. unfold in_unit. do 2 f_equal. rewrite <- S. symmetry. apply scale_div; assumption.
Qed.
Lemma to_wrong v u : is_quantity v = true -> dim_of v <> u_dim u -> to v u = Err UnitError.
Proof.
  intros Q U. destruct v as [y|y w]; [discriminate|]. cbn [to]. rewrite dim_eqb_neq by exact U. reflexivity.
Qed.
Lemma simplify_q v u : is_quantity v = true -> simplify v u = to v u.
Proof. intros Q. unfold simplify. now rewrite Q. Qed.

(** *** Wrong dimensions *)
Lemma sum_wrong op a b : dim_of a <> dim_of b ->
  (is_quantity a = false -> arbitrary_unit (mag a) = false) ->
  (is_quantity b = false -> arbitrary_unit (mag b) = false) -> vsum op a b = Err UnitError.
Proof.
  intros D A B. unfold dim_of in D. destruct a as [x|x u], b as [y|y w]; cbn [unit_of u_dim one_] in D.
  - congruence.
  - cbn [vsum]. rewrite dim_eqb_neq by congruence. cbn in A. now rewrite A.
  - cbn [vsum]. rewrite dim_eqb_neq by congruence. cbn in B. now rewrite B.
  - cbn [vsum]. now rewrite dim_eqb_neq by congruence.
Qed.

(** *** The same quantity in other units *)
Definition res_same (a b : res val) : Prop :=
  match a, b with Ok x, Ok y => same x y | Err e, Err f => e = f | _, _ => False end.

Lemma same_refl v : proper v -> same v v.
Proof. intros P. repeat split; assumption. Qed.
Lemma same_is v w : same v w -> is_ (dim_of v) (si v) v /\ is_ (dim_of v) (si v) w.
Proof. intros (A & B & Q & D & S). repeat split; auto. Qed.
Lemma same_mul a a' b b' : same a a' -> same b b' -> same (vmul a b) (vmul a' b').
Proof.
  intros (A & A' & QA & DA & SA) (B & B' & QB & DB & SB).
  split; [now apply proper_mul|]. split; [now apply proper_mul|].
  rewrite !quantity_mul, !dim_mul, !si_mul by assumption. repeat split; congruence.
Qed.
Lemma same_div a a' b b' : same a a' -> same b b' -> same (vdiv a b) (vdiv a' b').
Proof.
  intros (A & A' & QA & DA & SA) (B & B' & QB & DB & SB).
  split; [now apply proper_div|]. split; [now apply proper_div|].
  rewrite !quantity_div, !dim_div, !si_div by assumption. repeat split; congruence.
Qed.
Lemma same_pow a a' p : same a a' -> same (vpow a p) (vpow a' p).
Proof.
  intros (A & A' & QA & DA & SA). split; [now apply proper_pow|]. split; [now apply proper_pow|].
  rewrite !quantity_pow, !dim_pow, !si_pow by assumption. repeat split; congruence.
Qed.
Lemma same_powi a a' k : (0 < k)%Z -> same a a' -> same (vpowi a k) (vpowi a' k).
Proof.
  intros K (A & A' & QA & DA & SA). split; [now apply proper_powi|]. split; [now apply proper_powi|].
  rewrite !quantity_powi, !dim_powi, !si_powi by assumption. repeat split; congruence.
Qed.
Lemma same_pl x y : same (Pl x) (Pl y) -> x = y.
Proof. intros (_ & _ & _ & _ & S). now rewrite !si_pl in S. Qed.

Lemma arbitrary_scale x s : 0 < s -> arbitrary_unit x = true -> (x * Fin s = x)%num.
Proof.
  intros S A. destruct x as [r| | |]; cbn in A; [|now apply scale_pinf|now apply scale_ninf|reflexivity].
  unfold Reqb in A. destruct (Req_EM_T r 0); [subst|discriminate]. cbn. f_equal. ring.
Qed.

Lemma same_sum op (OS : forall x y s, 0 < s -> (op (x * Fin s) (y * Fin s) = op x y * Fin s)%num) a a' b b' :
  same a a' -> same b b' -> res_same (vsum op a b) (vsum op a' b').
Proof.
  intros SA SB. pose proof (same_is _ _ SA) as (IA & IA'). pose proof (same_is _ _ SB) as (IB & IB').
  destruct (dim_eqb_spec (dim_of a) (dim_of b)) as [D|D].
  - rewrite <- D in IB, IB'.
    destruct (is_sum op OS _ _ _ _ _ IA IB) as (r & E & (P & DR & SR) & Q).
    destruct (is_sum op OS _ _ _ _ _ IA' IB') as (r' & E' & (P' & DR' & SR') & Q').
    rewrite E, E'. cbn. destruct SA as (_ & _ & QA & _), SB as (_ & _ & QB & _).
    repeat split; try assumption; congruence.
  - destruct SA as (A & A' & QA & DA & SA), SB as (B & B' & QB & DB & SB).
    assert (D' : dim_of a' <> dim_of b') by congruence. unfold dim_of, proper in *.
    destruct a as [x|x u], a' as [x'|x' u']; try discriminate; destruct b as [y|y w], b' as [y'|y' w']; try discriminate;
      cbn [unit_of u_dim one_ u_size] in *.
    + congruence.
    + cbn [vsum]. rewrite !dim_eqb_neq by congruence. rewrite !si_pl in SA. subst x'.
      destruct (arbitrary_unit x) eqn:R; [|reflexivity]. cbn. repeat split; try assumption.
      unfold si in *. cbn [mag unit_of u_size] in *. rewrite <- !OS by assumption.
      rewrite !(arbitrary_scale x) by assumption. now rewrite SB.
    + cbn [vsum]. rewrite !dim_eqb_neq by congruence. rewrite !si_pl in SB. subst y'.
      destruct (arbitrary_unit y) eqn:R; [|reflexivity]. cbn. repeat split; try assumption.
      unfold si in *. cbn [mag unit_of u_size] in *. rewrite <- !OS by assumption.
      rewrite !(arbitrary_scale y) by assumption. now rewrite SA.
    + cbn [vsum]. rewrite !dim_eqb_neq by congruence. reflexivity.
Qed.
Definition same_add := same_sum nadd add_scale.
Definition same_sub := same_sum nsub sub_scale.

Lemma same_bind {B} (m m' : res val) (f f' : val -> res B) : res_same m m' ->
  (forall x y, same x y -> f x = f' y) -> rbind m f = rbind m' f'.
Proof. intros S F. destruct m, m'; cbn in *; try contradiction; [now apply F|congruence]. Qed.
Lemma same_bind2 (m m' : res val) (f f' : val -> res val) : res_same m m' ->
  (forall x y, same x y -> res_same (f x) (f' y)) -> res_same (rbind m f) (rbind m' f').
Proof. intros S F. destruct m, m'; cbn in *; try contradiction; [now apply F|congruence]. Qed.

Lemma same_to v w u : 0 < u_size u -> same v w -> to v u = to w u.
Proof.
  intros U S. destruct (same_is _ _ S) as (I & I'). destruct S as (_ & _ & Q & D & _).
  destruct (is_quantity v) eqn:QV; [|destruct v, w; try discriminate; reflexivity].
  destruct (dim_eqb_spec (dim_of v) (u_dim u)) as [E|E].
  - rewrite (to_unit v u _ _ I), (to_unit w u _ _ I'); auto.
  - rewrite !to_wrong; congruence.
Qed.
Lemma same_simplify v w u : 0 < u_size u -> same v w -> simplify v u = simplify w u.
Proof.
  intros U S. unfold simplify. pose proof S as (_ & _ & Q & _). rewrite <- Q. destruct (is_quantity v) eqn:QV.
  - now apply same_to.
  - destruct v, w; try discriminate. f_equal. f_equal. now apply same_pl.
Qed.
Lemma same_decompose v w : same v w -> decompose_value v = decompose_value w.
Proof. intros (_ & _ & Q & _ & S). destruct v, w; try discriminate; [reflexivity|]. cbn. f_equal. exact S. Qed.
