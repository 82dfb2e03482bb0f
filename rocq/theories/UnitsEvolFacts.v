(** UnitsEvolFacts.v -- the entry-wise parts of evol.py: quantities against SI values. *)
From Coq Require Import String Reals ZArith List Bool Lra Lia.
From Verif Require Import Num NumFacts Np NpFacts Utils UtilsFacts Strain Evol EvolFacts Units UnitsSpec UnitsFacts UnitsThms UnitsStrain UnitsEvol UnitsEvolSpec.
Import ListNotations.
Open Scope list_scope.
Open Scope R_scope.
Open Scope res_scope.

(** [v] expresses the SI value [x]; the same with a unit of size [s]. *)
Definition isv (d : dim) (v : val) (x : num) : Prop := is_ d x v.
Definition isz (d : dim) (s : R) (v : val) (x : num) : Prop := is_ d x v /\ u_size (unit_of v) = s.

Lemma isz_isv d s v x : isz d s v x -> isv d v x.
Proof. now intros (H & _). Qed.
Lemma forall2_imp {A B} (R T : A -> B -> Prop) l l' : (forall x y, R x y -> T x y) -> Forall2 R l l' -> Forall2 T l l'.
Proof. intros H F. induction F; constructor; auto. Qed.
Lemma all_isv d s l l' : Forall2 (isz d s) l l' -> Forall2 (isv d) l l'.
Proof. apply forall2_imp, isz_isv. Qed.

Lemma isz_in d u x : unit_for d u -> isz d (u_size u) (in_unit u x) x.
Proof. intros (P & <-). split; [now apply is_in_unit|reflexivity]. Qed.
Lemma isv_in d u x : unit_for d u -> isv d (in_unit u x) x.
Proof. intros H. eapply isz_isv, isz_in, H. Qed.
Lemma list_isz d u l : unit_for d u -> Forall2 (isz d (u_size u)) (map (in_unit u) l) l.
Proof. intros H. induction l; constructor; auto using isz_in. Qed.
Lemma list_isv d u l : unit_for d u -> Forall2 (isv d) (map (in_unit u) l) l.
Proof. intros H. eapply all_isv, list_isz, H. Qed.
Lemma rows_isv d u l : unit_for d u -> Forall2 (Forall2 (isv d)) (map (map (in_unit u)) l) l.
Proof. intros H. induction l; constructor; auto using list_isv. Qed.

Lemma unit_gigayear : unit_for time_dim gigayear.
Proof. split; [exact gigayear_pos|reflexivity]. Qed.
Lemma unit_year : unit_for time_dim year.
Proof. split; [exact year_pos|reflexivity]. Qed.
Lemma unit_second : unit_for time_dim second.
Proof. split; [cbn; lra|reflexivity]. Qed.
Lemma unit_au : unit_for length_dim au.
Proof. split; [exact au_pos|reflexivity]. Qed.
Lemma unit_meter : unit_for length_dim meter.
Proof. split; [cbn; lra|reflexivity]. Qed.
Lemma unit_hertz : unit_for frequency_dim hertz.
Proof. split; [exact hertz_pos|reflexivity]. Qed.
Lemma unit_m4s : unit_for beta_dim m4_per_s.
Proof. split; [exact m4s_pos|dim_eq]. Qed.
Lemma unit_msun : unit_for mass_dim msun.
Proof. split; [exact msun_pos|reflexivity]. Qed.
#[global] Hint Resolve unit_gigayear unit_year unit_second unit_au unit_meter unit_hertz unit_m4s unit_msun : units.

Lemma time_not_none : time_dim <> dimensionless.
Proof. intros E. injection E. lra. Qed.
Lemma frequency_not_none : frequency_dim <> dimensionless.
Proof. intros E. injection E. lra. Qed.
Lemma beta_not_none : beta_dim <> dimensionless.
Proof. intros E. injection E. lra. Qed.
#[global] Hint Resolve time_not_none frequency_not_none beta_not_none length_not_none mass_not_none : units.

Lemma to_in d u v x : unit_for d u -> d <> dimensionless -> isv d v x -> to v u = Ok (in_unit u x).
Proof. intros (P & D) N I. eapply to_unit; [exact I|eapply not_plain; eassumption|exact D|exact P]. Qed.
Lemma over_one x : (x / Fin 1)%num = x.
Proof. exact (scale_back x). Qed.
Lemma to_value_si d u v x : unit_for d u -> u_size u = 1 -> d <> dimensionless -> isv d v x -> to_value v u = Ok x.
Proof.
  intros U S N I. unfold to_value. rewrite (to_in _ _ _ _ U N I). cbn [rbind mag in_unit]. rewrite S, over_one. reflexivity.
Qed.

Lemma m4s_one : u_size m4_per_s = 1.
Proof. change (powerRZ 1 4 / 1 = 1). rewrite powerRZ_nonneg by lia. rewrite pow1. lra. Qed.

(** *** More array lemmas *)
Lemma rel_select {A B} (R : A -> B -> Prop) m l l' : Forall2 R l l' -> Forall2 R (select m l) (select m l').
Proof.
  intros H. revert m. induction H as [|x y l l' XY H IH]; intros m; destruct m as [|b m]; cbn; try constructor.
  destruct b; [constructor|]; auto.
Qed.
Lemma rel_scatter {A B} (R : A -> B -> Prop) m v v' l l' : Forall2 R l l' -> Forall2 R v v' ->
  Forall2 R (scatter m v l) (scatter m v' l').
Proof.
  intros H. revert m v v'. induction H as [|x y l l' XY H IH]; intros m v v' V; destruct m as [|b m]; cbn; try constructor.
  - destruct b; constructor.
  - assumption.
  - assumption.
  - destruct b; [|constructor; auto]. destruct V; constructor; auto.
Qed.
Lemma rel_map2 {A A' B B' C C'} (RA : A -> A' -> Prop) (RB : B -> B' -> Prop) (RC : C -> C' -> Prop) f f' l1 l1' l2 l2' :
  Forall2 RA l1 l1' -> Forall2 RB l2 l2' -> (forall x y u v, RA x y -> RB u v -> RC (f x u) (f' y v)) ->
  Forall2 RC (map2 f l1 l2) (map2 f' l1' l2').
Proof.
  intros H1 H2 F. revert l2 l2' H2. induction H1; intros l2 l2' H2; [constructor|]. destruct H2; constructor; auto.
Qed.
Lemma rel_repeat {A B} (R : A -> B -> Prop) x y n : R x y -> Forall2 R (repeat x n) (repeat y n).
Proof. intros H. induction n; constructor; auto. Qed.
Lemma rel_concat {A B} (R : A -> B -> Prop) l l' : Forall2 (Forall2 R) l l' -> Forall2 R (concat l) (concat l').
Proof. intros H. induction H; cbn; [constructor|]. now apply Forall2_app. Qed.
Lemma rel_bzip2M {A A' B B' C C'} (RA : A -> A' -> Prop) (RB : B -> B' -> Prop) (RC : C -> C' -> Prop) f f' l1 l1' l2 l2' :
  Forall2 (Forall2 RA) l1 l1' -> Forall2 (Forall2 RB) l2 l2' ->
  (forall x y u v, RA x y -> RB u v -> res_rel RC (f x u) (f' y v)) ->
  res_rel (Forall2 (Forall2 RC)) (bzip2M f l1 l2) (bzip2M f' l1' l2').
Proof. intros H1 H2 F. eapply rel_bzipM; [exact H1|exact H2|]. intros. eapply rel_bzipM; eauto. Qed.
(** a fallible map2 against a total one *)
Lemma rel_map2M_total {A A' B B' C C'} (RA : A -> A' -> Prop) (RB : B -> B' -> Prop) (RC : C -> C' -> Prop) f f' l1 l1' l2 l2' :
  Forall2 RA l1 l1' -> Forall2 RB l2 l2' ->
  (forall x y u v, RA x y -> RB u v -> exists w, f x u = Ok w /\ RC w (f' y v)) ->
  exists l, map2M f l1 l2 = Ok l /\ Forall2 RC l (map2 f' l1' l2').
Proof.
  intros H1 H2 F. revert l2 l2' H2. induction H1 as [|x y l1 l1' XY H1 IH]; intros l2 l2' H2; [exists []; split; constructor|].
  destruct H2 as [|u v l2 l2' UV H2]; [exists []; split; constructor|]. cbn [map2M map2].
  destruct (F _ _ _ _ XY UV) as (w & -> & W). destruct (IH _ _ H2) as (l & -> & L). cbn [rbind]. eexists. split; [reflexivity|].
  now constructor.
Qed.
Lemma rel_mapM_total {A A' C C'} (RA : A -> A' -> Prop) (RC : C -> C' -> Prop) f f' l l' :
  Forall2 RA l l' -> (forall x y, RA x y -> exists w, f x = Ok w /\ RC w (f' y)) ->
  exists k, mapM f l = Ok k /\ Forall2 RC k (map f' l').
Proof.
  intros H F. induction H as [|x y l l' XY H IH]; [exists []; split; constructor|]. cbn [mapM map].
  destruct (F _ _ XY) as (w & -> & W). destruct IH as (k & -> & K). cbn [rbind]. eexists. split; [reflexivity|].
  now constructor.
Qed.
Lemma mapM_rows {A B} (f : A -> res B) R l l' : Forall2 (Forall2 R) l l' -> (forall x y, R x y -> f x = Ok y) ->
  mapM (mapM f) l = Ok l'.
Proof. intros H F. apply (mapM_of (mapM f) (Forall2 R)); [exact H|]. intros. eapply mapM_of; eassumption. Qed.
Lemma mapM_rows_to {A B C} (f : A -> res C) (g : B -> C) R l l' : Forall2 (Forall2 R) l l' -> (forall x y, R x y -> f x = Ok (g y)) ->
  mapM (mapM f) l = Ok (map (map g) l').
Proof.
  intros H F. induction H as [|x y l l' XY H IH]; [reflexivity|]. cbn [mapM map]. rewrite IH.
  replace (mapM f x) with (Ok (map g y)); [reflexivity|]. clear H IH. induction XY as [|p q x y PQ XY IH]; [reflexivity|].
  cbn [mapM map]. rewrite (F _ _ PQ), <- IH. reflexivity.
Qed.
Lemma mapM_to {A B C} (f : A -> res C) (g : B -> C) R l l' : Forall2 R l l' -> (forall x y, R x y -> f x = Ok (g y)) ->
  mapM f l = Ok (map g l').
Proof.
  intros H F. induction H as [|x y l l' XY H IH]; [reflexivity|]. cbn [mapM map]. rewrite IH, (F _ _ XY). reflexivity.
Qed.
Lemma rel_nest {A B} (R : A -> B -> Prop) l l' : Forall2 R l l' -> length l = length l'.
Proof. apply rel_length. Qed.

(** *** Comparisons and maxima do not depend on the unit *)
Lemma compare_scale op (OS : forall x y s, 0 < s -> op (x * Fin s)%num (y * Fin s)%num = op x y) a b d x y :
  isv d a x -> isv d b y -> d <> dimensionless -> vcompare op a b = Ok (op x y).
Proof.
  intros Ia Ib N. pose proof (not_plain _ _ _ N Ia) as Qa. pose proof (not_plain _ _ _ N Ib) as Qb.
  destruct a as [|p u]; [discriminate|]. destruct b as [|q w]; [discriminate|].
  destruct Ia as (Pu & Du & <-), Ib as (Pw & Dw & <-). unfold proper, dim_of, si in *. cbn [unit_of mag] in *.
  cbn [vcompare]. rewrite Du, Dw, dim_eqb_refl. f_equal. rewrite <- (OS p _ (u_size u)) by exact Pu. f_equal.
  rewrite scale_scale; [|now apply Rdiv_lt_0_compat|exact Pu]. f_equal. f_equal. field. lra.
Qed.
Lemma ge_scale x y s : 0 < s -> nge (x * Fin s) (y * Fin s) = nge x y.
Proof.
  intros S. destruct x, y; rewrite ?scale_pinf, ?scale_ninf, ?scale_nan by assumption; try reflexivity.
  cbn. unfold Rleb. destruct (Rle_dec (r0 * s) (r * s)), (Rle_dec r0 r); try reflexivity; exfalso; nra.
Qed.
Lemma le_scale x y s : 0 < s -> nle (x * Fin s) (y * Fin s) = nle x y.
Proof. intros S. exact (ge_scale y x s S). Qed.
Lemma max_scale x y s : 0 < s -> (nmax (x * Fin s) (y * Fin s) = nmax x y * Fin s)%num.
Proof.
  intros S. unfold nmax. pose proof (le_scale x y s S) as L.
  destruct x, y; rewrite ?scale_pinf, ?scale_ninf, ?scale_nan in * by assumption; try reflexivity.
  change (Fin r * Fin s)%num with (Fin (r * s)) in *. change (Fin r0 * Fin s)%num with (Fin (r0 * s)) in *.
  rewrite L. destruct (nle (Fin r) (Fin r0)); reflexivity.
Qed.

Lemma max_q a b d x y : isv d a x -> isv d b y -> d <> dimensionless ->
  exists m, vsum nmax a b = Ok m /\ isv d m (nmax x y) /\ u_size (unit_of m) = u_size (unit_of a).
Proof.
  intros Ia Ib N. destruct (is_sum nmax max_scale _ _ _ _ _ Ia Ib) as (m & E & I & Q).
  exists m. split; [exact E|]. split; [exact I|].
  pose proof (not_plain _ _ _ N Ia) as Qa. pose proof (not_plain _ _ _ N Ib) as Qb.
  destruct a as [|p u]; [discriminate|]. destruct b as [|q w]; [discriminate|]. cbn in E.
  destruct (dim_eqb _ _); [|discriminate]. injection E as <-. reflexivity.
Qed.

(** *** Merger times, entry by entry *)
Lemma circ_isv b a x y : isv beta_dim b x -> isv length_dim a y -> isv time_dim (t_merge_circ_q b a) (t_merge_circ_elem x y).
Proof.
  intros Ib Ia. unfold isv in *. unfold t_merge_circ_q, t_merge_circ_elem.
  replace time_dim with (ddiv (dpow length_dim (IZR 4)) (dmul dimensionless beta_dim)) by dim_eq. mean.
Qed.
Lemma small_isv c b e x y : isv length_dim c x -> isv beta_dim b y -> isv time_dim (t_small_q c b e) (t_small x y e).
Proof.
  intros Ic Ib. unfold isv in *. unfold t_small_q, t_small.
  replace time_dim with (dmul (ddiv (dpow length_dim (IZR 4)) (dmul dimensionless beta_dim)) dimensionless) by dim_eq. mean.
Qed.
Lemma large_isv c b e x y : isv length_dim c x -> isv beta_dim b y -> isv time_dim (t_large_q c b e) (t_large x y e).
Proof.
  intros Ic Ib. unfold isv in *. unfold t_large_q, t_large.
  replace time_dim with (dmul (dmul (dmul (dmul (ddiv (dpow length_dim (IZR 4)) (dmul dimensionless beta_dim)) dimensionless) dimensionless) dimensionless) dimensionless) by dim_eq. mean.
Qed.
Lemma exact_isv quad c b e x y : isv length_dim c x -> isv beta_dim b y ->
  exists w, t_exact_q quad c b e = Ok w /\ isv time_dim w (t_exact quad x y e).
Proof.
  intros Ic Ib. unfold t_exact_q.
  assert (I : isv time_dim (vdiv (vmul (lit (12/19)) (vpowi c 4)) b) (Fin (12/19) * x ^^ 4 / y)).
  { unfold isv in *. replace time_dim with (ddiv (dmul dimensionless (dpow length_dim (IZR 4))) beta_dim) by dim_eq. mean. }
  rewrite (to_in _ _ _ _ unit_gigayear time_not_none I). cbn [rbind]. eexists. split; [reflexivity|].
  pose proof (isv_in _ _ (Fin (12/19) * x ^^ 4 / y)%num unit_gigayear) as J. unfold isv in *. unfold t_exact.
  replace time_dim with (dmul time_dim dimensionless) by dim_eq. mean.
Qed.
Lemma exact_sc_isv c b x y z : isv length_dim c x -> isv beta_dim b y ->
  isv time_dim (vmul (vdiv (vmul (lit (12/19)) (vpowi c 4)) b) (Pl z)) (Fin (12/19) * x ^^ 4 / y * z).
Proof.
  intros Ic Ib. unfold isv in *. replace time_dim with (dmul (ddiv (dmul dimensionless (dpow length_dim (IZR 4))) beta_dim) dimensionless) by dim_eq. mean.
Qed.
Lemma fit_isv a b e x y : isv length_dim a x -> isv beta_dim b y ->
  exists w, t_fit_q b a e = Ok w /\ isv time_dim w (t_fit y x e).
Proof.
  intros Ia Ib. unfold t_fit_q. pose proof (circ_isv _ _ _ _ Ib Ia) as I.
  rewrite (to_in _ _ _ _ unit_gigayear time_not_none I). cbn [rbind]. eexists. split; [reflexivity|].
  pose proof (isv_in _ _ (t_merge_circ_elem y x) unit_gigayear) as J. unfold isv in *. unfold t_fit.
  replace time_dim with (dmul time_dim dimensionless) by dim_eq. mean.
Qed.
Lemma circ_gyr b a x y : isv beta_dim b x -> isv length_dim a y ->
  to (t_merge_circ_q b a) gigayear = Ok (in_unit gigayear (t_merge_circ_elem x y)).
Proof. intros Ib Ia. apply (to_in time_dim); [auto with units|auto with units|now apply circ_isv]. Qed.

Lemma store_isv d t v x y : isv d t y -> isv d v x -> d <> dimensionless ->
  exists w, store t v = Ok w /\ isz d (u_size (unit_of t)) w x.
Proof.
  intros It Iv N. pose proof (not_plain _ _ _ N It) as Qt. pose proof (not_plain _ _ _ N Iv) as Qv.
  destruct t as [|p u]; [discriminate|]. destruct v as [|q w]; [discriminate|]. cbn [store unit_of].
  destruct It as (P & D & _). rewrite (to_in d u _ x); [|split; assumption|exact N|exact Iv].
  eexists. split; [reflexivity|]. apply isz_in. split; assumption.
Qed.
Lemma zero_isv d s v x : isz d s v x -> d <> dimensionless ->
  isz d s (match v with Pl _ => Pl (Fin 0) | Qy _ u => Qy (Fin 0) u end) (Fin 0).
Proof.
  intros (I & S) N. pose proof (not_plain _ _ _ N I) as Q. destruct v; [discriminate|]. destruct I as (P & D & _).
  split; [|exact S]. split; [exact P|]. split; [exact D|]. unfold si. cbn. f_equal. ring.
Qed.
Lemma c_0_isv a x e : isv length_dim a x -> c_0_q a (Pl e) = Ok (in_unit au (c_0 x e)).
Proof. intros I. apply c_0_si; [|apply is_pl]. split; [exact (not_plain _ _ _ length_not_none I)|exact I]. Qed.
Lemma beta_isv m_1 m_2 x y : isv mass_dim m_1 x -> isv mass_dim m_2 y -> beta_q m_1 m_2 = Ok (in_unit m4_per_s (beta x y)).
Proof. apply beta_si. Qed.

(** *** Masses, frequencies, separations *)
Definition opt_all {A B} (R : A -> B -> Prop) (o : option (list A)) (p : option (list B)) : Prop :=
  opt_rel (Forall2 R) o p.

Lemma check_rel s b m_1 m_2 a f xb x1 x2 xa xf :
  opt_all (isv beta_dim) b xb -> opt_all (isv mass_dim) m_1 x1 -> opt_all (isv mass_dim) m_2 x2 ->
  opt_all (isz length_dim s) a xa -> opt_all (isv frequency_dim) f xf ->
  res_rel (fun q x => Forall2 (isv beta_dim) (fst q) (fst x) /\
                      Forall2 (isz length_dim (match xa with Some _ => s | None => AU end)) (snd q) (snd x))
          (check_arr_q b m_1 m_2 a f) (check_arr xb x1 x2 xa xf).
Proof.
  intros HB H1 H2 HA HF. unfold check_arr_q, check_arr, check_mass_freq_input.
  apply (rel_bind (Forall2 (isv beta_dim))).
  - destruct b, xb; try contradiction; [exact HB|].
    destruct m_1, x1; try contradiction; [|reflexivity]. destruct m_2, x2; try contradiction; [|reflexivity].
    unfold beta_arr_q, beta_arr, bzip. eapply rel_bzipM; [exact H1|exact H2|]. intros x y u v I1 I2.
    rewrite (beta_isv _ _ _ _ I1 I2). cbn. apply isv_in. auto with units.
  - intros vb xb' Hb. apply (rel_bind (Forall2 (isz length_dim (match xa with Some _ => s | None => AU end)))).
    + destruct a, xa; try contradiction; [exact HA|]. destruct f, xf; try contradiction; [|reflexivity].
      destruct m_1, x1; try contradiction; [|reflexivity]. destruct m_2, x2; try contradiction; [|reflexivity].
      unfold get_a_arr_q, get_a_arr. cbn [opt_all opt_rel] in *.
      apply (rel_bind (Forall2 (fun q x => isv mass_dim (fst q) (fst x) /\ isv mass_dim (snd q) (snd x)))).
      * eapply rel_bzip; [exact H1|exact H2|]. intros; split; assumption.
      * intros q x Q. unfold bzip. eapply rel_bzipM; [exact Q|exact HF|]. intros p r u v (P1 & P2) I3.
        rewrite (a_from_f_si _ _ _ _ _ _ I3 P1 P2). cbn. apply (isz_in length_dim au). auto with units.
    + intros va xa' Ha. cbn. split; assumption.
Qed.
