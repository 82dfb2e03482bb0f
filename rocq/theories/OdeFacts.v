(** OdeFacts.v -- trajectories following de_dt: rates (C07, C20), existence, and the stationarity bound (C17). *)
From Coq Require Import String Reals Ranalysis5 ZArith List Bool Lra Lia.
From Coquelicot Require Import Coquelicot.
From Verif Require Import Num NumFacts Np NpFacts Utils Spec UtilsFacts Evol EvolSpec EvolFacts MergeFacts.
Import ListNotations.
Open Scope R_scope.

(** ** C07 *)
Lemma strictly_decr_by_derivative (f df : R -> R) (s t : R) : s < t ->
  (forall u, s <= u <= t -> is_derive f u (df u)) -> (forall u, s <= u <= t -> df u < 0) -> f t < f s.
Proof.
  intros HT Hd Hn.
  destruct (MVT_gen f s t df) as [c [Hc E]].
  - intros x Hx. rewrite Rmin_left, Rmax_right in Hx by lra. apply Hd. lra.
  - intros x Hx. rewrite Rmin_left, Rmax_right in Hx by lra.
    apply continuity_pt_filterlim. apply (ex_derive_continuous (K := R_AbsRing) (V := R_NormedModule)).
    exists (df x). apply Hd. lra.
  - rewrite Rmin_left, Rmax_right in Hc by lra. assert (df c < 0) by (apply Hn; lra). nra.
Qed.
Lemma peters_da_dt_neg m1 m2 a e : 0 < m1 -> 0 < m2 -> 0 < a -> 0 <= e < 1 -> peters_da_dt m1 m2 a e < 0.
Proof.
  intros H1 H2 Ha He. rewrite peters_da_dt_beta by (auto; lra). pose proof (betaR_pos m1 m2 H1 H2).
  pose proof (enhancement_pos e He). assert (0 < betaR m1 m2 * enhancement e / a ^ 3) by pos.
  unfold Rdiv in *. lra.
Qed.

Lemma trajectory_rates m1 m2 T c0 e : 0 < m1 -> 0 < m2 -> 0 < c0 ->
  follows_de_dt (betaR m1 m2) c0 T e ->
  exists a : R -> R,
    (forall t, 0 <= t <= T -> get_a_from_ecc (Fin (e t)) (Fin c0) = Fin (a t)) /\
    peters_inspiral m1 m2 T a e /\
    (forall s t, 0 <= s -> s < t -> t <= T -> e t < e s /\ a t < a s).
Proof.
  intros H1 H2 Hc H. exists (fun t => aeR (e t) c0).
  pose proof (follows_inspiral m1 m2 c0 T e H1 H2 Hc H) as HI. split; [|split; auto].
  - intros t Ht. destruct (H t Ht) as [He _]. now apply get_a_from_ecc_fin.
  - intros s t Hs Hst Ht.
    assert (E : e t < e s).
    { apply (strictly_decr_by_derivative e (fun u => dedtR (betaR m1 m2) c0 (e u))); auto.
      - intros u Hu. apply (follows_unfold _ _ T); auto. lra.
      - intros u Hu. destruct (H u) as [He _]; [lra|]. apply dedtR_neg; auto using betaR_pos. }
    split; auto. destruct (H t) as [He _]; [lra|]. destruct (H s) as [He' _]; [lra|].
    apply aeR_mono; lra.
Qed.

(** ** C20 *)
Lemma texR_traj b c0 e : 0 < c0 -> 0 < e < 1 -> texR b (aeR e c0) e = 12/19 * c0 ^ 4 / b * I514 e.
Proof. intros Hc He. unfold texR. now rewrite c0R_aeR. Qed.
Lemma p514_dedt b c0 e : 0 < b -> 0 < c0 -> 0 < e < 1 ->
  12/19 * c0 ^ 4 / b * (p514 e * dedtR b c0 e) = -1.
Proof.
  intros Hb Hc He. destruct (e_facts e He) as [A B]. unfold p514, dedtR. rewrite pw_pos by lra.
  replace (Rpower e (-29/19)) with (/ Rpower e (29/19)).
  2:{ rewrite <- Rpower_Ropp. f_equal. field. }
  field. repeat split; (apply Rpower_neq0 || lra).
Qed.
Lemma texR_rate b c0 T e t : 0 < b -> 0 < c0 -> follows_de_dt b c0 T e -> 0 <= t <= T ->
  is_derive (fun s => 12/19 * c0 ^ 4 / b * I514 (e s)) t (-1).
Proof.
  intros Hb Hc H Ht. destruct (follows_unfold _ _ _ _ _ Hc H Ht) as [He D].
  rewrite <- (p514_dedt b c0 (e t)) by auto. apply is_derive_scal. rewrite Rmult_comm.
  apply (is_derive_comp I514 e); auto. now apply is_derive_I514.
Qed.
Lemma texR_countdown b c0 T e t : 0 < b -> 0 < c0 -> follows_de_dt b c0 T e -> 0 <= t <= T ->
  12/19 * c0 ^ 4 / b * I514 (e t) = 12/19 * c0 ^ 4 / b * I514 (e 0) - t.
Proof.
  intros Hb Hc H Ht.
  assert (E : 12/19 * c0 ^ 4 / b * I514 (e t) + t = 12/19 * c0 ^ 4 / b * I514 (e 0) + 0).
  { apply (constant_by_derivative (fun s => 12/19 * c0 ^ 4 / b * I514 (e s) + s)); [lra|].
    intros s Hs. replace 0 with (plus (-1) 1) by (unfold plus; simpl; ring).
    apply (is_derive_plus (fun s => 12/19 * c0 ^ 4 / b * I514 (e s)) (fun s => s)).
    - apply (texR_rate b c0 T); auto. lra.
    - apply (is_derive_id (K := R_AbsRing)). }
  lra.
Qed.
(** the merger time of the scalar call, exact branch *)
Lemma merge_sc_exact quad e a b small large : quad_exact quad -> 0 < b -> 0 < a -> 0 < e < 1 -> small <= e <= large ->
  get_t_merge_ecc_sc quad (Fin e) (Some (Fin a)) None (Some (Fin b)) None None (Fin small) (Fin large) true
  = Ok (Fin (texR b a e)).
Proof.
  intros HQ Hb Ha He Hs. unfold get_t_merge_ecc_sc, check_sc, check_mass_freq_input. simpl rbind.
  cbn [fst snd]. unfold get_t_merge_ecc_sc_core. rewrite neqb_f by lra. rewrite nlt_f by lra.
  unfold ngt. rewrite nlt_f by lra. rewrite c_0_fin by auto. rewrite t_exact_fin by (auto; lra). reflexivity.
Qed.

(** ** Existence of trajectories *)
Lemma inverse_derive (F F' : R -> R) (lo hi : R) : lo < hi ->
  (forall x, lo <= x <= hi -> is_derive F x (F' x)) -> (forall x, lo <= x <= hi -> 0 < F' x) ->
  exists G : R -> R, forall y, F lo < y < F hi -> lo < G y < hi /\ F (G y) = y /\ is_derive G y (/ F' (G y)).
Proof.
  intros Hlh HD HP.
  assert (MONO : forall x y, lo <= x -> x < y -> y <= hi -> F x < F y).
  { intros x y Hx Hxy Hy.
    assert (- F y < - F x); [|lra].
    apply (strictly_decr_by_derivative (fun u => - F u) (fun u => - F' u) x y); auto.
    - intros u Hu. apply (is_derive_opp F u (F' u)). apply HD. lra.
    - intros u Hu. specialize (HP u). lra. }
  assert (INJ : forall x y, lo <= x <= hi -> lo <= y <= hi -> F x = F y -> x = y).
  { intros x y Hx Hy E. destruct (Rtotal_order x y) as [L|[L|L]]; auto.
    - specialize (MONO x y). lra.
    - specialize (MONO y x). lra. }
  assert (EX : forall y, {x : R | F lo < y < F hi -> lo < x < hi /\ F x = y}).
  { intros y. destruct (Rlt_dec (F lo) y) as [H1|H1]; [destruct (Rlt_dec y (F hi)) as [H2|H2]|].
    - destruct (IVT_Rbar_incr F lo hi (F lo) (F hi) y) as [x [Hx1 [Hx2 Hx3]]]; simpl; auto.
      + apply is_lim_continuity. apply continuity_pt_filterlim.
        apply (ex_derive_continuous (K := R_AbsRing) (V := R_NormedModule)). eexists. apply HD. lra.
      + apply is_lim_continuity. apply continuity_pt_filterlim.
        apply (ex_derive_continuous (K := R_AbsRing) (V := R_NormedModule)). eexists. apply HD. lra.
      + intros x A B. apply continuity_pt_filterlim.
        apply (ex_derive_continuous (K := R_AbsRing) (V := R_NormedModule)). eexists. apply HD. lra.
      + exists x. auto.
    - exists 0. lra.
    - exists 0. lra. }
  exists (fun y => proj1_sig (EX y)). set (G := fun y => proj1_sig (EX y)).
  assert (GS : forall y, F lo < y < F hi -> lo < G y < hi /\ F (G y) = y).
  { intros y Hy. unfold G. destruct (EX y) as [x Hx]. simpl. auto. }
  assert (GM : forall x y, F lo < x -> x <= y -> y < F hi -> G x <= G y).
  { intros x y Hx Hxy Hy. destruct (GS x) as [A A']; [lra|]. destruct (GS y) as [B B']; [lra|].
    destruct (Rle_lt_dec (G x) (G y)) as [L|L]; auto. exfalso.
    assert (F (G y) < F (G x)) by (apply MONO; lra). lra. }
  assert (GC : forall y, F lo < y < F hi -> continuity_pt G y).
  { intros y Hy. destruct (GS y Hy) as [A A']. intros eps He.
    set (x1 := Rmax ((lo + G y) / 2) (G y - eps / 2)). set (x2 := Rmin ((hi + G y) / 2) (G y + eps / 2)).
    assert (X1 : lo < x1 < G y /\ G y - eps < x1).
    { unfold x1. split; [split|].
      - apply Rlt_le_trans with ((lo + G y) / 2); [lra|apply Rmax_l].
      - apply Rmax_lub_lt; lra.
      - apply Rlt_le_trans with (G y - eps / 2); [lra|apply Rmax_r]. }
    assert (X2 : G y < x2 < hi /\ x2 < G y + eps).
    { unfold x2. split; [split|].
      - apply Rmin_glb_lt; lra.
      - apply Rle_lt_trans with ((hi + G y) / 2); [apply Rmin_l|lra].
      - apply Rle_lt_trans with (G y + eps / 2); [apply Rmin_r|lra]. }
    assert (Y1 : F lo < F x1 < y) by (rewrite <- A'; split; apply MONO; lra).
    assert (Y2 : y < F x2 < F hi) by (rewrite <- A'; split; apply MONO; lra).
    exists (Rmin (y - F x1) (F x2 - y)). split; [apply Rmin_glb_lt; lra|].
    intros z [_ Hz]. simpl in Hz. unfold R_dist in Hz.
    assert (Z1 : Rabs (z - y) < y - F x1) by (eapply Rlt_le_trans; [exact Hz|apply Rmin_l]).
    assert (Z2 : Rabs (z - y) < F x2 - y) by (eapply Rlt_le_trans; [exact Hz|apply Rmin_r]).
    apply Rabs_def2 in Z1. apply Rabs_def2 in Z2. simpl. unfold R_dist.
    destruct (GS z) as [B B']; [lra|].
    assert (x1 < G z).
    { destruct (Rlt_le_dec x1 (G z)) as [L|[L|L]]; auto; exfalso.
      - assert (F (G z) < F x1) by (apply MONO; lra). lra.
      - rewrite L in B'. lra. }
    assert (G z < x2).
    { destruct (Rlt_le_dec (G z) x2) as [L|[L|L]]; auto; exfalso.
      - assert (F x2 < F (G z)) by (apply MONO; lra). lra.
      - rewrite <- L in B'. lra. }
    apply Rabs_def1; lra. }
  intros y Hy. destruct (GS y Hy) as [A A']. split; auto. split; auto.
  set (l := (F lo + y) / 2). set (u := (y + F hi) / 2).
  assert (Hl : lo < G l) by (apply GS; unfold l; lra). assert (Hu : G u < hi) by (apply GS; unfold u; lra).
  assert (D : forall a, G l <= a <= G u -> derivable_pt F a).
  { intros a Ha. exists (F' a). apply is_derive_Reals. apply HD. lra. }
  assert (PI : G l <= G y <= G u) by (split; apply GM; unfold l, u; lra).
  assert (DV : derive_pt F (G y) (D (G y) PI) = F' (G y)).
  { apply derive_pt_eq_0. apply is_derive_Reals. apply HD. lra. }
  assert (HG : derivable_pt_lim G y (1 / derive_pt F (G y) (D (G y) PI))).
  { apply (derivable_pt_lim_recip_interv F G l u y D (GC y Hy)).
    - unfold l, u. lra.
    - unfold l, u. lra.
    - intros x Hx. unfold comp, id. apply GS. unfold l, u in Hx. lra.
    - rewrite DV. specialize (HP (G y)). lra. }
  apply is_derive_Reals. rewrite DV in HG. change (derivable_pt_lim G y (/ F' (G y))). replace (/ F' (G y)) with (1 / F' (G y)) by (unfold Rdiv; ring). exact HG.
Qed.

(** Peters' equation has a solution from (e0, c0) up to any time before the merger time. *)
Lemma trajectory_exists b c0 e0 T : 0 < b -> 0 < c0 -> 0 < e0 < 1 -> 0 <= T -> T < 12/19 * c0 ^ 4 / b * I514 e0 ->
  exists e, e 0 = e0 /\ follows_de_dt b c0 T e.
Proof.
  intros Hb Hc He HT HTm. set (k := 19/12 * b / c0 ^ 4).
  assert (Hk : 0 < k) by (unfold k; pos).
  assert (HY : 0 < I514 e0 - k * T).
  { assert (k * T < k * (12/19 * c0 ^ 4 / b * I514 e0)) by (apply Rmult_lt_compat_l; auto).
    replace (k * (12/19 * c0 ^ 4 / b * I514 e0)) with (I514 e0) in H; [lra|].
    unfold k. field. split; lra. }
  assert (LO : exists lo, 0 < lo < e0 /\ I514 lo < I514 e0 - k * T).
  { assert (C : continuous P4 0).
    { apply (ex_derive_continuous (K := R_AbsRing) (V := R_NormedModule)). eexists. apply is_derive_P4. lra. }
    assert (L : locally (P4 0) (fun y => y < I514 e0 - k * T)).
    { rewrite P4_0. apply (open_lt (I514 e0 - k * T)). lra. }
    apply C in L. destruct L as [d Hd].
    assert (0 < Rmin (d / 2) (e0 / 2)) by (apply Rmin_glb_lt; [destruct d; simpl; lra|lra]).
    pose proof (Rmin_l (d / 2) (e0 / 2)). pose proof (Rmin_r (d / 2) (e0 / 2)).
    exists (Rmin (d / 2) (e0 / 2)). split; [lra|].
    eapply Rle_lt_trans; [apply I514_upper; lra|]. apply Hd.
    unfold ball; simpl; unfold AbsRing_ball, abs, minus, plus, opp; simpl. rewrite Ropp_0, Rplus_0_r.
    rewrite Rabs_pos_eq by lra. destruct d; simpl in *; lra. }
  destruct LO as [lo [Hlo HloI]].
  destruct (inverse_derive I514 p514 lo ((1 + e0) / 2)) as [G HG].
  - lra.
  - intros x Hx. apply is_derive_I514. lra.
  - intros x Hx. apply p514_pos. lra.
  - assert (MONO : forall x y, 0 < x -> x < y -> y < 1 -> I514 x < I514 y).
    { intros x y Hx Hxy Hy. assert (- I514 y < - I514 x); [|lra].
      apply (strictly_decr_by_derivative (fun u => - I514 u) (fun u => - p514 u) x y); auto.
      - intros u Hu. apply (is_derive_opp I514 u (p514 u)). apply is_derive_I514. lra.
      - intros u Hu. pose proof (p514_pos u). lra. }
    assert (R0 : I514 lo < I514 e0 < I514 ((1 + e0) / 2)) by (split; apply MONO; lra).
    exists (fun t => G (I514 e0 - k * t)). split.
    + rewrite Rmult_0_r, Rminus_0_r. destruct (HG (I514 e0) R0) as [A [B _]].
      destruct (Rtotal_order (G (I514 e0)) e0) as [L|[L|L]]; auto; exfalso.
      * assert (I514 (G (I514 e0)) < I514 e0) by (apply MONO; lra). lra.
      * assert (I514 e0 < I514 (G (I514 e0))) by (apply MONO; lra). lra.
    + intros t Ht.
      assert (RT : I514 lo < I514 e0 - k * t < I514 ((1 + e0) / 2)) by nra.
      destruct (HG _ RT) as [A [B D]]. split; [lra|].
      exists (dedtR b c0 (G (I514 e0 - k * t))). rewrite de_dt_fin by (auto; lra). split; auto.
      replace (dedtR b c0 (G (I514 e0 - k * t))) with ((- k) * / p514 (G (I514 e0 - k * t))).
      * apply (is_derive_comp G (fun t => I514 e0 - k * t)); auto. auto_derive; auto. ring.
      * set (g := G (I514 e0 - k * t)) in *. assert (Hg : 0 < g < 1) by lra.
        pose proof (p514_pos g ltac:(lra)). pose proof (p514_dedt b c0 g Hb Hc Hg) as E.
        assert (K : 12/19 * c0 ^ 4 / b = / k) by (unfold k; field; repeat split; lra).
        rewrite K in E. apply Rmult_eq_reg_l with (p514 g); [|lra].
        replace (p514 g * (- k * / p514 g)) with (- k) by (field; lra).
        apply Rmult_eq_reg_l with (/ k); [|apply Rinv_neq_0_compat; lra].
        rewrite E. field. lra.
Qed.

(** ** C17 *)
Lemma inspiral_frequency m1 m2 T a e merge_f f0 fT mc est :
  0 < m1 -> 0 < m2 -> 0 <= T -> peters_inspiral m1 m2 T a e ->
  get_f_orb_from_a (Fin (a 0)) (Fin m1) (Fin m2) = Fin f0 ->
  get_f_orb_from_a (Fin (a T)) (Fin m1) (Fin m2) = Fin fT ->
  chirp_mass (Fin m1) (Fin m2) = Fin mc ->
  circ_f_elem (Fin f0) (Fin mc) (Fin T) (Fin (e 0)) merge_f = est ->
  f0 <= fT /\ (est = merge_f \/ est = PInf \/ exists x, est = Fin x /\ fT <= x).
Proof.
  intros H1 H2 HT HI E0 ET Em Ee. destruct (HI 0) as [A0 [B0 _]]; [lra|]. destruct (HI T) as [AT [BT _]]; [lra|].
  rewrite get_f_fin in E0, ET by auto. apply Fin_inj in E0. apply Fin_inj in ET.
  rewrite chirp_mass_fin in Em by auto. apply Fin_inj in Em. subst f0 fT mc.
  pose proof (chirpR_pos m1 m2) as Hc. pose proof (fR_pos (a 0) m1 m2) as Hf.
  split.
  - apply fR_anti; auto. 
    apply (decr_by_derivative a (fun t => peters_da_dt m1 m2 (a t) (e t))); auto.
    + intros t Ht. now apply HI.
    + intros t Ht. destruct (HI t Ht) as [A [B _]]. left. now apply peters_da_dt_neg.
  - destruct (Rtotal_order 0 (innerR (fR (a 0) m1 m2) (chirpR m1 m2) T (e 0))) as [P|[Z|N]].
    + right; right. rewrite circ_f_pos in Ee by (auto; lra). rewrite <- Ee.
      eexists. split; [reflexivity|].
      rewrite inner_K in P |- * by auto.
      pose proof (inspiral_a4 m1 m2 T a e H1 H2 HT HI) as I4.
      pose proof (KR_pos (m1 + m2)) as HK.
      rewrite <- K38 by auto. apply Rpower_anti_base_le; [|lra]. split; auto.
      apply Rmult_le_compat_l; lra.
    + right; left. rewrite circ_f_zero in Ee by (auto; lra). now rewrite <- Ee.
    + left. rewrite circ_f_neg in Ee by (auto; lra). now rewrite <- Ee.
Qed.
Lemma stationary_bound m1 m2 T a e tol f0 fT mc :
  0 < m1 -> 0 < m2 -> 0 <= T -> peters_inspiral m1 m2 T a e ->
  get_f_orb_from_a (Fin (a 0)) (Fin m1) (Fin m2) = Fin f0 ->
  get_f_orb_from_a (Fin (a T)) (Fin m1) (Fin m2) = Fin fT ->
  chirp_mass (Fin m1) (Fin m2) = Fin mc -> f0 * (1 + tol) < 1000000000 ->
  stat_elem (Fin f0) (Fin mc) (Fin T) (Fin (e 0)) (Fin tol) = true ->
  0 <= (fT - f0) / f0 <= tol.
Proof.
  intros H1 H2 HT HI E0 ET Em Hm HS.
  destruct (inspiral_frequency m1 m2 T a e merge_f_default f0 fT mc _ H1 H2 HT HI E0 ET Em eq_refl) as [L EST].
  destruct (HI 0) as [A0 [B0 _]]; [lra|].
  assert (Hf : 0 < f0).
  { rewrite get_f_fin in E0 by auto. apply Fin_inj in E0. subst. apply fR_pos. }
  assert (Hmc : 0 < mc).
  { rewrite chirp_mass_fin in Em by auto. apply Fin_inj in Em. subst. apply chirpR_pos. }
  pose proof HS as HS'. apply stat_elem_char in HS'; try lra. destruct HS' as [P Q].
  rewrite circ_f_pos in EST by (auto; lra).
  destruct EST as [EST|[EST|[x [EST Hx]]]]; try discriminate.
  - unfold merge_f_default in EST. apply Fin_inj in EST. exfalso. lra.
  - apply Fin_inj in EST. subst x. unfold Rdiv. split.
    + apply Rmult_le_pos; [lra|]. left. now apply Rinv_0_lt_compat.
    + apply Rmult_le_reg_r with f0; auto. rewrite Rmult_assoc, Rinv_l by lra. lra.
Qed.
