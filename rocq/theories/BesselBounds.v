(** BesselBounds.v -- enclosures of J_0 and J_1, and the tolerances that find_eccentric_transition accepts. *)
From Coq Require Import Reals ZArith List Lra Lia.
From Coquelicot Require Import Coquelicot.
From Verif Require Import Num NumFacts Np Utils Spec UtilsFacts EvolSpec Bessel BesselFacts Harmonics HarmSpec HarmFacts HarmThms ParsevalStrain BesselPositive ShareFacts.
Import ListNotations.
Open Scope R_scope.

Lemma besselJ_le_1 n x : besselJ n x <= 1.
Proof.
  rewrite besselJ_ph. pose proof PI_RGT_0 as P.
  assert (H : RInt (fun t => cos (ph n x t)) 0 PI <= PI).
  { replace PI with (RInt (fun _ => 1) 0 PI) at 2 by (rewrite RInt_const; unfold scal; cbn; unfold mult; cbn; ring).
    apply RInt_le; [lra|apply ex_RInt_all; intros t; apply continuous_cos_ph|apply ex_RInt_const|]. intros t _. apply COS_bound. }
  apply (Rmult_le_reg_l PI); [exact P|]. rewrite <- Rmult_assoc, Rinv_r, Rmult_1_l by lra. lra.
Qed.
(** Comparison of derivatives. *)
Lemma compare (f g f' g' : R -> R) x : 0 <= x -> (forall y, 0 <= y <= x -> is_derive f y (f' y)) -> (forall y, 0 <= y <= x -> is_derive g y (g' y)) ->
  f 0 <= g 0 -> (forall y, 0 <= y <= x -> f' y <= g' y) -> f x <= g x.
Proof.
  intros Hx Df Dg H0 H. destruct (MVT_gen (fun y => f y - g y) 0 x (fun y => f' y - g' y)) as (c & Hc & E).
  - intros y Hy. rewrite Rmin_left, Rmax_right in Hy by lra. apply (is_derive_minus (K := R_AbsRing) (V := R_NormedModule) f g y); [apply Df|apply Dg]; lra.
  - intros y Hy. rewrite Rmin_left, Rmax_right in Hy by lra. apply continuity_pt_filterlim. apply (continuous_of_derive (fun y => f y - g y) y (f' y - g' y)).
    apply (is_derive_minus (K := R_AbsRing) (V := R_NormedModule) f g y); [apply Df|apply Dg]; lra.
  - rewrite Rmin_left, Rmax_right in Hc by lra. specialize (H c Hc). nra.
Qed.
Lemma d_xJ1 x : is_derive (fun x => x * besselJ 1 x) x (x * besselJ 0 x).
Proof.
  pose proof (besselJ_derive 1 x) as D. cbn in D. pose proof (bessel_recurrence 1 x) as R1. cbn in R1.
  assert (X : Derive (fun y : R => besselJ 1 y) x = (besselJ 0 x - besselJ 2 x) / 2) by (apply is_derive_unique, D).
  auto_derive; [repeat split; exists ((besselJ 0 x - besselJ 2 x) / 2); exact D|]. rewrite X. lra.
Qed.
Lemma d_J0 x : is_derive (besselJ 0) x (- besselJ 1 x).
Proof.
  pose proof (besselJ_derive 0 x) as D. cbn in D. replace (- besselJ 1 x) with ((besselJ (-1) x - besselJ 1 x) / 2); [exact D|].
  assert (besselJ (-1) x = - besselJ 1 x); [|lra]. destruct (Req_dec x 0) as [->|H]; [rewrite !besselJ_0; cbn; lra|].
  pose proof (bessel_recurrence 0 x) as E. cbn in E. apply (Rmult_eq_reg_l x); [|exact H]. lra.
Qed.
Ltac dpoly := intros; auto_derive; [auto|field].
(** From a bound of J_0 by a polynomial to one of x J_1 by its integral, and from x J_1 <= x p to J_0. *)
Lemma up_J1 (p P : R -> R) x : 0 <= x -> (forall y, 0 <= y <= x -> besselJ 0 y <= p y) -> P 0 = 0 -> (forall y, is_derive P y (y * p y)) -> x * besselJ 1 x <= P x.
Proof.
  intros Hx H P0 D. apply (compare (fun x => x * besselJ 1 x) P (fun x => x * besselJ 0 x) (fun y => y * p y) x Hx); auto.
  - intros y _. apply d_xJ1.
  - rewrite P0. lra.
  - intros y Hy. apply Rmult_le_compat_l; [lra|]. apply H, Hy.
Qed.
Lemma low_J1 (p P : R -> R) x : 0 <= x -> (forall y, 0 <= y <= x -> p y <= besselJ 0 y) -> P 0 = 0 -> (forall y, is_derive P y (y * p y)) -> P x <= x * besselJ 1 x.
Proof.
  intros Hx H P0 D. apply (compare P (fun x => x * besselJ 1 x) (fun y => y * p y) (fun x => x * besselJ 0 x) x Hx); auto.
  - intros y _. apply d_xJ1.
  - rewrite P0. lra.
  - intros y Hy. apply Rmult_le_compat_l; [lra|]. apply H, Hy.
Qed.
Lemma J1_cancel x a : 0 <= x -> x * besselJ 1 x <= x * a -> 0 <= a -> besselJ 1 x <= a.
Proof. intros Hx H A. destruct (Rle_lt_or_eq_dec _ _ Hx) as [L|<-]; [nra|]. rewrite besselJ_0. cbn. exact A. Qed.
Lemma J1_cancel_low x a : 0 <= x -> x * a <= x * besselJ 1 x -> (x = 0 -> a <= 0) -> a <= besselJ 1 x.
Proof. intros Hx H A. destruct (Rle_lt_or_eq_dec _ _ Hx) as [L|<-]; [nra|]. rewrite besselJ_0. cbn. now apply A. Qed.
Lemma low_J0 (p P : R -> R) x : 0 <= x -> (forall y, 0 <= y <= x -> besselJ 1 y <= p y) -> P 0 = 1 -> (forall y, is_derive P y (- p y)) -> P x <= besselJ 0 x.
Proof.
  intros Hx H P0 D. apply (compare P (besselJ 0) (fun y => - p y) (fun y => - besselJ 1 y) x Hx); auto.
  - intros y _. apply d_J0.
  - rewrite P0, besselJ_0. cbn. lra.
  - intros y Hy. specialize (H y Hy). lra.
Qed.
Lemma up_J0 (p P : R -> R) x : 0 <= x -> (forall y, 0 <= y <= x -> p y <= besselJ 1 y) -> P 0 = 1 -> (forall y, is_derive P y (- p y)) -> besselJ 0 x <= P x.
Proof.
  intros Hx H P0 D. apply (compare (besselJ 0) P (fun y => - besselJ 1 y) (fun y => - p y) x Hx); auto.
  - intros y _. apply d_J0.
  - rewrite P0, besselJ_0. cbn. lra.
  - intros y Hy. specialize (H y Hy). lra.
Qed.
Lemma J1_1 x : 0 <= x <= 1 -> besselJ 1 x <= x / 2.
Proof.
  intros Hx. apply J1_cancel; [lra| |lra]. replace (x * (x / 2)) with (x ^ 2 / 2) by field.
  apply (up_J1 (fun _ => 1) (fun x => x ^ 2 / 2)); [lra|intros; apply besselJ_le_1|lra|dpoly].
Qed.
Lemma J0_1 x : 0 <= x <= 1 -> 1 - x ^ 2 / 4 <= besselJ 0 x.
Proof. intros Hx. apply (low_J0 (fun x => x / 2) (fun x => 1 - x ^ 2 / 4)); [lra|intros; apply J1_1; lra|lra|dpoly]. Qed.
Lemma J1_2 x : 0 <= x <= 1 -> x / 2 - x ^ 3 / 16 <= besselJ 1 x.
Proof.
  intros Hx. apply J1_cancel_low; [lra| |intros ->; lra]. replace (x * (x / 2 - x ^ 3 / 16)) with (x ^ 2 / 2 - x ^ 4 / 16) by field.
  apply (low_J1 (fun x => 1 - x ^ 2 / 4) (fun x => x ^ 2 / 2 - x ^ 4 / 16)); [lra|intros; apply J0_1; lra|lra|dpoly].
Qed.
Lemma J0_2 x : 0 <= x <= 1 -> besselJ 0 x <= 1 - x ^ 2 / 4 + x ^ 4 / 64.
Proof. intros Hx. apply (up_J0 (fun x => x / 2 - x ^ 3 / 16) (fun x => 1 - x ^ 2 / 4 + x ^ 4 / 64)); [lra|intros; apply J1_2; lra|lra|dpoly]. Qed.
Lemma J1_3 x : 0 <= x <= 1 -> besselJ 1 x <= x / 2 - x ^ 3 / 16 + x ^ 5 / 384.
Proof.
  intros Hx. apply J1_cancel; [lra| |]. 2:{ assert (0 <= x ^ 2 <= 1) by nra. assert (0 <= x ^ 4) by (apply pow_le; lra). replace (x / 2 - x ^ 3 / 16 + x ^ 5 / 384) with (x * (1 / 2 - x ^ 2 / 16 + x ^ 4 / 384)) by field. apply Rmult_le_pos; lra. }
  replace (x * (x / 2 - x ^ 3 / 16 + x ^ 5 / 384)) with (x ^ 2 / 2 - x ^ 4 / 16 + x ^ 6 / 384) by field.
  apply (up_J1 (fun x => 1 - x ^ 2 / 4 + x ^ 4 / 64) (fun x => x ^ 2 / 2 - x ^ 4 / 16 + x ^ 6 / 384)); [lra|intros; apply J0_2; lra|lra|dpoly].
Qed.
Lemma J0_3 x : 0 <= x <= 1 -> 1 - x ^ 2 / 4 + x ^ 4 / 64 - x ^ 6 / 2304 <= besselJ 0 x.
Proof. intros Hx. apply (low_J0 (fun x => x / 2 - x ^ 3 / 16 + x ^ 5 / 384) (fun x => 1 - x ^ 2 / 4 + x ^ 4 / 64 - x ^ 6 / 2304)); [lra|intros; apply J1_3; lra|lra|dpoly]. Qed.
Lemma J1_4 x : 0 <= x <= 1 -> x / 2 - x ^ 3 / 16 + x ^ 5 / 384 - x ^ 7 / 18432 <= besselJ 1 x.
Proof.
  intros Hx. apply J1_cancel_low; [lra| |intros ->; lra]. replace (x * (x / 2 - x ^ 3 / 16 + x ^ 5 / 384 - x ^ 7 / 18432)) with (x ^ 2 / 2 - x ^ 4 / 16 + x ^ 6 / 384 - x ^ 8 / 18432) by field.
  apply (low_J1 (fun x => 1 - x ^ 2 / 4 + x ^ 4 / 64 - x ^ 6 / 2304) (fun x => x ^ 2 / 2 - x ^ 4 / 16 + x ^ 6 / 384 - x ^ 8 / 18432)); [lra|intros; apply J0_3; lra|lra|dpoly].
Qed.
Lemma J0_4 x : 0 <= x <= 1 -> besselJ 0 x <= 1 - x ^ 2 / 4 + x ^ 4 / 64 - x ^ 6 / 2304 + x ^ 8 / 147456.
Proof. intros Hx. apply (up_J0 (fun x => x / 2 - x ^ 3 / 16 + x ^ 5 / 384 - x ^ 7 / 18432) (fun x => 1 - x ^ 2 / 4 + x ^ 4 / 64 - x ^ 6 / 2304 + x ^ 8 / 147456)); [lra|intros; apply J1_4; lra|lra|dpoly]. Qed.

(** ** The share of the n = 2 harmonic at the end of the grid, e = 0.2 *)
Lemma g2_at_end : 8/10 < gR besselJ 2 (1/5) < 82/100.
Proof.
  set (x := 2/5). assert (Hx : 0 <= x <= 1) by (unfold x; lra).
  pose proof (J0_3 x Hx) as A1. pose proof (J0_4 x Hx) as A2. pose proof (J1_4 x Hx) as B1. pose proof (J1_3 x Hx) as B2.
  pose proof (bessel_recurrence 1 x) as R1. pose proof (bessel_recurrence 2 x) as R2. pose proof (bessel_recurrence 3 x) as R3. cbn in R1, R2, R3.
  unfold gR. replace (IZR 2 * (1 / 5)) with x by (unfold x; lra).
  change (2 - 2)%Z with 0%Z. change (2 - 1)%Z with 1%Z. change (2 + 1)%Z with 3%Z. change (2 + 2)%Z with 4%Z.
  set (b0 := besselJ 0 x) in *. set (b1 := besselJ 1 x) in *. set (b2 := besselJ 2 x) in *. set (b3 := besselJ 3 x) in *. set (b4 := besselJ 4 x) in *.
  clearbody b0 b1 b2 b3 b4. unfold x in *. cbn [pow] in A1, A2, B1, B2.
  assert (E2 : b2 = 5 * b1 - b0) by lra. assert (E3 : b3 = 10 * b2 - b1) by lra. assert (E4 : b4 = 15 * b3 - b2) by lra.
  assert (F0 : 0.96039 <= b0 <= 0.9604) by lra. assert (F1 : 0.196026 <= b1 <= 0.196027) by lra.
  assert (F2 : 0.01973 <= b2 <= 0.01974) by lra. assert (F3 : 0.0013 <= b3 <= 0.00133) by lra. assert (F4 : 0 <= b4 <= 0.0003) by lra.
  clear - F0 F1 F2 F3 F4.
  set (p := b0 - 2 * (1/5) * b1 + 2 / 2 * b2 + 2 * (1/5) * b3 - b4). set (q := b0 - 2 * b2 + b4).
  assert (P : 0.901 <= p <= 0.903) by (unfold p; lra). assert (Q : 0.92 <= q <= 0.922) by (unfold q; lra).
  assert (P2 : 0.811 <= p ^ 2 <= 0.816) by (cbn [pow]; nra). assert (Q2 : 0.846 <= q ^ 2 <= 0.851) by (cbn [pow]; nra). assert (B : 0 <= b2 ^ 2 <= 0.001) by (cbn [pow]; nra).
  match goal with |- _ < ?G < _ => replace G with (1/2 * (p ^ 2 + (1 - (1/5) ^ 2) * q ^ 2 + 1/3 * b2 ^ 2)) end.
  - lra.
  - change (2 ^ 4)%Z with 16%Z. change (2 ^ 2)%Z with 4%Z. unfold p, q. field.
Qed.
Lemma quotient_between a b n d : 0 < d -> a * d < n < b * d -> a < n / d < b.
Proof. intros H [A B]. split; apply (Rmult_lt_reg_r d); auto; replace (n / d * d) with n by (field; lra); auto. Qed.
Lemma enhancement_at_end : 1.294 < enhancement (1/5) < 1.296.
Proof.
  assert (S2 : sqrt (24/25) ^ 2 = 24/25) by (apply pow2_sqrt; lra). assert (S0 : 0 < sqrt (24/25)) by (apply sqrt_lt_R0; lra).
  unfold enhancement. replace (1 - (1/5) ^ 2) with (24/25) by field. revert S2 S0. generalize (sqrt (24/25)). intros r S2 S0.
  assert (R : 97979/100000 < r < 9798/10000) by (cbn [pow] in S2; nra).
  replace (r ^ 7) with ((r ^ 2) ^ 3 * r) by ring. rewrite S2.
  apply quotient_between; [apply Rmult_lt_0_compat; [apply pow_lt; lra|lra]|]. lra.
Qed.
Lemma last_of_grid n : (2 <= n)%nat -> INR (n - 1) * (1/5 / INR (n - 1)) = 1/5.
Proof. intros H. field. apply not_0_INR. lia. Qed.
Lemma last_lt n : (2 <= n)%nat -> (n - 1 < n)%nat.
Proof. lia. Qed.
Lemma grid_end : grid_ecc (Z.to_nat 10000 - 1) = 1/5.
Proof. exact (last_of_grid _ ten_thousand). Qed.
Lemma end_in_grid : In (Fin (1/5)) transition_grid.
Proof. rewrite <- grid_end. exact (nth_error_In _ _ (transition_nth _ (last_lt _ ten_thousand))). Qed.
Lemma refused_all jv tol : (forall k x, jv k (Fin x) = Fin (besselJ k x)) -> within_tolerance jv tol (1/5) -> eccentric_transition jv (Fin tol) = Err IndexError.
Proof.
  intros HJ W. unfold eccentric_transition. destruct (filter _ _) as [|e rest] eqn:E; [reflexivity|]. exfalso.
  assert (Hin : In e (filter (below_tolerance jv (Fin tol)) transition_grid)) by (rewrite E; now left).
  apply filter_In in Hin. destruct Hin as (Hin & P). apply In_nth_error in Hin. destruct Hin as (j & Hj).
  assert (L : (j < Z.to_nat 10000)%nat) by (rewrite <- transition_length; apply nth_error_Some; congruence).
  rewrite transition_nth in Hj by auto. inversion Hj; subst e. pose proof (grid_ecc_bounds j L) as B.
  assert (W' : within_tolerance jv tol (grid_ecc j)) by (apply (within_below jv tol _ (1/5) HJ); [exact B|lra|exact W]).
  apply (below_iff jv besselJ tol _ HJ B) in W'. congruence.
Qed.
Lemma accepted_some jv tol : (forall k x, jv k (Fin x) = Fin (besselJ k x)) -> ~ within_tolerance jv tol (1/5) -> exists e, eccentric_transition jv (Fin tol) = Ok e.
Proof.
  intros HJ NW. pose proof end_in_grid as G. assert (BT : below_tolerance jv (Fin tol) (Fin (1/5)) = true).
  { destruct (below_tolerance jv (Fin tol) (Fin (1/5))) eqn:E; [reflexivity|]. exfalso. apply NW. apply (below_iff jv besselJ tol); [exact HJ|lra|exact E]. }
  unfold eccentric_transition. revert G. generalize transition_grid. intros l G.
  pose proof (proj2 (filter_In (below_tolerance jv (Fin tol)) (Fin (1/5)) l) (conj G BT)) as I.
  destruct (filter _ l) as [|e r]; [destruct I|eauto].
Qed.
Lemma accepted_iff jv tol : (forall k x, jv k (Fin x) = Fin (besselJ k x)) ->
  (eccentric_transition jv (Fin tol) = Err IndexError <-> within_tolerance jv tol (1/5)) /\
  ((exists e, eccentric_transition jv (Fin tol) = Ok e) <-> ~ within_tolerance jv tol (1/5)).
Proof.
  intros HJ. split; split; [|apply refused_all, HJ| |apply accepted_some, HJ].
  - intros E. destruct (peters_g_finite jv besselJ 2 (1/5) HJ ltac:(lia) ltac:(lra)) as (g & G & _).
    destruct (Rle_lt_dec ((1 - tol) * enhancement (1/5)) g) as [L|L]; [exists g; auto|].
    destruct (accepted_some jv tol HJ) as (e & Ee); [|congruence]. intros (g' & G' & L'). rewrite G in G'. injection G' as <-. lra.
  - intros (e & E) W. rewrite (refused_all jv tol HJ W) in E. discriminate.
Qed.
Lemma accepted jv tol : (forall k x, jv k (Fin x) = Fin (besselJ k x)) -> tol <= 36/100 -> exists e, eccentric_transition jv (Fin tol) = Ok e.
Proof.
  intros HJ H. apply (accepted_iff jv tol HJ). intros (g & G & W). rewrite (peters_g_fin jv besselJ 2 (1/5) HJ ltac:(lia)) in G. injection G as <-.
  pose proof g2_at_end. pose proof enhancement_at_end. nra.
Qed.
Lemma refused jv tol : (forall k x, jv k (Fin x) = Fin (besselJ k x)) -> 39/100 <= tol <= 1 -> eccentric_transition jv (Fin tol) = Err IndexError.
Proof.
  intros HJ H. apply (accepted_iff jv tol HJ). exists (gR besselJ 2 (1/5)). split; [apply (peters_g_fin jv besselJ 2 (1/5) HJ); lia|].
  pose proof g2_at_end. pose proof enhancement_at_end. nra.
Qed.

(** The setter. *)
Lemma set_as_transition jv lum tbl tol h : lum_table lum tbl -> h_gw_lum_tol h <> Some (Fin tol) -> exists h',
  set_gw_lum_tol jv lum (Fin tol) h = (h', match eccentric_transition jv (Fin tol) with Ok _ => Ok tt | Err x => Err x end).
Proof.
  intros T N. unfold set_gw_lum_tol.
  assert (Q : match h_gw_lum_tol h with Some t => neqb (Fin tol) t | None => false end = false).
  { destruct (h_gw_lum_tol h) as [t|]; [|reflexivity]. destruct (neqb (Fin tol) t) eqn:E; [|reflexivity]. apply neqb_eq in E. subst t. congruence. }
  rewrite Q. unfold create_harmonics_functions. cbn [h_gw_lum_tol]. rewrite (harmonics_needed_eq _ _ _ T).
  unfold find_eccentric_transition. cbn [h_gw_lum_tol]. generalize (eccentric_transition jv (Fin tol)). intros [e|x]; eexists; reflexivity.
Qed.
Lemma setter_iff jv lum tbl tol h : (forall k x, jv k (Fin x) = Fin (besselJ k x)) -> lum_table lum tbl -> h_gw_lum_tol h <> Some (Fin tol) ->
  exists h', (set_gw_lum_tol jv lum (Fin tol) h = (h', Ok tt) /\ ~ within_tolerance jv tol (1/5)) \/
    (set_gw_lum_tol jv lum (Fin tol) h = (h', Err IndexError) /\ within_tolerance jv tol (1/5)).
Proof.
  intros HJ T N. destruct (set_as_transition jv lum tbl tol h T N) as (h' & ->). exists h'. destruct (accepted_iff jv tol HJ) as (A & B).
  revert A B. generalize (eccentric_transition jv (Fin tol)). intros [e|x] A B.
  - left. split; [reflexivity|]. apply B. eauto.
  - right. assert (W : within_tolerance jv tol (1/5)).
    { destruct (Classical_Prop.classic (within_tolerance jv tol (1/5))) as [W|W]; [exact W|]. apply B in W. destruct W as (e & W). discriminate W. }
    split; [|exact W]. apply A in W. injection W as ->. reflexivity.
Qed.
Lemma setter_accepts jv lum tbl tol h : (forall k x, jv k (Fin x) = Fin (besselJ k x)) -> lum_table lum tbl -> h_gw_lum_tol h <> Some (Fin tol) ->
  tol <= 36/100 -> exists h', set_gw_lum_tol jv lum (Fin tol) h = (h', Ok tt).
Proof.
  intros HJ T N H. destruct (set_as_transition jv lum tbl tol h T N) as (h' & ->). destruct (accepted jv tol HJ H) as (e & ->). eauto.
Qed.
Lemma setter_refuses jv lum tbl tol h : (forall k x, jv k (Fin x) = Fin (besselJ k x)) -> lum_table lum tbl -> h_gw_lum_tol h <> Some (Fin tol) ->
  39/100 <= tol <= 1 -> exists h', set_gw_lum_tol jv lum (Fin tol) h = (h', Err IndexError).
Proof.
  intros HJ T N H. destruct (set_as_transition jv lum tbl tol h T N) as (h' & ->). rewrite (refused jv tol HJ H). eauto.
Qed.

(** A larger tolerance never gives a smaller transition. *)
Lemma transition_monotone jv J tol tol' e e' : (forall k x, jv k (Fin x) = Fin (J k x)) -> tol <= tol' ->
  eccentric_transition jv (Fin tol) = Ok e -> eccentric_transition jv (Fin tol') = Ok e' -> exists x x', e = Fin x /\ e' = Fin x' /\ x <= x'.
Proof.
  intros HJ L E E'. destruct (transition_thm jv J tol e HJ E) as (j & Hj & -> & _ & W).
  destruct (transition_thm jv J tol' e' HJ E') as (j' & Hj' & -> & NW & _). exists (grid_ecc j), (grid_ecc j'). split; [reflexivity|]. split; [reflexivity|].
  destruct (Nat.le_gt_cases j j') as [G|G].
  - unfold grid_ecc. apply Rmult_le_compat_r; [|now apply le_INR]. apply Rmult_le_pos; [lra|]. apply Rlt_le, Rinv_0_lt_compat, lt_0_INR. pose proof ten_thousand. lia.
  - exfalso. apply NW. destruct (W j' G) as (g & Eg & Lg). exists g. split; [exact Eg|]. pose proof (grid_ecc_bounds j' Hj') as B.
    assert (0 < enhancement (grid_ecc j')) by (apply enhancement_pos; lra). nra.
Qed.
