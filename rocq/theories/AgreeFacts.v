(** AgreeFacts.v -- proofs that the evolving SNR of a circular binary tends to the stationary one when its frequency hardly changes. *)
From Coq Require Import String Reals ZArith List Bool Lra Lia.
From Coquelicot Require Import Coquelicot.
From Verif Require Import Num NumFacts Np NpFacts Utils Spec UtilsFacts Strain DetectorFacts Evol EvolSpec EvolFacts MergeFacts OdeFacts ArrEvolFacts CircFacts EccEvolFacts LocalFacts
  EvolThms OdeintFacts StrainSpec StrainFacts Psd PsdSpec PsdFacts PsdThms ArgFacts ScaleFacts Snr SnrSpec SnrFacts SnrThms SnrThms2 SnrThms3 SnrThms4.
Import ListNotations.
Open Scope R_scope.

(** The trapezium rule lies between the rectangles of the smallest and of the largest ordinate. *)
Lemma trapezium_between lo hi (pts : list (R * R)) : forall x0 y0, sorted (x0 :: map fst pts) ->
  lo <= y0 <= hi -> (forall q, In q pts -> lo <= snd q <= hi) ->
  lo * (last (map fst pts) x0 - x0) <= trapezium ((x0, y0) :: pts) <= hi * (last (map fst pts) x0 - x0).
Proof.
  induction pts as [|[x1 y1] pts IH]; intros x0 y0 S Hy H; [cbn; lra|].
  change (trapezium ((x0, y0) :: (x1, y1) :: pts)) with ((x1 - x0) * (y0 + y1) / 2 + trapezium ((x1, y1) :: pts)).
  assert (x0 <= x1) by (apply (S 0%nat 1%nat); cbn; lia).
  assert (Hy1 : lo <= y1 <= hi) by (apply (H (x1, y1)); cbn; auto).
  assert (S' : sorted (x1 :: map fst pts)). { intros i j L1 L2. apply (S (Datatypes.S i) (Datatypes.S j)); cbn in *; lia. }
  specialize (IH x1 y1 S' Hy1 ltac:(intros q Hq; apply H; now right)).
  assert (E : last (map fst ((x1, y1) :: pts)) x0 = last (map fst pts) x1).
  { cbn [map fst]. clear. generalize x1. induction (map fst pts) as [|z l IHl]; intros u; auto. cbn [last] in *. destruct l; auto. }
  rewrite E. set (L := last (map fst pts) x1) in *. 
  assert (lo * (x1 - x0) <= (x1 - x0) * (y0 + y1) / 2 <= hi * (x1 - x0)) by nra. lra.
Qed.

(** Scaling of the drift and of the strain with the frequency. *)
Lemma fdotR_times mc f k : 0 < k -> 0 < f -> fdotR mc (k * f) 0 2 = Rpower k (11/3) * fdotR mc f 0 2.
Proof.
  intros Hk Hf. unfold fdotR. pose proof PI_RGT_0. replace (2 * PI * (k * f)) with (k * (2 * PI * f)) by ring.
  assert (0 < 2 * PI * f) by nra. rewrite <- (Rpower_mult_distr k) by auto. ring.
Qed.
Lemma h0R_times mc f d g k : 0 < k -> 0 < f -> h0R mc (k * f) d g 2 = Rpower k (2/3) * h0R mc f d g 2.
Proof.
  intros Hk Hf. unfold h0R. pose proof PI_RGT_0. replace (PI * (k * f)) with (k * (PI * f)) by ring.
  assert (0 < PI * f) by nra. rewrite <- (Rpower_mult_distr k) by auto. unfold Rdiv. ring.
Qed.
(** The integrand at k times the frequency, relative to the squared strain over drift and noise at the frequency itself. *)
Lemma evR_times jv gi p mc d g f k s : 0 < mc -> 0 < d -> 0 < f -> 0 < k -> power_used jv gi 2 0 g -> proper_noise p ->
  p (Fin (2 * (k * f))) = Fin s -> 0 < s ->
  evR jv gi p mc d 2 (k * f, 0) = Rpower k (-7/3) * (h0R mc f d g 2 ^ 2 / fdotR mc f 0 2 / s).
Proof.
  intros Hm Hd Hf Hk Hg Hp Es Hs. assert (Hkf : 0 < k * f) by nra.
  destruct (ev_elem_fin jv gi p mc d 2 (k * f) 0 g) as [_ [[_ [hc [E1 E2]]] _]]; auto; try lra; try lia.
  cbn [fst snd] in *. rewrite (h_c_single_fin jv gi mc (k * f) 0 2 d g None) in E1 by (auto; lra || lia). cbn [ampR] in E1. rewrite sqrt_1, Rmult_1_l in E1.
  injection E1 as <-. rewrite Es in E2. 
  assert (Q : evR jv gi p mc d 2 (k * f, 0) = hcR mc (k * f) 0 d g 2 ^ 2 / ((2 * (k * f)) ^ 2 * s)) by (inversion E2; reflexivity).
  rewrite Q. clear E2 Q.
  destruct (g_value_used jv gi 2 0 g ltac:(lia) ltac:(lra) Hg) as [_ G1].
  pose proof (strain_identity mc (k * f) 0 d g 2 Hm Hkf Hd ltac:(lra) G1 ltac:(lia)) as K.
  rewrite fdotR_times, h0R_times in K by auto.
  pose proof (fdotR_pos mc f 0 2 ltac:(lia) Hm Hf ltac:(lra)) as FP.
  set (hc := hcR mc (k * f) 0 d g 2) in *. set (h0 := h0R mc f d g 2) in *. set (fd := fdotR mc f 0 2) in *.
  pose proof (Rpower_pos k (11/3)) as P11. pose proof (Rpower_pos k (2/3)) as P2. pose proof (Rpower_pos k (-7/3)) as P7.
  assert (PP : Rpower k (2/3) ^ 2 = Rpower k (-7/3) * Rpower k (11/3)).
  { rewrite <- Rpower_pow by auto. rewrite Rpower_mult, <- Rpower_plus. f_equal. cbn. field. }
  apply (Rmult_eq_reg_r (Rpower k (11/3) * fd)); [|nra].
  replace (hc ^ 2 / ((2 * (k * f)) ^ 2 * s) * (Rpower k (11/3) * fd)) with (hc ^ 2 * (Rpower k (11/3) * fd) / ((2 * (k * f)) ^ 2 * s)) by (field; split; lra).
  rewrite K. rewrite (Rpow_mult_distr (Rpower k (2/3)) h0), PP. field. repeat split; lra.
Qed.

(** The frequency of a circular binary after [s] seconds, and how far it moves. *)
Definition freqR m1 m2 f s := fR (acR (aR f m1 m2) (betaR m1 m2) s) m1 m2.
Lemma freqR_derive m1 m2 f s : 0 < m1 -> 0 < m2 -> 0 < f -> s < tmR (betaR m1 m2) (aR f m1 m2) ->
  is_derive (fun u => 2 * freqR m1 m2 f u) s (fdotR (chirpR m1 m2) (freqR m1 m2 f s) 0 2).
Proof.
  intros H1 H2 Hf Hs. pose proof (betaR_pos m1 m2 H1 H2) as Hb. pose proof (acR_pos (aR f m1 m2) _ s Hb Hs) as AP.
  assert (D : is_derive (acR (aR f m1 m2) (betaR m1 m2)) s (peters_da_dt m1 m2 (acR (aR f m1 m2) (betaR m1 m2) s) 0)).
  { rewrite peters_da_dt_beta by (auto; lra). rewrite enhancement_0, Rmult_1_r. now apply acR_derive. }
  destruct (fn_dot_is_derivative (acR (aR f m1 m2) (betaR m1 m2)) (freqR m1 m2 f) 0 s m1 m2 2 H1 H2 ltac:(lra) ltac:(lia) AP D) as [mc [dd [E1 [E2 [_ E3]]]]].
  { pose proof (is_derive_pos_loc _ s _ AP D) as L. revert L. apply filter_imp. intros u Hu. now rewrite get_f_fin. }
  rewrite chirp_mass_fin in E1 by auto. injection E1 as <-.
  unfold fn_dot in E2. cbn [existsb Z.ltb] in E2. simpl in E2. rewrite fn_dot_elem_fin in E2; try lra; [|apply chirpR_pos|apply fR_pos].
  injection E2 as <-. exact E3.
Qed.
Lemma freqR_moves m1 m2 f T q : 0 < m1 -> 0 < m2 -> 0 < f -> 0 <= T -> T < tmR (betaR m1 m2) (aR f m1 m2) -> freqR m1 m2 f T = q * f ->
  1 <= q /\ fdotR (chirpR m1 m2) f 0 2 * T <= 2 * (freqR m1 m2 f T - f) <= Rpower q (11/3) * fdotR (chirpR m1 m2) f 0 2 * T.
Proof.
  intros H1 H2 Hf HT HTm Q. pose proof (betaR_pos m1 m2 H1 H2) as Hb.
  assert (F0 : freqR m1 m2 f 0 = f). { unfold freqR. rewrite acR_0; auto; [|apply aR_pos]. now apply fR_aR. }
  assert (MO : forall s t, s <= t -> t <= T -> freqR m1 m2 f s <= freqR m1 m2 f t).
  { intros s t Hst Ht. unfold freqR. apply fR_anti; auto; [apply acR_pos; auto; lra|]. apply acR_anti; auto. lra. }
  destruct (MVT_gen (fun u => 2 * freqR m1 m2 f u) 0 T (fun u => fdotR (chirpR m1 m2) (freqR m1 m2 f u) 0 2)) as [c [Hc E]].
  - intros x Hx. rewrite Rmin_left, Rmax_right in Hx by auto. apply freqR_derive; auto; lra.
  - intros x Hx. rewrite Rmin_left, Rmax_right in Hx by auto.
    apply continuity_pt_filterlim. apply (ex_derive_continuous (K := R_AbsRing) (V := R_NormedModule) (fun u => 2 * freqR m1 m2 f u)).
    eexists. apply freqR_derive; auto; lra.
  - rewrite Rmin_left, Rmax_right in Hc by auto. rewrite F0 in E.
    assert (A : f <= freqR m1 m2 f c). { rewrite <- F0 at 1. apply MO; lra. }
    assert (B : freqR m1 m2 f c <= q * f). { rewrite <- Q. apply MO; lra. }
    assert (Q1 : 1 <= q) by nra. split; auto.
    assert (EK : freqR m1 m2 f c = (freqR m1 m2 f c / f) * f) by (field; lra). set (k := freqR m1 m2 f c / f) in *.
    assert (K1 : 1 <= k <= q) by (rewrite EK in A, B; nra).
    rewrite EK, fdotR_times in E by lra. pose proof (fdotR_pos (chirpR m1 m2) f 0 2 ltac:(lia) (chirpR_pos m1 m2) Hf ltac:(lra)) as FP.
    assert (P1 : 1 <= Rpower k (11/3)). { rewrite <- (Rpower_O k) at 1 by lra. apply Rle_Rpower; lra. }
    assert (P2 : Rpower k (11/3) <= Rpower q (11/3)). { apply Rle_Rpower_l; lra. }
    set (fd := fdotR (chirpR m1 m2) f 0 2) in *. assert (0 <= fd * T) by nra. nra.
Qed.

Lemma last_map {A B} (g : A -> B) l a : last (map g l) (g a) = g (last l a).
Proof. induction l as [|x [|y l] IH]; auto. Qed.
Lemma last_nth {A} (l : list A) a b : last (a :: l) b = nth (length l) (a :: l) b.
Proof. revert a. induction l as [|x l IH]; intros a; auto. change (last (a :: x :: l) b) with (last (x :: l) b). rewrite IH. reflexivity. Qed.
Lemma last_default {A} (l : list A) a b : last (a :: l) b = last l a.
Proof. revert a. induction l as [|x l IH]; intros a; auto. cbn [last] in *. destruct l; auto. Qed.

Lemma snr_agree w jv gi quad m1 m2 mc f d t n tm aT fT sc kw p S eta : noise_curve w kw sc t p -> proper_noise p -> (2 <= n)%nat ->
  0 < m1 -> 0 < m2 -> 0 < f -> 0 < d -> 0 < t -> (exists g, power_used jv gi 2 0 g) -> chirp_mass (Fin m1) (Fin m2) = Fin mc ->
  get_t_merge_circ_sc None (Some (Fin m1)) (Some (Fin m2)) None (Some (Fin f)) = Ok (Fin tm) -> t <= tm - 1 ->
  circ_call_freq quad m1 m2 f n [Fin t] ["a"%string] = Ok (Single (E1 [Fin aT])) -> tiny < aT ->
  circ_call_freq quad m1 m2 f n [Fin t] ["f_orb"%string] = Ok (Single (E1 [Fin fT])) -> fT < 100 ->
  0 < S -> 1 <= eta -> p (Fin (2 * f)) = Fin S -> (forall x, 2 * f <= x <= 2 * fT -> exists s, p (Fin x) = Fin s /\ S / eta <= s <= eta * S) ->
  exists st ev, snr_circ_stationary w jv gi [Fin mc] [Fin f] [Fin d] (Fin t) no_sky sc kw = Ok [Fin st] /\
    snr_circ_evolving w jv gi quad [Fin m1] [Fin m2] [Fin f] [Fin d] (Fin t) n None sc kw = Ok [Fin ev] /\ 0 <= st /\ 0 <= ev /\
    f <= fT /\ st ^ 2 / (eta * Rpower (fT / f) (7/3)) <= ev ^ 2 <= st ^ 2 * (eta * Rpower (fT / f) (11/3)).
Proof.
  intros Hp Hpp Hn H1 H2 Hf Hd Ht [g Hg] Hmc HT Htm HA Ha HF HfT HS He ES HS2.
  rewrite chirp_mass_fin in Hmc by auto. injection Hmc as <-. set (mc := chirpR m1 m2) in *. assert (PC : 0 < mc) by apply chirpR_pos.
  rewrite merge_circ_sc_f in HT by auto. injection HT as HT.
  set (a0 := aR f m1 m2) in *. set (b := betaR m1 m2) in *. assert (Hb : 0 < b) by (now apply betaR_pos).
  rewrite circ_call_freq_a in HA by auto. injection HA as HA. fold a0 b in HA.
  rewrite circ_call_freq_eq in HF by auto. fold a0 b in HF. rewrite HA in HF. pose proof tiny_pos as TP. rewrite freq_of_a_fin in HF by (auto; lra). injection HF as HF.
  assert (ET : freqR m1 m2 f t = fT) by (unfold freqR; fold a0 b; now rewrite HA).
  set (q := fT / f). assert (EQ : fT = q * f) by (unfold q; field; lra).
  destruct (freqR_moves m1 m2 f t q) as [Q1 MV]; auto; try lra; [fold a0 b; lra|]. fold mc in MV. rewrite ET in MV.
  (* the stationary SNR *)
  pose proof (circ_stationary_map w jv gi (fun _ : unit => Fin mc) (fun _ => Fin f) (fun _ => Fin d) [tt] t None sc kw p Hp) as EST.
  cbn [map pop_sky pop_amp option_map] in EST. 
  destruct (st_elem_fin jv gi t p mc f 0 d 2 g None) as [v [EV [V0 V1]]]; auto; try lra; try lia. cbn [option_map pop_amp] in EV. cbn [ampR] in V1. rewrite sqrt_1, Rmult_1_l in V1.
  rewrite EV, nsqrt_fin in EST by auto.
  assert (EVv : v = h0R mc f d g 2 ^ 2 * t / S). { change (IZR 2) with 2 in V1. rewrite ES in V1. inversion V1. reflexivity. } clear V1 EV.
  (* the evolving SNR *)
  assert (IN : forall s, In s (linR t n) -> 0 <= s <= t). { intros s Hs. apply linR_in in Hs. destruct Hs as [k [Hk ->]]. split; nra. }
  assert (AC : forall s, 0 <= s <= t -> aT <= acR a0 b s). { intros s Hs. rewrite <- HA. apply acR_anti; auto; lra. }
  assert (F0 : freqR m1 m2 f 0 = f). { unfold freqR. rewrite acR_0; auto; [|apply aR_pos]. now apply fR_aR. }
  assert (MO : forall s u, s <= u -> u <= t -> freqR m1 m2 f s <= freqR m1 m2 f u).
  { intros s u Hsu Hu. unfold freqR. fold a0 b. apply fR_anti; auto; [apply acR_pos; auto; lra|]. apply acR_anti; auto. lra. }
  set (fs := map (freqR m1 m2 f) (linR t n)).
  assert (EF : circ_freqs (Fin m1) (Fin m2) (Fin f) (Fin t) n = map Fin fs).
  { unfold fs, freqR, a0, b. apply circ_freqs_real; auto. fold a0 b. intros s Hs. specialize (AC s (IN s Hs)). lra. }
  assert (FL : forall x, In x fs -> f <= x <= fT).
  { intros x Hx. apply in_map_iff in Hx. destruct Hx as [s [<- Hs]]. specialize (IN s Hs). split; [rewrite <- F0 at 1|rewrite <- ET]; apply MO; lra. }
  assert (SO : sorted fs).
  { intros i j Hij Hj. unfold fs in *. rewrite map_length in Hj. rewrite !(nth_map_in _ _ _ 0) by lia. 
    assert (I2 : 0 <= nth j (linR t n) 0 <= t) by (apply IN, nth_In; lia). apply MO; [|lra]. apply linR_sorted; auto; lra. }
  destruct (linR_cons t n ltac:(lia)) as [r ER].
  assert (EL : last (0 :: r) 0 = t).
  { rewrite last_nth. assert (LL : length (0 :: r) = n) by (rewrite <- ER; apply linR_length). cbn [length] in LL.
    rewrite <- ER, linR_nth by lia. replace (length r) with (n - 1)%nat by lia. field. apply not_0_INR. lia. }
  rewrite last_default in EL.
  assert (EFS : fs = f :: map (freqR m1 m2 f) r) by (unfold fs; rewrite ER; cbn [map]; now rewrite F0).
  rewrite (default_merger_circ _ _ _ _ _ _ _ _ _ _ [Fin tm]).
  2:{ pose proof (get_t_merge_circ_map (fun _ : unit => Fin m1) (fun _ => Fin m2) (fun _ => Fin f) [tt]) as E. cbn [map] in E. rewrite E.
      rewrite get_a_fin, beta_fin, t_merge_circ_fin by auto. now rewrite <- HT. }
  rewrite circ_one with (p := p) by (auto; lia). rewrite chirp_mass_fin by auto. fold mc. unfold circ_track. rewrite nsub_fin, nmin_fin. rewrite Rmin_right by auto. rewrite EF.
  rewrite unmerged_id by (intros x Hx; specialize (FL x Hx); lra). rewrite map_map.
  assert (TR : forall q, In q (map (fun x => (x, 0)) fs) -> 0 < fst q /\ 0 <= snd q < 1 /\ exists g, power_used jv gi 2 (snd q) g).
  { intros z Hz. apply in_map_iff in Hz. destruct Hz as [x [<- Hx]]. cbn. specialize (FL x Hx). repeat split; eauto; lra. }
  pose proof (ev_snr2_fin jv gi p mc d 2 (map (fun x => (x, 0)) fs) PC Hd ltac:(lia) Hpp TR) as E. rewrite !map_map in E. cbn [fst snd] in E. rewrite E. clear E.
  pose proof (fdotR_pos mc f 0 2 ltac:(lia) PC Hf ltac:(lra)) as FP. set (fd := fdotR mc f 0 2) in *. set (h0 := h0R mc f d g 2) in *.
  set (y0 := h0 ^ 2 / fd / S). assert (Y0 : 0 <= y0). { unfold y0. apply Rmult_le_pos; [apply Rmult_le_pos; [apply pow2_ge_0|]|]; left; now apply Rinv_0_lt_compat. }
  pose proof (Rpower_pos q (7/3)) as Q7. pose proof (Rpower_pos q (11/3)) as Q11.
  assert (YY : forall x, In x fs -> y0 / (eta * Rpower q (7/3)) <= evR jv gi p mc d 2 (x, 0) <= eta * y0).
  { intros x Hx. specialize (FL x Hx). assert (EK : x = (x / f) * f) by (field; lra). set (k := x / f) in *.
    assert (K : 1 <= k <= q). { rewrite EQ, EK in FL. split; nra. }
    destruct (HS2 (2 * x) ltac:(lra)) as [s [Es Hs]]. assert (SP : 0 < S / eta) by (apply Rdiv_lt_0_compat; lra).
    rewrite EK. rewrite (evR_times jv gi p mc d g f k s); auto; try lra; [|now rewrite <- EK].
    fold fd h0. replace (h0 ^ 2 / fd / s) with (y0 * (S / s)) by (unfold y0; field; lra).
    assert (R1 : 1 / eta <= S / s <= eta).
    { split; [apply Rmult_le_reg_r with (s * eta); [nra|]; replace (1 / eta * (s * eta)) with s by (field; lra); replace (S / s * (s * eta)) with (eta * S) by (field; lra); lra|].
      apply Rmult_le_reg_r with (s / eta); [apply Rdiv_lt_0_compat; lra|]. replace (S / s * (s / eta)) with (S / eta) by (field; lra). replace (eta * (s / eta)) with s by (field; lra). lra. }
    assert (R2 : / Rpower q (7/3) <= Rpower k (-7/3) <= 1).
    { replace (-7/3) with (- (7/3)) by lra. rewrite Rpower_Ropp. pose proof (Rpower_pos k (7/3)). assert (1 <= Rpower k (7/3)) by (rewrite <- (Rpower_O k) at 1 by lra; apply Rle_Rpower; lra).
      assert (Rpower k (7/3) <= Rpower q (7/3)) by (apply Rle_Rpower_l; lra).
      split; [apply Rinv_le_contravar; lra|]. rewrite <- Rinv_1. apply Rinv_le_contravar; lra. }
    assert (I1 : 0 < 1 / eta) by (apply Rdiv_lt_0_compat; lra). assert (I2 : 0 < / Rpower q (7/3)) by (now apply Rinv_0_lt_compat).
    assert (R3 : / Rpower q (7/3) * (1 / eta) <= Rpower k (-7/3) * (S / s) <= 1 * eta).
    { split; apply Rmult_le_compat; lra. }
    split.
    - replace (y0 / (eta * Rpower q (7/3))) with (y0 * (/ Rpower q (7/3) * (1 / eta))) by (field; lra).
      replace (Rpower k (-7/3) * (y0 * (S / s))) with (y0 * (Rpower k (-7/3) * (S / s))) by ring. apply Rmult_le_compat_l; lra.
    - replace (Rpower k (-7/3) * (y0 * (S / s))) with (y0 * (Rpower k (-7/3) * (S / s))) by ring.
      replace (eta * y0) with (y0 * (1 * eta)) by ring. apply Rmult_le_compat_l; lra. }
  set (P := map (fun x => (2 * x, evR jv gi p mc d 2 (x, 0))) fs) in *.
  assert (TB : y0 / (eta * Rpower q (7/3)) * (2 * (fT - f)) <= trapezium P <= eta * y0 * (2 * (fT - f))).
  { unfold P. rewrite EFS. cbn [map].
    assert (EE : last (map fst (map (fun x => (2 * x, evR jv gi p mc d 2 (x, 0))) (map (freqR m1 m2 f) r))) (2 * f) = 2 * fT).
    { rewrite !map_map. cbn [fst]. rewrite <- F0 at 1. rewrite (last_map (fun s => 2 * freqR m1 m2 f s)), EL. now rewrite ET. }
    replace (2 * (fT - f)) with (2 * fT - 2 * f) by ring. rewrite <- EE at 1 2.
    apply trapezium_between.
    - rewrite map_map. cbn [fst]. change (2 * f :: map (fun x => 2 * x) (map (freqR m1 m2 f) r)) with (map (Rmult 2) (f :: map (freqR m1 m2 f) r)).
      rewrite <- EFS. apply trapezium_scale_sorted; auto; lra.
    - apply YY. rewrite EFS. now left.
    - intros z Hz. apply in_map_iff in Hz. destruct Hz as [x [<- Hx]]. cbn [snd]. apply YY. rewrite EFS. now right. }
  assert (LO : 0 <= y0 / (eta * Rpower q (7/3))). { apply Rmult_le_pos; auto. left. apply Rinv_0_lt_compat. nra. }
  assert (HI : 0 <= eta * y0) by nra.
  assert (LOW : v / (eta * Rpower q (7/3)) <= trapezium P).
  { eapply Rle_trans; [|exact (proj1 TB)]. replace (v / (eta * Rpower q (7/3))) with (y0 / (eta * Rpower q (7/3)) * (fd * t)) by (rewrite EVv; unfold y0; field; repeat split; lra).
    apply Rmult_le_compat_l; lra. }
  assert (UPP : trapezium P <= v * (eta * Rpower q (11/3))).
  { eapply Rle_trans; [exact (proj2 TB)|]. replace (v * (eta * Rpower q (11/3))) with (eta * y0 * (Rpower q (11/3) * fd * t)) by (rewrite EVv; unfold y0; field; repeat split; lra).
    apply Rmult_le_compat_l; lra. }
  assert (T0 : 0 <= trapezium P). { eapply Rle_trans; [|exact LOW]. apply Rmult_le_pos; auto. left. apply Rinv_0_lt_compat. nra. }
  exists (sqrt v), (sqrt (trapezium P)). rewrite nsqrt_fin by auto. split; [exact EST|]. split; [reflexivity|].
  split; [apply sqrt_pos|]. split; [apply sqrt_pos|]. split; [rewrite EQ; nra|].
  rewrite !pow2_sqrt by auto. split; auto.
Qed.

(** A circular binary that has not merged is labelled stationary exactly if its frequency changes by at most the tolerance. *)
Lemma labelled quad m1 m2 mc f t n tm aT fT tol b : 0 < m1 -> 0 < m2 -> 0 < f -> chirp_mass (Fin m1) (Fin m2) = Fin mc ->
  get_t_merge_circ_sc None (Some (Fin m1)) (Some (Fin m2)) None (Some (Fin f)) = Ok (Fin tm) -> t < tm ->
  circ_call_freq quad m1 m2 f n [Fin t] ["a"%string] = Ok (Single (E1 [Fin aT])) -> tiny < aT ->
  circ_call_freq quad m1 m2 f n [Fin t] ["f_orb"%string] = Ok (Single (E1 [Fin fT])) ->
  determine_stationarity [Fin f] [Fin t] [Fin 0] None None (Some [Fin mc]) (Fin tol) = Ok [b] <-> b = nle (Fin ((fT - f) / f)) (Fin tol).
Proof.
  intros H1 H2 Hf Hc HT Ht HA Ha HF. destruct (CircFacts.circ_agree quad m1 m2 f t n merge_f_default mc tm aT H1 H2 Hf Hc HT HA ltac:(lra)) as [A _].
  destruct (A Ht) as [x [E1 E2]]. rewrite HF in E2. injection E2 as <-.
  rewrite evolve_one in E1. injection E1 as E1.
  pose proof (determine_stationarity_map (fun _ : unit => Fin f) (fun _ => Fin mc) (fun _ => Fin t) (fun _ => Fin 0) None None (Fin tol) [tt]) as D. cbn [map] in D.
  rewrite D, E1, nsub_fin, ndiv_fin by lra. split; [intros E; now injection E|intros ->; reflexivity].
Qed.
Lemma snr_agree_labelled w jv gi quad m1 m2 mc f d t n tm aT fT sc kw p S eta tol : noise_curve w kw sc t p -> proper_noise p -> (2 <= n)%nat ->
  0 < m1 -> 0 < m2 -> 0 < f -> 0 < d -> 0 < t -> (exists g, power_used jv gi 2 0 g) -> chirp_mass (Fin m1) (Fin m2) = Fin mc ->
  get_t_merge_circ_sc None (Some (Fin m1)) (Some (Fin m2)) None (Some (Fin f)) = Ok (Fin tm) -> t <= tm - 1 ->
  circ_call_freq quad m1 m2 f n [Fin t] ["a"%string] = Ok (Single (E1 [Fin aT])) -> tiny < aT ->
  circ_call_freq quad m1 m2 f n [Fin t] ["f_orb"%string] = Ok (Single (E1 [Fin fT])) -> fT < 100 ->
  0 < S -> 1 <= eta -> p (Fin (2 * f)) = Fin S -> (forall x, 2 * f <= x <= 2 * fT -> exists s, p (Fin x) = Fin s /\ S / eta <= s <= eta * S) ->
  determine_stationarity [Fin f] [Fin t] [Fin 0] None None (Some [Fin mc]) (Fin tol) = Ok [true] ->
  exists st ev, snr_circ_stationary w jv gi [Fin mc] [Fin f] [Fin d] (Fin t) no_sky sc kw = Ok [Fin st] /\
    snr_circ_evolving w jv gi quad [Fin m1] [Fin m2] [Fin f] [Fin d] (Fin t) n None sc kw = Ok [Fin ev] /\ 0 <= st /\ 0 <= ev /\
    st ^ 2 / (eta * Rpower (1 + tol) (7/3)) <= ev ^ 2 <= st ^ 2 * (eta * Rpower (1 + tol) (11/3)).
Proof.
  intros Hp Hpp Hn H1 H2 Hf Hd Ht Hg Hmc HT Htm HA Ha HF HfT HS He ES HS2 HL.
  destruct (snr_agree w jv gi quad m1 m2 mc f d t n tm aT fT sc kw p S eta) as [st [ev [E1 [E2 [P1 [P2 [Q [L U]]]]]]]]; auto.
  apply (labelled quad m1 m2 mc f t n tm aT fT tol true) in HL; auto; [|lra]. symmetry in HL. apply nle_fin in HL.
  exists st, ev. split; auto. split; auto. split; auto. split; auto.
  assert (K : 1 <= fT / f <= 1 + tol).
  { replace (fT / f) with (1 + (fT - f) / f) by (field; lra). split; [|lra]. enough (0 <= (fT - f) / f) by lra. apply Rmult_le_pos; [lra|]. left. now apply Rinv_0_lt_compat. }
  assert (A : forall c, 0 < c -> 0 < Rpower (fT / f) c <= Rpower (1 + tol) c). { intros c Hc. split; [apply Rpower_pos|]. apply Rle_Rpower_l; lra. }
  pose proof (A (7/3) ltac:(lra)). pose proof (A (11/3) ltac:(lra)). pose proof (pow2_ge_0 st).
  split.
  - eapply Rle_trans; [|exact L]. apply Rmult_le_compat_l; auto. apply Rinv_le_contravar; [nra|]. apply Rmult_le_compat_l; lra.
  - eapply Rle_trans; [exact U|]. apply Rmult_le_compat_l; auto. apply Rmult_le_compat_l; lra.
Qed.

(** A white dwarf binary at 1 mHz observed for four years: labelled stationary with the default tolerance, flat noise. *)
Lemma quiet_binary : exists mc tm aT fT quad, chirp_mass (Fin 1e30) (Fin 1e30) = Fin mc /\
  get_t_merge_circ_sc None (Some (Fin 1e30)) (Some (Fin 1e30)) None (Some (Fin 1e-3)) = Ok (Fin tm) /\ 4 * year <= tm - 1 /\
  circ_call_freq quad 1e30 1e30 1e-3 100 [Fin (4 * year)] ["a"%string] = Ok (Single (E1 [Fin aT])) /\ tiny < aT /\
  circ_call_freq quad 1e30 1e30 1e-3 100 [Fin (4 * year)] ["f_orb"%string] = Ok (Single (E1 [Fin fT])) /\ fT < 100 /\
  determine_stationarity [Fin 1e-3] [Fin (4 * year)] [Fin 0] None None (Some [Fin mc]) (Fin 1e-2) = Ok [true].
Proof.
  assert (H1 : 0 < 1e30) by lra. pose proof early_a as A. pose proof early_beta as B. pose proof early_f as F.
  set (m := 1e30) in *. set (b := betaR m m) in *. set (a0 := aR 1e-3 m m) in *.
  assert (A4 : 1e32 < a0 ^ 4). { replace (a0 ^ 4) with ((a0 * a0) * (a0 * a0)) by ring. assert (1e16 < a0 * a0) by nra. nra. }
  assert (T0 : 1e12 < tmR b a0) by (unfold tmR; apply lt_quot; lra).
  set (T := 4 * year). assert (Y : 0 < T < 2e8) by (unfold T, year; lra).
  pose proof (acR_pow4 a0 b T ltac:(lra) ltac:(lra)) as P. pose proof (acR_pos a0 b T ltac:(lra) ltac:(lra)) as AP.
  assert (AT : 1e6 <= acR a0 b T).
  { destruct (Rlt_le_dec (acR a0 b T) 1e6) as [L|L]; auto. exfalso. assert (acR a0 b T ^ 4 <= 1e6 ^ 4) by (apply pow_incr; lra). nra. }
  assert (TI : tiny < 1e6) by (unfold tiny, AU; lra). pose proof tiny_pos as TP.
  assert (HT : get_t_merge_circ_sc None (Some (Fin m)) (Some (Fin m)) None (Some (Fin 1e-3)) = Ok (Fin (tmR b a0))) by (apply merge_circ_sc_f; auto; lra).
  assert (HA : circ_call_freq (fun _ _ _ => NaN) m m 1e-3 100 [Fin T] ["a"%string] = Ok (Single (E1 [Fin (acR a0 b T)]))) by (apply circ_call_freq_a; auto; lra).
  assert (HF : circ_call_freq (fun _ _ _ => NaN) m m 1e-3 100 [Fin T] ["f_orb"%string] = Ok (Single (E1 [Fin (fR (acR a0 b T) m m)]))).
  { rewrite circ_call_freq_eq by (auto; lra). fold b a0. rewrite freq_of_a_fin by (auto; lra). reflexivity. }
  exists (chirpR m m), (tmR b a0), (acR a0 b T), (fR (acR a0 b T) m m), (fun _ _ _ => NaN). split; [now apply chirp_mass_fin|]. split; [exact HT|].
  split; [lra|]. split; [exact HA|]. split; [lra|]. split; [exact HF|]. split; [now apply F|].
  apply (labelled (fun _ _ _ => NaN) m m (chirpR m m) 1e-3 T 100 (tmR b a0) (acR a0 b T) (fR (acR a0 b T) m m) 1e-2 true); auto; try lra; [now apply chirp_mass_fin|].
  symmetry. apply nle_fin. 
  assert (KT := fR_kepler (acR a0 b T) m m H1 H1 AP). assert (K0 := aR_kepler 1e-3 m m H1 H1 ltac:(lra)). fold a0 in K0. 
  unfold kepler_third_law in KT, K0. pose proof (fR_pos (acR a0 b T) m m) as FP. 
  set (fT := fR (acR a0 b T) m m) in *. set (aT := acR a0 b T) in *.
  assert (KE : aT ^ 3 * fT ^ 2 = a0 ^ 3 * 1e-6). { pose proof PI_RGT_0. apply (Rmult_eq_reg_r (4 * PI ^ 2)); [|nra]. lra. }
  assert (LE : aT <= a0). { destruct (Rle_lt_dec aT a0) as [L|L]; auto. exfalso. assert (a0 ^ 4 <= aT ^ 4) by (apply pow_incr; lra). nra. }
  assert (A3 : 0.999 * a0 ^ 3 <= aT ^ 3).
  { assert (0.999 * a0 ^ 4 <= aT ^ 4) by (rewrite P; nra). apply Rmult_le_reg_r with a0; [lra|].
    assert (0 < aT ^ 3) by (apply pow_lt; lra). assert (aT ^ 3 * aT <= aT ^ 3 * a0) by (apply Rmult_le_compat_l; lra). lra. }
  assert (FQ : fT ^ 2 <= 1.02e-6).
  { assert (0 < a0 ^ 3) by (apply pow_lt; lra). pose proof (pow2_ge_0 fT). apply Rmult_le_reg_l with (a0 ^ 3); auto. 
    assert (0.999 * a0 ^ 3 * fT ^ 2 <= a0 ^ 3 * 1e-6) by (rewrite <- KE; apply Rmult_le_compat_r; lra). lra. }
  assert (fT <= 1.01e-3). { destruct (Rle_lt_dec fT 1.01e-3) as [L|L]; auto. exfalso. nra. }
  replace ((fT - 1e-3) / 1e-3) with (1000 * fT - 1) by field. lra.
Qed.
