(** PositiveFacts.v -- when the evolving SNR of an eccentric source is positive, and when it is exactly 0. *)
From Coq Require Import String Reals ZArith List Bool Lra Lia.
From Verif Require Import Num NumFacts Np NpFacts Utils Spec UtilsFacts Strain DetectorFacts Evol EvolSpec EvolFacts MergeFacts OdeFacts ArrEvolFacts CircFacts EccEvolFacts LocalFacts
  EvolThms OdeintFacts StrainSpec StrainFacts Psd PsdSpec PsdFacts PsdThms ArgFacts ScaleFacts Snr SnrSpec SnrFacts SnrThms SnrThms2 SnrThms3 SnrThms4.
Import ListNotations.
Open Scope R_scope.

(** The second time step is later than the first: the last step is moved back when it comes within 0.1 yr of the merger, so that
    two steps are enough only if the observation ends before that. *)
Lemma steps_move tm t n : ((3 <= n)%nat \/ (2 <= n)%nat /\ t < tm - yr / 10) -> 0 < Rmin (tm - yr / 10) t ->
  exists s ts, ecc_steps (Fin tm) (Fin t) n = map Fin (0 :: s :: ts) /\ sorted (0 :: s :: ts) /\ 0 < s /\ forall u, In u (s :: ts) -> u <= Rmin (tm - yr / 10) t.
Proof.
  intros Hn HT. unfold ecc_steps, t_before_ecc. rewrite nsub_fin, nmin_fin. set (T := Rmin (tm - yr / 10) t) in *. rewrite linspace0_R.
  assert (Hn1 : (1 <= n)%nat) by lia. assert (Hn2 : (2 <= n)%nat) by lia.
  destruct (linR_cons T n Hn1) as [r E]. pose proof (linR_sorted T n ltac:(lra)) as S. pose proof (linR_length T n) as LL.
  pose proof (linR_nth T n 1 Hn2 ltac:(lia)) as N1. rewrite E in *.
  assert (B : forall s, In s (0 :: r) -> 0 <= s <= T).
  { intros s Hs. rewrite <- E in Hs. apply linR_in in Hs. destruct Hs as [k [Hk ->]]. split; nra. }
  rewrite clamp_row_fin by (intros s Hs; apply B; now right).
  destruct (clampR_spec (tm - yr / 10) r S) as [L [Z [S' [LE [KE _]]]]].
  destruct r as [|x r]; [cbn in LL; lia|]. cbn [nth] in N1.
  assert (PI : 0 < INR (n - 1)) by (apply lt_0_INR; lia).
  assert (P : 0 < x < tm - yr / 10).
  { rewrite N1. replace (INR 1) with 1 by reflexivity. pose proof (Rmin_l (tm - yr / 10) t) as M1. pose proof (Rmin_r (tm - yr / 10) t) as M2. fold T in M1, M2.
    assert (IP : 0 < 1 / INR (n - 1)) by (apply Rdiv_lt_0_compat; lra).
    split; [apply Rmult_lt_0_compat; lra|]. destruct Hn as [H3|[_ H2]].
    - assert (2 <= INR (n - 1)) by (change 2 with (INR 2); apply le_INR; lia).
      assert (1 / INR (n - 1) < 1). { apply (Rmult_lt_reg_r (INR (n - 1))); auto. unfold Rdiv. rewrite Rmult_1_l, Rinv_l by lra. lra. } nra.
    - assert (1 <= INR (n - 1)) by (change 1 with (INR 1); apply le_INR; lia).
      assert (1 / INR (n - 1) <= 1). { apply (Rmult_le_reg_r (INR (n - 1))); auto. unfold Rdiv. rewrite Rmult_1_l, Rinv_l by lra. lra. } nra. }
  specialize (KE 1%nat ltac:(cbn; lia)). cbn [nth] in KE. specialize (KE (proj2 P)).
  unfold clampR in *. cbn [map] in *. cbn [nth] in KE. rewrite KE in *.
  do 2 eexists. split; [reflexivity|]. split; [exact S'|]. split; [tauto|].
  intros u Hu. destruct (In_nth _ _ 0 Hu) as [i [Hi Es]]. cbn [length] in Hi. rewrite map_length in Hi.
  specialize (LE (Datatypes.S i) ltac:(cbn [length]; lia)). rewrite <- Es. eapply Rle_trans; [exact LE|]. apply B. apply nth_In. cbn [length]. lia.
Qed.
(** Two steps, the second too close to the merger: it is moved back onto the first. *)
Lemma steps_two tm t : 0 <= tm - yr / 10 -> tm - yr / 10 <= t ->
  exists ts, ecc_steps (Fin tm) (Fin t) 2 = map Fin (0 :: ts) /\ forall s, In s ts -> s = 0.
Proof.
  intros H0 Ht. unfold ecc_steps, t_before_ecc. rewrite nsub_fin, nmin_fin, Rmin_left by lra. set (T := tm - yr / 10) in *. rewrite linspace0_R.
  destruct (linR_cons T 2 ltac:(lia)) as [r E]. pose proof (linR_length T 2) as LL. pose proof (linR_nth T 2 1 ltac:(lia) ltac:(lia)) as N1. pose proof (linR_sorted T 2 H0) as S. rewrite E in *.
  destruct r as [|x [|y r]]; cbn in LL; try lia. cbn [nth] in N1. replace (INR 1 / INR (2 - 1) * T) with T in N1 by (cbn; field). subst x.
  rewrite clamp_row_fin by (intros s [<-|[]]; auto). fold T.
  destruct (clampR_spec T [T] S) as [_ [_ [_ [_ [_ KE]]]]]. destruct (KE 1%nat ltac:(cbn; lia) ltac:(cbn; lra)) as [k [K1 [_ [K3 _]]]].
  assert (k = 0%nat) by lia. subst k. unfold clampR in *. cbn [map nth] in *. exists [if adm T T then T else last_adm T [T]]. split; [reflexivity|]. intros s [<-|[]]. exact K3.
Qed.

Lemma ecc_frozen w jv gi quad odeint sched np m1 m2 f d e0 hr t n tm sc kw p a0 :
  noise_curve w kw sc t p -> proper_noise p -> (1 <= n)%nat -> odeint_shape odeint -> odeint_exact odeint ->
  ((1 < np)%nat -> complete_schedule 1 sched) ->
  0 < m1 -> 0 < m2 -> 0 < f < 100 -> 0 < d -> 0 < e0 < 1 -> 0 <= t ->
  (forall k x, (1 <= k)%Z -> 0 < x < 1 -> exists g, power_used jv gi k x g) ->
  get_a_from_f_orb (Fin f) (Fin m1) (Fin m2) = Fin a0 -> tiny < a0 ->
  (exists ts, ecc_steps (Fin tm) (Fin t) n = map Fin (0 :: ts) /\ forall s, In s ts -> s = 0) ->
  snr_ecc_evolving w jv gi quad odeint sched [Fin m1] [Fin m2] [Fin f] [Fin d] [Fin e0] hr (Fin t) n (Some [Fin tm]) sc np false false kw = Ok (Snr [Fin 0]).
Proof.
  intros Hp Hpp Hn Hsh HO Hsc H1 H2 Hf Hd He Ht Hg Ea Ha [ts [S1 S2]]. rewrite get_a_fin in Ea by (auto; lra). apply Fin_inj in Ea. subst a0.
  pose proof (aR_pos f m1 m2) as Ha0. assert (Hc : 0 < c0R (aR f m1 m2) e0) by (now apply c0R_pos). pose proof (betaR_pos m1 m2 H1 H2) as Hb.
  assert (exists e, e 0 = e0 /\ follows_de_dt (betaR m1 m2) (c0R (aR f m1 m2) e0) 0 e) as [e [E0 HF]].
  { destruct (trajectory_exists (betaR m1 m2) (c0R (aR f m1 m2) e0) e0 0) as [e [A B]]; auto; try lra. 2: eauto.
    pose proof (I514_pos e0 He). apply Rmult_lt_0_compat; auto. apply Rdiv_lt_0_compat; auto. assert (0 < c0R (aR f m1 m2) e0 ^ 4) by (now apply pow_lt). lra. }
  assert (AE : aeR (e 0) (c0R (aR f m1 m2) e0) = aR f m1 m2) by (rewrite E0; now apply aeR_c0R).
  assert (S3 : sorted (0 :: ts)).
  { assert (Z : forall i, nth i (0 :: ts) 0 = 0). { intros i. destruct (Nat.lt_ge_cases i (length (0 :: ts))) as [L|L]; [|now apply nth_overflow].
      destruct (nth_In _ 0 L) as [<-|I]; auto. } intros i j _ _. rewrite !Z. lra. }
  destruct (ecc_track_real odeint m1 m2 f e0 (Fin tm) (Fin t) n 0 e ts) as [TR [SO [FL EL]]]; auto; try lra.
  { intros s Hs. rewrite (S2 s Hs). lra. } { rewrite AE, fR_aR; lra. }
  set (fs := map (fun s => fR (aeR (e s) (c0R (aR f m1 m2) e0)) m1 m2) (0 :: ts)) in *. set (es := map e (0 :: ts)) in *.
  destruct (chirp_one m1 m2 H1 H2) as [EC PC].
  assert (TK : forall k, (1 <= k)%Z -> forall q, In q (combine fs es) -> 0 < fst q /\ 0 <= snd q < 1 /\ exists g, power_used jv gi k (snd q) g).
  { intros k Hk [x y] Hq. pose proof (in_combine_l _ _ _ _ Hq) as I1. pose proof (in_combine_r _ _ _ _ Hq) as I2. cbn.
    pose proof (FL x I1). pose proof (EL y I2). repeat split; try lra. apply Hg; auto. }
  assert (CF : forall x, In x fs -> x = f).
  { intros x Hx. apply in_map_iff in Hx. destruct Hx as [s [<- Hs]]. replace s with 0 by (destruct Hs as [<-|Hs]; auto; symmetry; auto). rewrite AE. apply fR_aR; lra. }
  assert (V : forall k, (1 <= k)%Z -> ev_snr2 jv gi p (Fin (chirpR m1 m2)) (Fin d) (map (fun q => (Fin (fst q), Fin (snd q))) (combine fs es)) k = Fin 0).
  { intros k Hk. rewrite (ev_snr2_fin jv gi p (chirpR m1 m2) d k (combine fs es)) by auto. f_equal.
    rewrite (map_ext_in _ (fun q => (IZR k * f, evR jv gi p (chirpR m1 m2) d k q))).
    2:{ intros [x y] Hq. pose proof (in_combine_l _ _ _ _ Hq) as I1. cbn [fst]. f_equal. f_equal. auto. }
    rewrite <- (map_map (fun q => evR jv gi p (chirpR m1 m2) d k q) (fun y => (IZR k * f, y))). apply trapezium_const. }
  rewrite ecc_one with (p := p) by (auto; lra). rewrite EC, TR. unfold returned. cbn [map]. do 2 f_equal. f_equal.
  rewrite (map_ext_in _ (fun _ => Fin 0)). 2:{ intros k Hk. apply arange1_in in Hk. now apply V. }
  rewrite <- (map_map (fun _ => 0) Fin), nsum_fin. replace (Rsum (map (fun _ : Z => 0) (arange1 hr))) with 0.
  { rewrite nsqrt_fin by lra. now rewrite sqrt_0. }
  induction (arange1 hr) as [|k l IH]; [reflexivity|]. cbn [map]. rewrite Rsum_cons, <- IH. lra.
Qed.
Lemma ecc_two_steps w jv gi quad odeint sched np m1 m2 f d e0 hr t tmo tm sc kw p a0 :
  noise_curve w kw sc t p -> proper_noise p -> odeint_shape odeint -> odeint_exact odeint ->
  ((1 < np)%nat -> complete_schedule 1 sched) ->
  0 < m1 -> 0 < m2 -> 0 < f < 100 -> 0 < d -> 0 < e0 < 1 ->
  (forall k x, (1 <= k)%Z -> 0 < x < 1 -> exists g, power_used jv gi k x g) ->
  get_a_from_f_orb (Fin f) (Fin m1) (Fin m2) = Fin a0 -> tiny < a0 ->
  merger_time_used quad m1 m2 f e0 tm tmo -> 0 <= tm - year / 10 <= t ->
  snr_ecc_evolving w jv gi quad odeint sched [Fin m1] [Fin m2] [Fin f] [Fin d] [Fin e0] hr (Fin t) 2 tmo sc np false false kw = Ok (Snr [Fin 0]).
Proof.
  intros. rewrite (merger_time_replace _ _ _ _ _ _ _ _ _ _ _ _ _ _ _ tm) by auto. eapply ecc_frozen; eauto; [lra|]. apply steps_two; rewrite <- year_yr; lra.
Qed.

Lemma fR_anti_strict a a' m1 m2 : 0 < m1 -> 0 < m2 -> 0 < a -> a < a' -> fR a' m1 m2 < fR a m1 m2.
Proof.
  intros H1 H2 Ha L. destruct (fR_anti a a' m1 m2 H1 H2 Ha ltac:(lra)) as [|E]; auto. exfalso.
  assert (aR (fR a' m1 m2) m1 m2 = aR (fR a m1 m2) m1 m2) by now rewrite E. rewrite !aR_fR in H by lra. lra.
Qed.
Lemma Rsum_pos_in (v : Z -> R) l h : In h l -> (forall k, In k l -> 0 <= v k) -> 0 < v h -> 0 < Rsum (map v l).
Proof.
  induction l as [|x l IH]; intros Hi H P; [destruct Hi|]. cbn [map]. rewrite Rsum_cons.
  assert (0 <= Rsum (map v l)) by (apply Rsum_map_nonneg; intros; apply H; now right).
  destruct Hi as [<-|Hi]; [lra|]. pose proof (H x (or_introl eq_refl)). assert (0 < Rsum (map v l)) by (apply IH; auto; intros; apply H; now right). lra.
Qed.
Lemma trapezium_pos2 x0 y0 x1 y1 pts : x0 < x1 -> 0 < y0 -> sorted (map fst ((x1, y1) :: pts)) -> (forall q, In q ((x1, y1) :: pts) -> 0 <= snd q) ->
  0 < trapezium ((x0, y0) :: (x1, y1) :: pts).
Proof.
  intros Hx Hy S H. change (trapezium ((x0, y0) :: (x1, y1) :: pts)) with ((x1 - x0) * (y0 + y1) / 2 + trapezium ((x1, y1) :: pts)).
  pose proof (trapezium_nonneg _ S H). pose proof (H (x1, y1) (or_introl eq_refl)) as Q. cbn in Q. assert (0 < (x1 - x0) * (y0 + y1)) by (apply Rmult_lt_0_compat; lra). lra.
Qed.

Lemma ecc_positive w jv gi quad odeint sched np m1 m2 f d e0 hr t n tm b a0 c0 e aT fT sc kw p :
  noise_curve w kw sc t p -> proper_noise p -> ((3 <= n)%nat \/ (2 <= n)%nat /\ t < tm - year / 10) -> odeint_shape odeint -> odeint_exact odeint ->
  ((1 < np)%nat -> complete_schedule 1 sched) ->
  0 < m1 -> 0 < m2 -> 0 < f -> 0 < d -> 0 < e0 < 1 ->
  (forall k x, (1 <= k)%Z -> 0 < x < 1 -> exists g, power_used jv gi k x g) ->
  beta (Fin m1) (Fin m2) = Fin b -> get_a_from_f_orb (Fin f) (Fin m1) (Fin m2) = Fin a0 -> c_0 (Fin a0) (Fin e0) = Fin c0 ->
  let T := Rmin (tm - year / 10) t in
  0 < T -> e 0 = e0 -> follows_de_dt b c0 T e ->
  get_a_from_ecc (Fin (e T)) (Fin c0) = Fin aT -> tiny < aT ->
  get_f_orb_from_a (Fin aT) (Fin m1) (Fin m2) = Fin fT -> fT < 100 ->
  (exists h, (1 <= h <= Z.of_nat hr)%Z /\ (exists g, power_used jv gi h e0 g /\ 0 < g) /\ p (Fin (IZR h * f)) <> PInf) ->
  exists s, snr_ecc_evolving w jv gi quad odeint sched [Fin m1] [Fin m2] [Fin f] [Fin d] [Fin e0] hr (Fin t) n (Some [Fin tm]) sc np false false kw = Ok (Snr [Fin s]) /\ 0 < s.
Proof.
  intros Hp Hpp Hn' Hsh HO Hsc H1 H2 Hf Hd He Hg Eb Ea Ec T HT E0 HF EaT HaT EfT HfT [h [Hh [Hgh Hph]]].
  assert (Hn : (1 <= n)%nat) by lia.
  rewrite beta_fin in Eb by auto. apply Fin_inj in Eb. subst b. rewrite get_a_fin in Ea by auto. apply Fin_inj in Ea.
  rewrite c_0_fin in Ec by auto. apply Fin_inj in Ec. subst a0 c0. pose proof tiny_pos as TP.
  destruct (HF T ltac:(lra)) as [HeT _]. rewrite get_a_from_ecc_fin in EaT by auto. apply Fin_inj in EaT. subst aT.
  rewrite get_f_fin in EfT by (auto; lra). apply Fin_inj in EfT. subst fT.
  destruct (steps_move tm t n) as [s1 [ts [S1 [S2 [S3 S4]]]]]. { rewrite <- year_yr. exact Hn'. } { rewrite <- year_yr. exact HT. } rewrite <- year_yr in S4. fold T in S4.
  destruct (ecc_track_real odeint m1 m2 f e0 (Fin tm) (Fin t) n T e (s1 :: ts)) as [TR [SO [FL EL]]]; auto; try lra.
  set (fs := map (fun s => fR (aeR (e s) (c0R (aR f m1 m2) e0)) m1 m2) (0 :: s1 :: ts)) in *. set (es := map e (0 :: s1 :: ts)) in *.
  destruct (chirp_one m1 m2 H1 H2) as [EC PC].
  assert (LE : length fs = length es) by (unfold fs, es; now rewrite !map_length).
  assert (TK : forall k, (1 <= k)%Z -> forall q, In q (combine fs es) -> 0 < fst q /\ 0 <= snd q < 1 /\ exists g, power_used jv gi k (snd q) g).
  { intros k Hk [x y] Hq. pose proof (in_combine_l _ _ _ _ Hq) as I1. pose proof (in_combine_r _ _ _ _ Hq) as I2. cbn.
    pose proof (FL x I1). pose proof (EL y I2). repeat split; try lra. apply Hg; auto. }
  assert (F : map fst (combine fs es) = fs) by (now apply combine_fst).
  set (v := fun k => match ev_snr2 jv gi p (Fin (chirpR m1 m2)) (Fin d) (map (fun q => (Fin (fst q), Fin (snd q))) (combine fs es)) k with Fin r => r | _ => 0 end).
  assert (V : forall k, (1 <= k)%Z -> ev_snr2 jv gi p (Fin (chirpR m1 m2)) (Fin d) (map (fun q => (Fin (fst q), Fin (snd q))) (combine fs es)) k = Fin (v k) /\ 0 <= v k).
  { intros k Hk. unfold v. destruct (track_integral jv gi p (chirpR m1 m2) d k (combine fs es)) as [ys [Y1 [Y2 Y3]]]; auto. { now rewrite F. }
    rewrite Y3. auto. }
  assert (ROW : map (ev_snr2 jv gi p (Fin (chirpR m1 m2)) (Fin d) (map (fun q => (Fin (fst q), Fin (snd q))) (combine fs es))) (arange1 hr) = map Fin (map v (arange1 hr))).
  { rewrite map_map. apply map_ext_in. intros k Hk. apply arange1_in in Hk. now apply V. }
  assert (VP : 0 < v h).
  { assert (Ff : fR (aeR (e 0) (c0R (aR f m1 m2) e0)) m1 m2 = f) by (rewrite E0, aeR_c0R by (auto using aR_pos); now apply fR_aR).
    destruct (V h ltac:(lia)) as [EV _]. rewrite (ev_snr2_fin jv gi p (chirpR m1 m2) d h (combine fs es)) in EV by (auto; lia || (apply TK; lia)). apply Fin_inj in EV. rewrite <- EV.
    destruct (trajectory_rates_thm m1 m2 (betaR m1 m2) T (c0R (aR f m1 m2) e0) e H1 H2 ltac:(auto using c0R_pos, aR_pos) ltac:(now apply beta_fin) HF) as [a [A1 [_ A3]]].
    destruct (A3 0 s1 ltac:(lra) S3 ltac:(apply S4; now left)) as [_ D].
    pose proof (A1 0 ltac:(lra)) as P1. pose proof (A1 s1 ltac:(split; [lra|apply S4; now left])) as P2.
    destruct (HF 0 ltac:(lra)) as [Q1 _]. destruct (HF s1 ltac:(split; [lra|apply S4; now left])) as [Q2 _].
    rewrite get_a_from_ecc_fin in P1, P2 by (auto using c0R_pos, aR_pos). apply Fin_inj in P1, P2.
    assert (FI : f < fR (aeR (e s1) (c0R (aR f m1 m2) e0)) m1 m2).
    { rewrite <- Ff at 1. apply fR_anti_strict; auto; [apply aeR_pos; auto using c0R_pos, aR_pos|lra]. }
    assert (NN : forall q, In q (combine fs es) -> 0 <= evR jv gi p (chirpR m1 m2) d h q).
    { intros [x y] Hq. destruct (TK h ltac:(lia) _ Hq) as [U1 [U2 [g U3]]]. cbn in U1, U2, U3. apply (ev_elem_fin jv gi p (chirpR m1 m2) d h x y g); auto; lia. }
    pose proof (IZR_pos h ltac:(lia)) as HP.
    set (pt := fun q : R * R => (IZR h * fst q, evR jv gi p (chirpR m1 m2) d h q)).
    assert (SS : sorted (map fst (map pt (combine fs es)))).
    { rewrite map_map, (map_ext _ (fun q : R * R => IZR h * fst q)) by reflexivity. rewrite <- (map_map fst (fun x : R => IZR h * x)), F. intros i j Hij Hj. rewrite map_length in Hj.
      rewrite !(nth_map_in _ _ _ 0) by lia. apply Rmult_le_compat_l; [lra|]. now apply SO. }
    assert (PN : forall q, In q (map pt (combine fs es)) -> 0 <= snd q) by (intros q Hq; apply in_map_iff in Hq; destruct Hq as [r [<- Hr]]; cbn; auto).
    unfold fs, es in SS, PN |- *. cbn [map combine] in SS, PN |- *. unfold pt at 1 2. unfold pt in SS at 1 2. unfold pt in PN at 1 2. cbn [fst] in SS, PN |- *. apply trapezium_pos2.
    - rewrite Ff. apply Rmult_lt_compat_l; auto.
    - destruct Hgh as [g [G1 G2]]. rewrite Ff, E0. apply (ev_elem_fin jv gi p (chirpR m1 m2) d h f e0 g); auto; try lra; lia.
    - intros i j Hij Hj. apply (SS (S i) (S j)); cbn [map length] in *; lia.
    - intros q Hq. apply PN. now right. }
  exists (sqrt (Rsum (map v (arange1 hr)))). split.
  - rewrite ecc_one with (p := p) by (auto; lra). rewrite EC, TR, ROW. unfold returned. cbn [map]. rewrite nsum_fin, nsqrt_fin; auto.
    apply Rsum_map_nonneg. intros k Hk. apply arange1_in in Hk. now apply V.
  - apply sqrt_lt_R0. apply (Rsum_pos_in v _ h); auto. { apply arange1_in. lia. } intros k Hk. apply arange1_in in Hk. now apply V.
Qed.
Lemma ecc_positive_any w jv gi quad odeint sched np m1 m2 f d e0 hr t n tmo tm b a0 c0 e aT fT sc kw p :
  noise_curve w kw sc t p -> proper_noise p -> ((3 <= n)%nat \/ (2 <= n)%nat /\ t < tm - year / 10) -> odeint_shape odeint -> odeint_exact odeint ->
  ((1 < np)%nat -> complete_schedule 1 sched) ->
  0 < m1 -> 0 < m2 -> 0 < f -> 0 < d -> 0 < e0 < 1 ->
  (forall k x, (1 <= k)%Z -> 0 < x < 1 -> exists g, power_used jv gi k x g) ->
  beta (Fin m1) (Fin m2) = Fin b -> get_a_from_f_orb (Fin f) (Fin m1) (Fin m2) = Fin a0 -> c_0 (Fin a0) (Fin e0) = Fin c0 ->
  merger_time_used quad m1 m2 f e0 tm tmo ->
  let T := Rmin (tm - year / 10) t in
  0 < T -> e 0 = e0 -> follows_de_dt b c0 T e ->
  get_a_from_ecc (Fin (e T)) (Fin c0) = Fin aT -> tiny < aT ->
  get_f_orb_from_a (Fin aT) (Fin m1) (Fin m2) = Fin fT -> fT < 100 ->
  (exists h, (1 <= h <= Z.of_nat hr)%Z /\ (exists g, power_used jv gi h e0 g /\ 0 < g) /\ p (Fin (IZR h * f)) <> PInf) ->
  exists s, snr_ecc_evolving w jv gi quad odeint sched [Fin m1] [Fin m2] [Fin f] [Fin d] [Fin e0] hr (Fin t) n tmo sc np false false kw = Ok (Snr [Fin s]) /\ 0 < s.
Proof. cbv zeta. intros. rewrite (merger_time_replace _ _ _ _ _ _ _ _ _ _ _ _ _ _ _ tm) by auto. eapply ecc_positive; eauto. Qed.
Lemma circ_positive w jv gi quad m1 m2 f d t n tm aT fT sc kw p :
  noise_curve w kw sc t p -> proper_noise p -> (2 <= n)%nat ->
  0 < m1 -> 0 < m2 -> 0 < f -> 0 < d -> 0 < t -> (exists g, power_used jv gi 2 0 g /\ 0 < g) -> p (Fin (2 * f)) <> PInf ->
  get_t_merge_circ_sc None (Some (Fin m1)) (Some (Fin m2)) None (Some (Fin f)) = Ok (Fin tm) -> 1 < tm ->
  circ_call_freq quad m1 m2 f n [Fin (Rmin (tm - 1) t)] ["a"%string] = Ok (Single (E1 [Fin aT])) -> tiny < aT ->
  circ_call_freq quad m1 m2 f n [Fin (Rmin (tm - 1) t)] ["f_orb"%string] = Ok (Single (E1 [Fin fT])) -> fT < 100 ->
  exists s, snr_circ_evolving w jv gi quad [Fin m1] [Fin m2] [Fin f] [Fin d] (Fin t) n None sc kw = Ok [Fin s] /\ 0 < s.
Proof.
  intros Hp Hpp Hn H1 H2 Hf Hd Ht [g [G1 G2]] HP Etm Htm Ea Ha Ef Hff.
  destruct (circ_well_defined w jv gi quad m1 m2 f d t n tm aT fT sc kw p) as [s [E [_ P]]]; auto; try lia; try lra; eauto.
  exists s. split; auto. apply P; auto. intros g' G'. destruct gi as [gi|]; cbn in G1, G'.
  - destruct G1 as [v [V1 ->]], G' as [v' [V1' ->]]. rewrite V1 in V1'. injection V1' as <-. exact G2.
  - rewrite G1 in G'. injection G' as <-. exact G2.
Qed.
Lemma early_separation : exists a0, get_a_from_f_orb (Fin 1e-3) (Fin 1e30) (Fin 1e30) = Fin a0 /\ tiny < a0.
Proof.
  exists (aR 1e-3 1e30 1e30). split; [apply get_a_fin; lra|]. pose proof early_a as A. assert (tiny < 1e6) by (unfold tiny, AU; lra). lra.
Qed.
