(** SnrThms4.v -- the evolving SNR with computed merger times, and concrete binaries. *)
From Coq Require Import String Reals ZArith List Bool Lra Lia.
From Verif Require Import Num NumFacts Np NpFacts Utils Spec UtilsFacts Strain DetectorFacts Evol EvolSpec EvolFacts MergeFacts OdeFacts ArrEvolFacts CircFacts EccEvolFacts LocalFacts
  EvolThms OdeintFacts StrainSpec StrainFacts Psd PsdSpec PsdFacts PsdThms ArgFacts ScaleFacts Snr SnrSpec SnrFacts SnrThms SnrThms2 SnrThms3.
Import ListNotations.
Open Scope R_scope.

Lemma merger_time_replace w jv gi quad odeint sched m1 m2 f d e hr t n tmo tm sc np rm r2 kw : merger_time_used quad m1 m2 f e tm tmo ->
  snr_ecc_evolving w jv gi quad odeint sched [Fin m1] [Fin m2] [Fin f] [Fin d] [Fin e] hr t n tmo sc np rm r2 kw =
  snr_ecc_evolving w jv gi quad odeint sched [Fin m1] [Fin m2] [Fin f] [Fin d] [Fin e] hr t n (Some [Fin tm]) sc np rm r2 kw.
Proof. intros [|E]; [reflexivity|]. now apply default_merger_ecc. Qed.

Lemma ecc_well_defined_any w jv gi quad odeint sched np m1 m2 f d e0 hr t n tmo tm b a0 c0 e aT fT sc kw p :
  noise_curve w kw sc t p -> proper_noise p -> (1 <= n)%nat -> odeint_shape odeint -> odeint_exact odeint ->
  ((1 < np)%nat -> complete_schedule 1 sched) ->
  0 < m1 -> 0 < m2 -> 0 < f -> 0 < d -> 0 < e0 < 1 ->
  (forall k x, (1 <= k)%Z -> 0 < x < 1 -> exists g, power_used jv gi k x g) ->
  beta (Fin m1) (Fin m2) = Fin b -> get_a_from_f_orb (Fin f) (Fin m1) (Fin m2) = Fin a0 -> c_0 (Fin a0) (Fin e0) = Fin c0 ->
  merger_time_used quad m1 m2 f e0 tm tmo ->
  let T := Rmin (tm - year / 10) t in
  0 <= T -> e 0 = e0 -> follows_de_dt b c0 T e ->
  get_a_from_ecc (Fin (e T)) (Fin c0) = Fin aT -> tiny < aT ->
  get_f_orb_from_a (Fin aT) (Fin m1) (Fin m2) = Fin fT -> fT < 100 ->
  exists vs, length vs = hr /\ List.Forall (fun v => 0 <= v) vs /\
    snr_ecc_evolving w jv gi quad odeint sched [Fin m1] [Fin m2] [Fin f] [Fin d] [Fin e0] hr (Fin t) n tmo sc np false true kw = Ok (Snr2 [map Fin vs]) /\
    snr_ecc_evolving w jv gi quad odeint sched [Fin m1] [Fin m2] [Fin f] [Fin d] [Fin e0] hr (Fin t) n tmo sc np false false kw = Ok (Snr [Fin (sqrt (Rsum vs))]).
Proof.
  intros Hp Hpp Hn Hsh HO Hsc H1 H2 Hf Hd He Hg Eb Ea Ec HM T HT E0 HF EaT HaT EfT HfT.
  assert (E := fun r2 => merger_time_replace w jv gi quad odeint sched m1 m2 f d e0 hr (Fin t) n tmo tm sc np false r2 kw HM).
  rewrite !E. eapply ecc_well_defined; eauto.
Qed.

Lemma ecc_late_any w jv gi quad odeint sched np m1 m2 f d e0 hr t n tmo tm sc kw p a0 :
  noise_curve w kw sc t p -> proper_noise p -> (1 <= n)%nat -> odeint_shape odeint -> odeint_exact odeint ->
  ((1 < np)%nat -> complete_schedule 1 sched) ->
  0 < m1 -> 0 < m2 -> 0 < f < 100 -> 0 < d -> 0 < e0 < 1 -> 0 <= t ->
  (forall k x, (1 <= k)%Z -> 0 < x < 1 -> exists g, power_used jv gi k x g) ->
  get_a_from_f_orb (Fin f) (Fin m1) (Fin m2) = Fin a0 -> tiny < a0 ->
  merger_time_used quad m1 m2 f e0 tm tmo -> tm < year / 10 ->
  snr_ecc_evolving w jv gi quad odeint sched [Fin m1] [Fin m2] [Fin f] [Fin d] [Fin e0] hr (Fin t) n tmo sc np false false kw = Ok (Snr [Fin 0]).
Proof. intros. rewrite (merger_time_replace _ _ _ _ _ _ _ _ _ _ _ _ _ _ _ tm) by auto. eapply ecc_late; eauto. Qed.

Lemma circ_late_any w jv gi quad m1 m2 f d t n tm a sc kw p : noise_curve w kw sc t p -> proper_noise p -> (2 <= n)%nat ->
  0 < m1 -> 0 < m2 -> 0 < f < 100 -> 0 < d -> 0 <= t -> (exists g, power_used jv gi 2 0 g /\ 0 < g) ->
  get_a_from_f_orb (Fin f) (Fin m1) (Fin m2) = Fin a -> tiny < a -> (forall x, 0 < x <= 2 * f -> p (Fin x) <> PInf) ->
  get_t_merge_circ_sc None (Some (Fin m1)) (Some (Fin m2)) None (Some (Fin f)) = Ok (Fin tm) -> tm < 1 ->
  snr_circ_evolving w jv gi quad [Fin m1] [Fin m2] [Fin f] [Fin d] (Fin t) n None sc kw = Ok [NaN].
Proof.
  intros Hp Hpp Hn H1 H2 Hf Hd Ht Hg Ea Ha HN HT Htm. rewrite get_a_fin in Ea by (auto; lra). injection Ea as <-. eapply circ_late; eauto.
Qed.

Lemma odeint_model_shape : odeint_shape odeint_model.
Proof.
  intros rhs e ts. unfold odeint_model. destruct (rhs (Fin (1/2))); auto. destruct e; auto. now rewrite map_length.
Qed.

(** Two black holes of 10^31 kg with an orbital frequency of 50 Hz merge within a second. *)
Transparent Ggrav clight yr.
Lemma PI_bounds : 3 < PI <= 4.
Proof. split; [|exact PI_4]. pose proof PI2_3_2. unfold PI2 in *. lra. Qed.
Lemma lt_quot x y z : 0 < z -> x * z < y -> x < y / z.
Proof. intros Hz H. apply (Rmult_lt_reg_r z); auto. unfold Rdiv. rewrite Rmult_assoc, Rinv_l by lra. lra. Qed.
Lemma quot_lt x y z : 0 < z -> x < y * z -> x / z < y.
Proof. intros Hz H. apply (Rmult_lt_reg_r z); auto. unfold Rdiv. rewrite Rmult_assoc, Rinv_l by lra. lra. Qed.
Lemma cube_lt a b : 0 < b -> a ^ 3 < b ^ 3 -> a < b.
Proof. intros Hb H. destruct (Rlt_le_dec a b); auto. exfalso. assert (b ^ 3 <= a ^ 3) by (apply pow_incr; lra). lra. Qed.
Lemma four_lt a b : 0 < b -> a ^ 4 < b ^ 4 -> a < b.
Proof. intros Hb H. destruct (Rlt_le_dec a b); auto. exfalso. assert (b ^ 4 <= a ^ 4) by (apply pow_incr; lra). lra. Qed.
Lemma late_binary : exists a tm, get_a_from_f_orb (Fin 50) (Fin 1e31) (Fin 1e31) = Fin a /\ tiny < a /\
  get_t_merge_circ_sc None (Some (Fin 1e31)) (Some (Fin 1e31)) None (Some (Fin 50)) = Ok (Fin tm) /\ 0 < tm < 1.
Proof.
  assert (H1 : 0 < 1e31) by lra. set (m := 1e31) in *.
  exists (aR 50 m m), (tmR (betaR m m) (aR 50 m m)). pose proof (betaR_pos m m H1 H1) as Hb. pose proof (aR_pos 50 m m) as Ha.
  split; [apply get_a_fin; lra|]. destruct PI_bounds as [P1 P2]. pose proof (aR_cube 50 m m H1 H1 ltac:(lra)) as C.
  assert (K : 1e5 < aR 50 m m < 3e5).
  { split; apply cube_lt; try lra; rewrite C; unfold Ggrav, m.
    - apply lt_quot; [apply pow_lt; lra|].
      assert ((2 * PI * 50) ^ 2 <= 400 ^ 2) by (apply pow_incr; lra). set (D := (2 * PI * 50) ^ 2) in *. lra.
    - apply quot_lt; [apply pow_lt; lra|].
      assert (300 ^ 2 <= (2 * PI * 50) ^ 2) by (apply pow_incr; lra). set (D := (2 * PI * 50) ^ 2) in *. lra. }
  split. { assert (tiny < 1e5) by (unfold tiny, AU; lra). lra. }
  split; [apply merge_circ_sc_f; auto; lra|]. split; [now apply tmR_pos|].
  unfold tmR. apply (Rmult_lt_reg_r (4 * betaR m m)); [lra|]. unfold Rdiv. rewrite Rmult_assoc, Rinv_l by lra.
  assert (aR 50 m m ^ 4 < 3e5 ^ 4). { assert (aR 50 m m * aR 50 m m < 3e5 * 3e5) by nra. set (x := aR 50 m m) in *. replace (x ^ 4) with ((x * x) * (x * x)) by ring. nra. }
  eapply Rlt_trans; [rewrite Rmult_1_r; exact H|]. unfold betaR, Ggrav, clight, m. lra.
Qed.

(** Two stars of 10^30 kg with an orbital frequency of 1 mHz are far from merging. *)
Lemma early_a : 1e8 < aR 1e-3 1e30 1e30 < 2e8.
Proof.
  assert (H1 : 0 < 1e30) by lra. destruct PI_bounds as [P1 P2]. set (m := 1e30) in *. pose proof (aR_pos 1e-3 m m) as Ha. pose proof (aR_cube 1e-3 m m H1 H1 ltac:(lra)) as C.
  assert (B : 6e-3 ^ 2 <= (2 * PI * 1e-3) ^ 2 <= 8e-3 ^ 2) by (split; apply pow_incr; lra). set (D := (2 * PI * 1e-3) ^ 2) in *.
  split; apply cube_lt; try lra; rewrite C; unfold Ggrav, m; [apply lt_quot|apply quot_lt]; lra.
Qed.
Lemma early_beta : 3e18 < betaR 1e30 1e30 < 4e18.
Proof. unfold betaR, Ggrav, clight. lra. Qed.
Lemma early_f a : 1e6 <= a -> fR a 1e30 1e30 < 100.
Proof.
  intros Ha. assert (H1 : 0 < 1e30) by lra. pose proof (fR_anti 1e6 a 1e30 1e30 H1 H1 ltac:(lra) Ha).
  enough (fR 1e6 1e30 1e30 < 100) by lra. unfold fR. destruct PI_bounds as [P1 P2]. apply quot_lt; [lra|].
  assert (Rpower (Ggrav * (1e30 + 1e30) / 1e6 ^ 3) (1/2) < 100).
  { replace 100 with (Rpower (100 ^ 2) (1/2)). - apply Rpower_mono_base; [|lra]. pose proof Ggrav_pos. split; [apply Rdiv_lt_0_compat; [|apply pow_lt]; lra|]. apply quot_lt; [apply pow_lt; lra|]. unfold Ggrav. lra.
    - rewrite <- Rpower_pow by lra. rewrite Rpower_mult. replace (INR 2 * (1 / 2)) with 1 by (cbn; field). apply Rpower_1. lra. }
  lra.
Qed.
Lemma early_circ : exists tm aT fT quad,
  get_t_merge_circ_sc None (Some (Fin 1e30)) (Some (Fin 1e30)) None (Some (Fin 1e-3)) = Ok (Fin tm) /\ 1 < tm /\
  circ_call_freq quad 1e30 1e30 1e-3 100 [Fin (Rmin (tm - 1) (4 * year))] ["a"%string] = Ok (Single (E1 [Fin aT])) /\ tiny < aT /\
  circ_call_freq quad 1e30 1e30 1e-3 100 [Fin (Rmin (tm - 1) (4 * year))] ["f_orb"%string] = Ok (Single (E1 [Fin fT])) /\ fT < 100.
Proof.
  assert (H1 : 0 < 1e30) by lra. pose proof early_a as A. pose proof early_beta as B. pose proof early_f as F.
  set (m := 1e30) in *. set (b := betaR m m) in *. set (a0 := aR 1e-3 m m) in *.
  assert (A4 : 1e32 < a0 ^ 4). { replace (a0 ^ 4) with ((a0 * a0) * (a0 * a0)) by ring. assert (1e16 < a0 * a0) by nra. nra. }
  assert (T0 : 1e12 < tmR b a0) by (unfold tmR; apply lt_quot; lra).
  set (T := Rmin (tmR b a0 - 1) (4 * year)). assert (T1 : T <= tmR b a0 - 1) by apply Rmin_l. assert (T2 : T <= 4 * year) by apply Rmin_r.
  assert (Y : 4 * year < 2e8) by (unfold year; lra).
  assert (AT : 1e6 <= acR a0 b T).
  { pose proof (acR_pow4 a0 b T ltac:(lra) ltac:(lra)) as P. pose proof (acR_pos a0 b T ltac:(lra) ltac:(lra)).
    destruct (Rlt_le_dec (acR a0 b T) 1e6) as [L|L]; auto. exfalso. assert (acR a0 b T ^ 4 <= 1e6 ^ 4) by (apply pow_incr; lra). nra. }
  assert (TI : tiny < 1e6) by (unfold tiny, AU; lra). pose proof tiny_pos as TP.
  exists (tmR b a0), (acR a0 b T), (fR (acR a0 b T) m m), (fun _ _ _ => NaN). split; [apply merge_circ_sc_f; auto; lra|]. split; [lra|]. fold T.
  split; [apply circ_call_freq_a; auto; lra|]. split; [lra|].
  split; [|now apply F]. rewrite circ_call_freq_eq by (auto; lra). fold b a0. rewrite freq_of_a_fin by (auto; lra). reflexivity.
Qed.
Lemma early_ecc : let e0 := 1/10 in let t := year / 2 in let tm := year in let T := Rmin (tm - year / 10) t in
  exists b a0 c0 e aT fT, beta (Fin 1e30) (Fin 1e30) = Fin b /\ get_a_from_f_orb (Fin 1e-3) (Fin 1e30) (Fin 1e30) = Fin a0 /\ c_0 (Fin a0) (Fin e0) = Fin c0 /\
  0 < T /\ e 0 = e0 /\ follows_de_dt b c0 T e /\ get_a_from_ecc (Fin (e T)) (Fin c0) = Fin aT /\ tiny < aT /\
  get_f_orb_from_a (Fin aT) (Fin 1e30) (Fin 1e30) = Fin fT /\ fT < 100.
Proof.
  cbv zeta. assert (H1 : 0 < 1e30) by lra. pose proof early_a as A. pose proof early_beta as B. pose proof early_f as F. pose proof (beta_fin 1e30 1e30) as EB.
  set (m := 1e30) in *. set (b := betaR m m) in *. set (a0 := aR 1e-3 m m) in *. set (c0 := c0R a0 (1/10)).
  assert (A4 : 1e32 < a0 ^ 4). { replace (a0 ^ 4) with ((a0 * a0) * (a0 * a0)) by ring. assert (1e16 < a0 * a0) by nra. nra. }
  assert (T0 : 1e12 < tmR b a0) by (unfold tmR; apply lt_quot; lra).
  destruct (texR_bounds b a0 (1/10) ltac:(lra) ltac:(lra) ltac:(lra)) as [[TB _] _].
  assert (EN : enhancement (1/10) <= 2).
  { unfold enhancement. assert (S : 99/100 <= sqrt (1 - (1/10) ^ 2)). { rewrite <- (sqrt_pow2 (99/100)) by lra. apply sqrt_le_1_alt. lra. }
    assert (S7 : (99/100) ^ 7 <= sqrt (1 - (1/10) ^ 2) ^ 7) by (apply pow_incr; lra). set (q := sqrt (1 - (1/10) ^ 2) ^ 7) in *.
    apply (Rmult_le_reg_r q); [lra|]. unfold Rdiv at 1. rewrite Rmult_assoc, Rinv_l by lra. lra. }
  pose proof (enhancement_pos (1/10) ltac:(lra)) as EP.
  assert (T5 : 5e11 < texR b a0 (1/10)). { eapply Rlt_le_trans; [|exact TB]. apply lt_quot; lra. }
  set (T := Rmin (year - year / 10) (year / 2)). assert (YB : 0 < year < 1e8) by (unfold year; lra).
  assert (T2 : T = year / 2) by (unfold T; rewrite Rmin_right; lra).
  assert (Hc : 0 < c0) by (apply c0R_pos; lra).
  destruct (trajectory_exists b c0 (1/10) T) as [e [E0 HF]]; try lra. { change (T < texR b a0 (1/10)). lra. }
  destruct (HF T ltac:(lra)) as [HeT _]. pose proof (texR_countdown b c0 T e T ltac:(lra) Hc HF ltac:(lra)) as CD. rewrite E0 in CD.
  change (12 / 19 * c0 ^ 4 / b * I514 (1 / 10)) with (texR b a0 (1/10)) in CD.
  pose proof (I514_upper (e T) ltac:(lra)) as U. rewrite P4_aeR in U by auto.
  set (aT := aeR (e T) c0). assert (PT : 0 < aT) by (now apply aeR_pos).
  assert (E4 : aT ^ 4 = c0 ^ 4 * aeR (e T) 1 ^ 4) by (unfold aT; rewrite aeR_scale; ring).
  assert (C4 : 0 < c0 ^ 4) by (now apply pow_lt).
  assert (L4 : 4 * b * (texR b a0 (1/10) - T) <= aT ^ 4).
  { rewrite <- CD, E4. replace (4 * b * (12 / 19 * c0 ^ 4 / b * I514 (e T))) with (c0 ^ 4 * (48/19 * I514 (e T))) by (field; lra).
    apply Rmult_le_compat_l; lra. }
  assert (LB : 1e6 <= aT). { destruct (Rlt_le_dec aT 1e6) as [L|L]; auto. exfalso. assert (aT ^ 4 <= 1e6 ^ 4) by (apply pow_incr; lra). nra. }
  assert (TI : tiny < 1e6) by (unfold tiny, AU; lra).
  exists b, a0, c0, e, aT, (fR aT m m). split; [exact EB|]. split; [apply get_a_fin; auto; lra|]. split; [apply c_0_fin; lra|].
  split; [lra|]. split; [exact E0|]. split; [exact HF|]. split; [now apply get_a_from_ecc_fin|]. split; [lra|]. split; [now apply get_f_fin|]. now apply F.
Qed.
Opaque Ggrav clight yr.

Lemma integral_example : exists quad m1 m2 f tm t fs, evol_circ quad (TArr [nmin (nsub tm (Fin 1)) (Fin t)]) 2 SNone PNone (PQArr [m1] tt) (PQArr [m2] tt) PNone (PQArr [f] tt) ["f_orb"%string]
    = Ok (Single (E2 [map Fin fs])) /\ (forall x, In x fs -> 0 < x /\ x <> 100) /\ sorted fs /\ fs <> [].
Proof.
  destruct early_circ as [tm [aT [fT [quad [E1 [L1 [E2 [L2 [E3 L3]]]]]]]]]. pose proof tiny_pos as TP.
  assert (H1 : 0 < 1e30) by lra. assert (Hf : 0 < 1e-3) by lra.
  rewrite circ_call_freq_a in E2 by auto. injection E2 as E2. rewrite circ_call_freq_eq in E3 by auto. rewrite E2 in E3. rewrite freq_of_a_fin in E3 by (auto; lra). injection E3 as E3.
  rewrite merge_circ_sc_f in E1 by auto. injection E1 as E1.
  set (T := Rmin (tm - 1) (4 * year)) in *. assert (0 <= T) by (apply Rmin_glb; unfold year; lra). assert (T <= tm - 1) by apply Rmin_l.
  exists quad, (Fin 1e30), (Fin 1e30), (Fin 1e-3), (Fin tm), (4 * year), [1e-3; fT].
  pose proof (evol_circ_rows quad (fun _ : unit => Fin 1e30) (fun _ => Fin 1e30) (fun _ => Fin 1e-3) (fun _ => nmin (nsub (Fin tm) (Fin 1)) (Fin (4 * year))) [tt] 2) as E. cbn [map] in E.
  rewrite nsub_fin, nmin_fin in *. fold T in E |- *.
  pose proof (betaR_pos 1e30 1e30 H1 H1) as Hb. pose proof (aR_pos 1e-3 1e30 1e30) as Ha.
  assert (LT : linR T 2 = [0; T]). { cbn. f_equal; [field|]. f_equal. field. }
  assert (A0 : acR (aR 1e-3 1e30 1e30) (betaR 1e30 1e30) 0 = aR 1e-3 1e30 1e30) by (now apply acR_0).
  assert (AA : aT <= aR 1e-3 1e30 1e30). { pose proof (acR_anti (aR 1e-3 1e30 1e30) (betaR 1e30 1e30) 0 T Hb ltac:(lra) ltac:(lra)). lra. }
  assert (FA : 1e-3 <= fT). { rewrite <- (fR_aR 1e-3 1e30 1e30) by auto. rewrite <- E3. apply fR_anti; auto; lra. }
  split; [|split; [|split; [|discriminate]]].
  - rewrite E. do 4 f_equal. rewrite circ_freqs_real; auto.
    + rewrite LT. cbn [map]. rewrite A0, fR_aR, E2, E3 by auto. reflexivity.
    + rewrite LT. intros s [<-|[<-|[]]]; [rewrite A0|rewrite E2]; lra.
  - intros x [<-|[<-|[]]]; lra.
  - intros i j Hij Hj. cbn [length] in Hj. destruct i as [|[|i]], j as [|[|j]]; try lia; cbn [nth]; lra.
Qed.
Lemma late_ecc : exists a tm quad, get_a_from_f_orb (Fin 50) (Fin 1e31) (Fin 1e31) = Fin a /\ tiny < a /\
  0 < tm /\ tm < year / 10 /\ merger_time_used quad 1e31 1e31 50 (1/10) tm None.
Proof.
  destruct late_binary as [a [tc [Ea [La [Et Lt]]]]]. assert (H1 : 0 < 1e31) by lra. exists a.
  rewrite get_a_fin in Ea by lra. injection Ea as Ea. rewrite merge_circ_sc_f in Et by lra. injection Et as Et. rewrite Ea in Et.
  pose proof tiny_pos as TP. pose proof (betaR_pos 1e31 1e31 H1 H1) as Hb.
  destruct (merge_ecc_default quad_model 1e31 1e31 a (1/10) quad_model_exact H1 H1 ltac:(lra) ltac:(lra)) as [tm [E [B _]]].
  exists tm, quad_model. split; [rewrite get_a_fin by lra; now rewrite Ea|]. split; auto. split; [lra|]. split; [unfold year; lra|].
  constructor.
  pose proof (get_t_merge_ecc_map quad_model (fun _ : unit => Fin 1e31) (fun _ => Fin 1e31) (fun _ => Fin 50) (fun _ => Fin (1/10)) [tt]) as M. cbn [map] in M.
  rewrite M by (intros; exists (1/10); split; [reflexivity|lra]).
  unfold ecc_tm. rewrite get_a_fin by lra. rewrite Ea.
  unfold get_t_merge_ecc_sc, check_sc, check_mass_freq_input in E. cbn [rbind fst snd] in E. injection E as E. now rewrite E.
Qed.
