(** SnrThms3.v -- the evolving SNR: integral, well-definedness and its failures close to merger. *)
From Coq Require Import String Reals ZArith List Bool Lra Lia.
From Verif Require Import Num NumFacts Np NpFacts Utils Spec UtilsFacts Strain DetectorFacts Evol EvolSpec EvolFacts MergeFacts OdeFacts ArrEvolFacts CircFacts EccEvolFacts LocalFacts
  EvolThms OdeintFacts StrainSpec StrainFacts Psd PsdSpec PsdFacts PsdThms ArgFacts ScaleFacts Snr SnrSpec SnrFacts SnrThms SnrThms2.
Import ListNotations.
Open Scope R_scope.

Lemma default_merger_circ w jv gi quad m1 m2 f d t n tm sc kw :
  get_t_merge_circ None (Some m1) (Some m2) None (Some f) = Ok tm ->
  snr_circ_evolving w jv gi quad m1 m2 f d t n None sc kw = snr_circ_evolving w jv gi quad m1 m2 f d t n (Some tm) sc kw.
Proof. intros H. unfold snr_circ_evolving. now rewrite H. Qed.
Lemma default_merger_ecc w jv gi quad odeint sched m1 m2 f d e hr t n tm sc np rm r2 kw :
  get_t_merge_ecc quad e None (Some f) None (Some m1) (Some m2) small_e_tol_default large_e_tol_default true = Ok tm ->
  snr_ecc_evolving w jv gi quad odeint sched m1 m2 f d e hr t n None sc np rm r2 kw =
  snr_ecc_evolving w jv gi quad odeint sched m1 m2 f d e hr t n (Some tm) sc np rm r2 kw.
Proof. intros H. unfold snr_ecc_evolving. now rewrite H. Qed.

(** One source. *)
Lemma circ_one w jv gi quad m1 m2 f d t n tm sc kw p : noise_curve w kw sc t p -> (1 <= n)%nat ->
  snr_circ_evolving w jv gi quad [m1] [m2] [f] [d] (Fin t) n (Some [tm]) sc kw =
  Ok [nsqrt (ev_snr2 jv gi p (chirp_mass m1 m2) d (circ_track m1 m2 f tm (Fin t) n) 2)].
Proof.
  intros Hp Hn.
  exact (circ_evolving_map w jv gi quad (fun _ : unit => m1) (fun _ => m2) (fun _ => f) (fun _ => d) [tt] t n (Some (fun _ => tm)) sc kw p Hp Hn).
Qed.
Lemma ecc_one w jv gi quad odeint sched np m1 m2 f d e hr t n tm sc rm r2 kw p : noise_curve w kw sc t p -> (1 <= n)%nat ->
  odeint_shape odeint -> ((1 < np)%nat -> complete_schedule 1 sched) -> 0 <= e <= 1 ->
  snr_ecc_evolving w jv gi quad odeint sched [m1] [m2] [f] [d] [Fin e] hr (Fin t) n (Some [tm]) sc np rm r2 kw =
  returned rm r2 [map (ev_snr2 jv gi p (chirp_mass m1 m2) d (ecc_track odeint m1 m2 f (Fin e) tm (Fin t) n)) (arange1 hr)].
Proof.
  intros Hp Hn Hod Hs He.
  exact (ecc_evolving_map w jv gi quad odeint sched np (fun _ : unit => m1) (fun _ => m2) (fun _ => f) (fun _ => d) (fun _ => Fin e) [tt] hr t n (Some (fun _ => tm)) sc rm r2 kw p Hp Hn Hod Hs ltac:(intros; eauto)).
Qed.
Lemma circ_integral w jv gi quad m1 m2 f d t n tm mc fs sc kw p : noise_curve w kw sc t p -> proper_noise p -> (1 <= n)%nat ->
  0 < mc -> 0 < d -> chirp_mass m1 m2 = Fin mc ->
  evol_circ quad (TArr [nmin (nsub tm (Fin 1)) (Fin t)]) n SNone PNone (PQArr [m1] tt) (PQArr [m2] tt) PNone (PQArr [f] tt) ["f_orb"%string]
    = Ok (Single (E2 [map Fin fs])) ->
  (forall x, In x fs -> 0 < x /\ x <> 100) -> sorted fs -> (exists g, power_used jv gi 2 0 g) ->
  exists ys, Forall2 (integrand jv gi p mc d 2) (map (fun x => (x, 0)) fs) ys /\
    snr_circ_evolving w jv gi quad [m1] [m2] [f] [Fin d] (Fin t) n (Some [tm]) sc kw
    = Ok [Fin (sqrt (trapezium (combine (map (Rmult 2) fs) ys)))].
Proof.
  intros Hp Hpp Hn Hmc Hd Em Ev Hfs HS [g Hg].
  pose proof (evol_circ_rows quad (fun _ : unit => m1) (fun _ => m2) (fun _ => f) (fun _ => nmin (nsub tm (Fin 1)) (Fin t)) [tt] n) as E.
  cbn [map] in E. rewrite Ev in E. injection E as E. rewrite circ_one with (p := p) by auto. rewrite Em. unfold circ_track. rewrite <- E.
  rewrite unmerged_id by (intros x Hx; now apply Hfs). rewrite map_map.
  destruct (track_integral jv gi p mc d 2 (map (fun x => (x, 0)) fs)) as [ys [Y1 [Y2 Y3]]]; auto; try lia.
  - intros q Hq. apply in_map_iff in Hq. destruct Hq as [x [<- Hx]]. cbn. destruct (Hfs x Hx). repeat split; eauto; lra.
  - rewrite map_map. cbn. now rewrite map_id.
  - exists ys. split; auto. rewrite map_map in Y2, Y3. rewrite map_map in Y3. cbn [fst snd] in *. rewrite Y3. rewrite nsqrt_fin by auto. reflexivity.
Qed.
Lemma ecc_integral w jv gi quad odeint sched np m1 m2 f d e hr t n tm mc es fs ts sc kw p : noise_curve w kw sc t p -> proper_noise p -> (1 <= n)%nat ->
  odeint_shape odeint -> ((1 < np)%nat -> complete_schedule 1 sched) -> 0 <= e <= 1 ->
  0 < mc -> 0 < d -> chirp_mass m1 m2 = Fin mc ->
  evol_ecc quad odeint sched (PArr [Fin e]) (TArr [nmin (nsub tm (Fin (year / 10))) (Fin t)]) n SNone PNone (PQArr [m1] tt) (PQArr [m2] tt) PNone (PQArr [f] tt)
    ["ecc"%string; "f_orb"%string] np true true (Fin (year / 10)) (Some [tm]) = Ok (Many [E2 [map Fin es]; E2 [map Fin fs]], ts) ->
  (forall x, In x fs -> 0 < x /\ x <> 100) -> (forall x, In x es -> 0 <= x < 1 /\ forall k, (1 <= k)%Z -> exists g, power_used jv gi k x g) -> sorted fs ->
  exists v : Z -> R,
    (forall k, (1 <= k <= Z.of_nat hr)%Z -> exists ys, Forall2 (integrand jv gi p mc d k) (combine fs es) ys /\
       v k = trapezium (combine (map (Rmult (IZR k)) fs) ys) /\ 0 <= v k) /\
    snr_ecc_evolving w jv gi quad odeint sched [m1] [m2] [f] [Fin d] [Fin e] hr (Fin t) n (Some [tm]) sc np false true kw
    = Ok (Snr2 [map (fun k => Fin (v k)) (map Z.of_nat (seq 1 hr))]).
Proof.
  intros Hp Hpp Hn Hod Hs He Hmc Hd Em Ev Hfs Hes HS.
  rewrite year_yr in Ev. fold t_before_ecc in Ev.
  destruct (evol_ecc_rows quad odeint sched np (fun _ : unit => m1) (fun _ => m2) (fun _ => f) (fun _ => Fin e) (fun _ => tm) [tt] (Fin t) n Hn Hs) as [ts' E].
  cbn [map] in E. rewrite Ev in E. injection E as E1 E2 _. rewrite ecc_one with (p := p) by auto. rewrite Em. unfold ecc_track. rewrite <- E1, <- E2.
  assert (L : length fs = length es).
  { apply (f_equal (@length num)) in E1, E2. rewrite ecc_fs_length, <- E1, !map_length in E2. auto. }
  rewrite unmerged_ecc_id by (intros x Hx; now apply Hfs). rewrite combine_map2.
  assert (T : forall k, (1 <= k)%Z -> forall q, In q (combine fs es) -> 0 < fst q /\ 0 <= snd q < 1 /\ exists g, power_used jv gi k (snd q) g).
  { intros k Hk [x y] Hq. pose proof (in_combine_l _ _ _ _ Hq) as I1. pose proof (in_combine_r _ _ _ _ Hq) as I2. cbn.
    destruct (Hfs x I1). destruct (Hes y I2) as [A B]. repeat split; auto; lra. }
  assert (F : map fst (combine fs es) = fs) by (now apply combine_fst).
  exists (fun k => match ev_snr2 jv gi p (Fin mc) (Fin d) (map (fun q => (Fin (fst q), Fin (snd q))) (combine fs es)) k with Fin r => r | _ => 0 end).
  assert (V : forall k, (1 <= k)%Z -> exists ys, Forall2 (integrand jv gi p mc d k) (combine fs es) ys /\ 0 <= trapezium (combine (map (Rmult (IZR k)) fs) ys) /\
     ev_snr2 jv gi p (Fin mc) (Fin d) (map (fun q => (Fin (fst q), Fin (snd q))) (combine fs es)) k = Fin (trapezium (combine (map (Rmult (IZR k)) fs) ys))).
  { intros k Hk. destruct (track_integral jv gi p mc d k (combine fs es)) as [ys [Y1 [Y2 Y3]]]; auto. { now rewrite F. }
    exists ys. rewrite <- (map_map fst (Rmult (IZR k))), F in Y2, Y3. auto. }
  split.
  - intros k Hk. destruct (V k ltac:(lia)) as [ys [Y1 [Y2 Y3]]]. exists ys. rewrite Y3. auto.
  - unfold returned. do 2 f_equal. f_equal. fold (arange1 hr). apply map_ext_in. intros k Hk. apply arange1_in in Hk. destruct (V k ltac:(lia)) as [ys [Y1 [Y2 ->]]]. auto.
Qed.

(** *** C45, circular *)
Definition linR (T : R) (n : nat) : list R :=
  match n with O => [] | S O => [0] | _ => map (fun k => INR k / INR (n - 1) * T) (seq 0 n) end.
Lemma linR_length T n : length (linR T n) = n.
Proof. destruct n as [|[|n]]; auto. unfold linR. now rewrite map_length, seq_length. Qed.
Lemma linR_nth T n i : (2 <= n)%nat -> (i < n)%nat -> nth i (linR T n) 0 = INR i / INR (n - 1) * T.
Proof.
  intros Hn Hi. destruct n as [|[|n]]; try lia. unfold linR. rewrite (nth_map_in _ _ _ 0%nat) by (now rewrite seq_length). now rewrite seq_nth.
Qed.
Lemma linspace0_R T n : linspace0 (Fin T) n = map Fin (linR T n).
Proof.
  destruct n as [|[|n]]; auto. apply nth_error_ext. intros i. destruct (Nat.lt_ge_cases i (S (S n))) as [L|L].
  - rewrite linspace0_nth by lia. rewrite nth_error_map. rewrite (nth_error_nth' _ 0) by (now rewrite linR_length). rewrite linR_nth by lia. reflexivity.
  - rewrite !(proj2 (nth_error_None _ _)); auto; rewrite ?map_length, ?linR_length, ?linspace0_length; auto.
Qed.
Lemma linR_in T n t : In t (linR T n) -> exists k, 0 <= k <= 1 /\ t = k * T.
Proof.
  intros H. destruct n as [|[|n]]; [destruct H|destruct H as [<-|[]]; exists 0; split; lra|].
  destruct (In_nth _ _ 0 H) as [i [Hi E]]. rewrite linR_length in Hi. rewrite linR_nth in E by lia.
  exists (INR i / INR (S (S n) - 1)). assert (P : 0 < INR (S (S n) - 1)) by (apply INR_pred_pos; lia).
  split; [|auto]. pose proof (pos_INR i). assert (INR i <= INR (S (S n) - 1)) by (apply le_INR; lia).
  split; [apply Rmult_le_pos; auto; left; now apply Rinv_0_lt_compat|].
  apply (Rmult_le_reg_r (INR (S (S n) - 1))); auto. unfold Rdiv. rewrite Rmult_assoc, Rinv_l by lra. lra.
Qed.
Lemma linR_sorted T n : 0 <= T -> sorted (linR T n).
Proof.
  intros HT i j Hij Hj. rewrite linR_length in Hj. destruct n as [|[|n]]; [lia| |].
  - assert (i = 0 /\ j = 0)%nat as [-> ->] by lia. lra.
  - rewrite !linR_nth by lia. assert (P : 0 < INR (S (S n) - 1)) by (apply INR_pred_pos; lia).
    apply Rmult_le_compat_r; auto. apply Rmult_le_compat_r; [left; now apply Rinv_0_lt_compat|]. now apply le_INR.
Qed.
Definition strictly (l : list R) : Prop := forall i j, (i < j)%nat -> (j < length l)%nat -> nth i l 0 < nth j l 0.
Lemma linR_strict T n i j : (i < j)%nat -> (j < n)%nat -> exists k, 0 < k /\ nth j (linR T n) 0 = nth i (linR T n) 0 + k * T.
Proof.
  intros Hij Hj. assert (P : 0 < INR (n - 1)) by (apply INR_pred_pos; lia).
  rewrite !linR_nth by lia. exists ((INR j - INR i) / INR (n - 1)). split; [|field; lra].
  apply Rdiv_lt_0_compat; auto. apply lt_INR in Hij. lra.
Qed.
Lemma strictly_sorted l : strictly l -> sorted l.
Proof. intros H i j Hij Hj. destruct (Nat.eq_dec i j) as [-> |]; [lra|]. left. apply H; lia. Qed.
Lemma trapezium_pos (pts : list (R * R)) : strictly (map fst pts) -> (2 <= length pts)%nat -> (forall q, In q pts -> 0 <= snd q) ->
  (exists q, nth_error pts 0 = Some q /\ 0 < snd q) -> 0 < trapezium pts.
Proof.
  intros S L H [[x y] [H0 P]]. destruct pts as [|[x0 y0] [|[x1 y1] pts]]; cbn in L; try lia.
  cbn in H0. inversion H0; subst. cbn in P.
  change (trapezium ((x, y) :: (x1, y1) :: pts)) with ((x1 - x) * (y + y1) / 2 + trapezium ((x1, y1) :: pts)).
  assert (x < x1) by (apply (S 0%nat 1%nat); cbn; lia). assert (0 <= y1) by (apply (H (x1, y1)); cbn; auto).
  assert (0 <= trapezium ((x1, y1) :: pts)).
  { apply trapezium_nonneg. - intros i j L1 L2. apply strictly_sorted in S. apply (S (Datatypes.S i) (Datatypes.S j)); cbn in *; lia. - intros q Hq. apply H. now right. }
  assert (0 < (x1 - x) * (y + y1)) by (apply Rmult_lt_0_compat; lra). lra.
Qed.
Lemma trapezium_opp (pts : list (R * R)) : trapezium (map (fun q => (- fst q, snd q)) pts) = - trapezium pts.
Proof.
  induction pts as [|[x0 y0] [|[x1 y1] pts] IH]; [cbn; lra|cbn; lra|].
  change (trapezium ((x0, y0) :: (x1, y1) :: pts)) with ((x1 - x0) * (y0 + y1) / 2 + trapezium ((x1, y1) :: pts)).
  change (trapezium (map (fun q => (- fst q, snd q)) ((x0, y0) :: (x1, y1) :: pts)))
    with ((- x1 - - x0) * (y0 + y1) / 2 + trapezium (map (fun q => (- fst q, snd q)) ((x1, y1) :: pts))). rewrite IH. field.
Qed.

Lemma circ_freqs_real m1 m2 f T n : 0 < m1 -> 0 < m2 -> 0 < f ->
  (forall s, In s (linR T n) -> 0 < acR (aR f m1 m2) (betaR m1 m2) s /\ acR (aR f m1 m2) (betaR m1 m2) s <> tiny) ->
  circ_freqs (Fin m1) (Fin m2) (Fin f) (Fin T) n = map Fin (map (fun s => fR (acR (aR f m1 m2) (betaR m1 m2) s) m1 m2) (linR T n)).
Proof.
  intros H1 H2 Hf H. unfold circ_freqs. rewrite linspace0_R, !map_map. apply map_ext_in. intros s Hs.
  rewrite get_a_fin, beta_fin, circ_a_fin by auto. destruct (H s Hs). now apply freq_of_a_fin.
Qed.
Lemma acR_anti a0 b s t : 0 < b -> s <= t -> t < tmR b a0 -> acR a0 b t <= acR a0 b s.
Proof. intros Hb [L| ->] Ht; [|lra]. left. apply acR_decr; auto. lra. Qed.
Lemma nmin_fin a b : nmin (Fin a) (Fin b) = Fin (Rmin a b).
Proof.
  unfold nmin. destruct (Rle_lt_dec a b) as [L|L].
  - rewrite nle_t by auto. now rewrite Rmin_left.
  - rewrite nle_f by auto. rewrite Rmin_right by lra. auto.
Qed.
Lemma fR_strict a a' m1 m2 : 0 < m1 -> 0 < m2 -> 0 < a -> a < a' -> fR a' m1 m2 < fR a m1 m2.
Proof. intros H1 H2 Ha H. apply (kepler_mono_a m1 m2 a a'); auto using fR_pos; apply fR_kepler; lra. Qed.
Lemma chirp_one m1 m2 : 0 < m1 -> 0 < m2 -> chirp_mass (Fin m1) (Fin m2) = Fin (chirpR m1 m2) /\ 0 < chirpR m1 m2.
Proof. intros. split; [now apply chirp_mass_fin|apply chirpR_pos]. Qed.

Lemma circ_well_defined w jv gi quad m1 m2 f d t n tm aT fT sc kw p : noise_curve w kw sc t p -> proper_noise p -> (1 <= n)%nat ->
  0 < m1 -> 0 < m2 -> 0 < f -> 0 < d -> 0 <= t -> (exists g, power_used jv gi 2 0 g) ->
  get_t_merge_circ_sc None (Some (Fin m1)) (Some (Fin m2)) None (Some (Fin f)) = Ok (Fin tm) -> 1 <= tm ->
  circ_call_freq quad m1 m2 f n [Fin (Rmin (tm - 1) t)] ["a"%string] = Ok (Single (E1 [Fin aT])) -> tiny < aT ->
  circ_call_freq quad m1 m2 f n [Fin (Rmin (tm - 1) t)] ["f_orb"%string] = Ok (Single (E1 [Fin fT])) -> fT < 100 ->
  exists s, snr_circ_evolving w jv gi quad [Fin m1] [Fin m2] [Fin f] [Fin d] (Fin t) n None sc kw = Ok [Fin s] /\ 0 <= s /\
    ((2 <= n)%nat -> 0 < t -> 1 < tm -> (forall g, power_used jv gi 2 0 g -> 0 < g) -> p (Fin (2 * f)) <> PInf -> 0 < s).
Proof.
  intros Hp Hpp Hn H1 H2 Hf Hd Ht [g Hg] HT Htm HA Ha HF HfT.
  rewrite merge_circ_sc_f in HT by auto. injection HT as HT. set (T := Rmin (tm - 1) t) in *.
  assert (T0 : 0 <= T) by (apply Rmin_glb; lra). assert (TL : T <= tm - 1) by apply Rmin_l.
  set (a0 := aR f m1 m2) in *. set (b := betaR m1 m2) in *. assert (Hb : 0 < b) by (now apply betaR_pos).
  rewrite circ_call_freq_a in HA by auto. injection HA as HA. fold a0 b in HA.
  rewrite circ_call_freq_eq in HF by auto. fold a0 b in HF. rewrite HA in HF. pose proof tiny_pos as TP. rewrite freq_of_a_fin in HF by (auto; lra). injection HF as HF.
  assert (IN : forall s, In s (linR T n) -> 0 <= s <= T).
  { intros s Hs. apply linR_in in Hs. destruct Hs as [k [Hk ->]]. split; nra. }
  assert (AC : forall s, 0 <= s <= T -> aT <= acR a0 b s).
  { intros s Hs. rewrite <- HA. apply acR_anti; auto; lra. }
  set (fs := map (fun s => fR (acR a0 b s) m1 m2) (linR T n)).
  assert (EF : circ_freqs (Fin m1) (Fin m2) (Fin f) (Fin T) n = map Fin fs).
  { unfold fs, a0, b. apply circ_freqs_real; auto. fold a0 b. intros s Hs. specialize (AC s (IN s Hs)). lra. }
  destruct (chirp_one m1 m2 H1 H2) as [EC PC].
  assert (FL : forall x, In x fs -> 0 < x < 100).
  { intros x Hx. apply in_map_iff in Hx. destruct Hx as [s [<- Hs]]. split; [apply fR_pos|]. specialize (AC s (IN s Hs)).
    pose proof (fR_anti aT (acR a0 b s) m1 m2 H1 H2 ltac:(lra) AC). lra. }
  assert (ST : forall i j, (i < j)%nat -> (j < n)%nat -> 0 < T -> nth i fs 0 < nth j fs 0).
  { intros i j Hij Hj HTp. unfold fs. rewrite !(nth_map_in _ _ _ 0) by (rewrite linR_length; lia).
    destruct (linR_strict T n i j Hij Hj) as [k [Hk E]].
    assert (I1 : 0 <= nth i (linR T n) 0 <= T) by (apply IN, nth_In; rewrite linR_length; lia).
    assert (I2 : 0 <= nth j (linR T n) 0 <= T) by (apply IN, nth_In; rewrite linR_length; lia).
    apply fR_strict; auto; [apply acR_pos; auto; lra|]. apply acR_decr; auto; try lra. rewrite E. nra. }
  assert (SO : sorted fs).
  { intros i j Hij Hj. unfold fs in Hj. rewrite map_length, linR_length in Hj. destruct T0 as [T0|T0].
    - destruct (Nat.eq_dec i j) as [-> |]; [lra|]. left. apply ST; auto; lia.
    - unfold fs. rewrite !(nth_map_in _ _ _ 0) by (rewrite linR_length; lia). 
      assert (Z : forall k, (k < n)%nat -> nth k (linR T n) 0 = 0).
      { intros k Hk. assert (0 <= nth k (linR T n) 0 <= T) by (apply IN, nth_In; rewrite linR_length; lia). lra. }
      rewrite !Z by lia. lra. }
  rewrite (default_merger_circ _ _ _ _ _ _ _ _ _ _ [Fin tm]).
  2:{ pose proof (get_t_merge_circ_map (fun _ : unit => Fin m1) (fun _ => Fin m2) (fun _ => Fin f) [tt]) as E. cbn [map] in E. rewrite E.
      rewrite get_a_fin, beta_fin, t_merge_circ_fin by auto. now rewrite <- HT. }
  rewrite circ_one with (p := p) by auto. rewrite EC. unfold circ_track. rewrite nsub_fin, nmin_fin. fold T. rewrite EF.
  rewrite unmerged_id by (intros x Hx; specialize (FL x Hx); lra). rewrite map_map.
  assert (TR : forall q, In q (map (fun x => (x, 0)) fs) -> 0 < fst q /\ 0 <= snd q < 1 /\ exists g, power_used jv gi 2 (snd q) g).
  { intros q Hq. apply in_map_iff in Hq. destruct Hq as [x [<- Hx]]. cbn. destruct (FL x Hx). repeat split; eauto; lra. }
  pose proof (ev_snr2_fin jv gi p (chirpR m1 m2) d 2 (map (fun x => (x, 0)) fs) PC Hd ltac:(lia) Hpp TR) as E. rewrite !map_map in E. cbn [fst snd] in E.
  set (P := map (fun x => (2 * x, evR jv gi p (chirpR m1 m2) d 2 (x, 0))) fs) in *.
  assert (NN : forall q, In q P -> 0 <= snd q).
  { intros q Hq. apply in_map_iff in Hq. destruct Hq as [x [<- Hx]]. cbn [snd]. destruct (FL x Hx).
    destruct (ev_elem_fin jv gi p (chirpR m1 m2) d 2 x 0 g) as [_ [[N _] _]]; auto; try lra; lia. }
  assert (MF : map fst P = map (Rmult 2) fs) by (unfold P; rewrite map_map; reflexivity).
  assert (0 <= trapezium P) as TN. { apply trapezium_nonneg; auto. rewrite MF. apply trapezium_scale_sorted; auto; lra. }
  rewrite E. rewrite nsqrt_fin by auto. eexists. split; [reflexivity|]. split; [apply sqrt_pos|].
  intros Hn2 Ht0 Htm1 Hgp Hnoise. apply sqrt_lt_R0. assert (TT : 0 < T) by (apply Rmin_glb_lt; lra).
  apply trapezium_pos; auto.
  - rewrite MF. intros i j Hij Hj. rewrite map_length in Hj. rewrite !(nth_map_in _ _ _ 0) by lia.
    assert (length fs = n) by (unfold fs; now rewrite map_length, linR_length). specialize (ST i j Hij ltac:(lia) TT). lra.
  - unfold P, fs. rewrite !map_length, linR_length. auto.
  - assert (nth_error fs 0 = Some f) as E0.
    { unfold fs. rewrite nth_error_map. rewrite (nth_error_nth' _ 0) by (rewrite linR_length; lia). rewrite linR_nth by lia. cbn [option_map].
      f_equal. replace (INR 0 / INR (n - 1) * T) with 0 by (cbn; unfold Rdiv; ring). rewrite acR_0; auto; [|apply aR_pos]. now apply fR_aR. }
    unfold P. rewrite nth_error_map, E0. cbn [option_map]. eexists. split; [reflexivity|]. cbn [snd].
    apply (ev_elem_fin jv gi p (chirpR m1 m2) d 2 f 0 g); auto; try lra; lia.
Qed.

(** Less than a second from merging: the track runs backwards in time and the "SNR" is not a number. *)
Lemma circ_late w jv gi quad m1 m2 f d t n tm sc kw p : noise_curve w kw sc t p -> proper_noise p -> (2 <= n)%nat ->
  0 < m1 -> 0 < m2 -> 0 < f < 100 -> 0 < d -> 0 <= t -> (exists g, power_used jv gi 2 0 g /\ 0 < g) ->
  get_t_merge_circ_sc None (Some (Fin m1)) (Some (Fin m2)) None (Some (Fin f)) = Ok (Fin tm) -> tm < 1 ->
  tiny < aR f m1 m2 -> (forall x, 0 < x <= 2 * f -> p (Fin x) <> PInf) ->
  snr_circ_evolving w jv gi quad [Fin m1] [Fin m2] [Fin f] [Fin d] (Fin t) n None sc kw = Ok [NaN].
Proof.
  intros Hp Hpp Hn H1 H2 Hf Hd Ht [g [Hg Hg0]] HT Htm Ha HN.
  rewrite merge_circ_sc_f in HT by (auto; lra). injection HT as HT. set (T := tm - 1) in *.
  assert (T0 : T < 0) by (unfold T; lra).
  set (a0 := aR f m1 m2) in *. set (b := betaR m1 m2) in *. assert (Hb : 0 < b) by (now apply betaR_pos). pose proof tiny_pos as TP.
  assert (TM : 0 < tm) by (rewrite <- HT; apply tmR_pos; auto; apply aR_pos).
  assert (IN : forall s, In s (linR T n) -> T <= s <= 0).
  { intros s Hs. apply linR_in in Hs. destruct Hs as [k [Hk ->]]. split; nra. }
  assert (AC : forall s, T <= s <= 0 -> a0 <= acR a0 b s).
  { intros s Hs. rewrite <- (acR_0 a0 b) at 1 by (auto; apply aR_pos). apply acR_anti; auto; lra. }
  set (fs := map (fun s => fR (acR a0 b s) m1 m2) (linR T n)).
  assert (EF : circ_freqs (Fin m1) (Fin m2) (Fin f) (Fin T) n = map Fin fs).
  { unfold fs, a0, b. apply circ_freqs_real; auto; [lra|]. fold a0 b. intros s Hs. specialize (AC s (IN s Hs)). lra. }
  destruct (chirp_one m1 m2 H1 H2) as [EC PC].
  assert (FL : forall x, In x fs -> 0 < x <= f).
  { intros x Hx. apply in_map_iff in Hx. destruct Hx as [s [<- Hs]]. split; [apply fR_pos|]. specialize (AC s (IN s Hs)).
    pose proof (fR_anti a0 (acR a0 b s) m1 m2 H1 H2 ltac:(lra) AC). unfold a0 at 2 in H. rewrite fR_aR in H by lra. lra. }
  assert (LE : length fs = n) by (unfold fs; now rewrite map_length, linR_length).
  assert (ST : forall i j, (i < j)%nat -> (j < n)%nat -> nth j fs 0 < nth i fs 0).
  { intros i j Hij Hj. unfold fs. rewrite !(nth_map_in _ _ _ 0) by (rewrite linR_length; lia).
    destruct (linR_strict T n i j Hij Hj) as [k [Hk E]].
    assert (I1 : T <= nth i (linR T n) 0 <= 0) by (apply IN, nth_In; rewrite linR_length; lia).
    assert (I2 : T <= nth j (linR T n) 0 <= 0) by (apply IN, nth_In; rewrite linR_length; lia).
    apply fR_strict; auto; [apply acR_pos; auto; lra|]. apply acR_decr; auto; try lra. rewrite E. nra. }
  rewrite (default_merger_circ _ _ _ _ _ _ _ _ _ _ [Fin tm]).
  2:{ pose proof (get_t_merge_circ_map (fun _ : unit => Fin m1) (fun _ => Fin m2) (fun _ => Fin f) [tt]) as E. cbn [map] in E. rewrite E.
      rewrite get_a_fin, beta_fin, t_merge_circ_fin by (auto; lra). now rewrite <- HT. }
  rewrite circ_one with (p := p) by (auto; lia). rewrite EC. unfold circ_track. rewrite nsub_fin, nmin_fin. fold T. rewrite Rmin_left by lra. rewrite EF.
  rewrite unmerged_id by (intros x Hx; specialize (FL x Hx); lra). rewrite map_map.
  assert (TR : forall q, In q (map (fun x => (x, 0)) fs) -> 0 < fst q /\ 0 <= snd q < 1 /\ exists g, power_used jv gi 2 (snd q) g).
  { intros q Hq. apply in_map_iff in Hq. destruct Hq as [x [<- Hx]]. cbn. destruct (FL x Hx). repeat split; eauto; lra. }
  pose proof (ev_snr2_fin jv gi p (chirpR m1 m2) d 2 (map (fun x => (x, 0)) fs) PC Hd ltac:(lia) Hpp TR) as E. rewrite !map_map in E. cbn [fst snd] in E.
  set (P := map (fun x => (2 * x, evR jv gi p (chirpR m1 m2) d 2 (x, 0))) fs) in *.
  assert (PP : forall x, In x fs -> 0 < evR jv gi p (chirpR m1 m2) d 2 (x, 0)).
  { intros x Hx. destruct (FL x Hx). apply (ev_elem_fin jv gi p (chirpR m1 m2) d 2 x 0 g); auto; try lra; [lia|]. apply HN. lra. }
  assert (trapezium P < 0) as TN.
  { enough (0 < trapezium (map (fun q => (- fst q, snd q)) P)) by (rewrite trapezium_opp in H; lra).
    unfold P. rewrite map_map. cbn [fst snd]. apply trapezium_pos.
    - rewrite map_map. cbn [fst]. intros i j Hij Hj. rewrite map_length in Hj. rewrite !(nth_map_in _ _ _ 0) by lia. specialize (ST i j Hij ltac:(lia)). lra.
    - rewrite map_length. lia.
    - intros q Hq. apply in_map_iff in Hq. destruct Hq as [x [<- Hx]]. cbn [snd]. left. auto.
    - rewrite nth_error_map. destruct fs as [|x fs']; [cbn in LE; lia|]. cbn [nth_error option_map]. eexists. split; [reflexivity|]. cbn [snd]. apply PP. now left. }
  rewrite E. unfold nsqrt. now rewrite npowr_neg.
Qed.

(** *** C45, eccentric *)
Lemma linR_cons T n : (1 <= n)%nat -> exists r, linR T n = 0 :: r.
Proof.
  intros Hn. destruct (linR T n) as [|x r] eqn:E. { pose proof (linR_length T n) as L. rewrite E in L. cbn in L. lia. }
  exists r. f_equal. assert (In x (linR T n)) by (rewrite E; now left).
  destruct n as [|[|n]]; [lia| |].
  - cbn in E. now inversion E.
  - pose proof (linR_nth T (S (S n)) 0 ltac:(lia) ltac:(lia)) as N. rewrite E in N. cbn [nth] in N. rewrite N. replace (INR 0) with 0 by reflexivity. unfold Rdiv. ring.
Qed.
Lemma steps_early tm t n : (1 <= n)%nat -> 0 <= Rmin (tm - yr / 10) t ->
  exists ts, ecc_steps (Fin tm) (Fin t) n = map Fin (0 :: ts) /\ sorted (0 :: ts) /\ forall s, In s ts -> s <= Rmin (tm - yr / 10) t.
Proof.
  intros Hn HT. unfold ecc_steps, t_before_ecc. rewrite nsub_fin, nmin_fin. set (T := Rmin (tm - yr / 10) t) in *. rewrite linspace0_R.
  destruct (linR_cons T n Hn) as [r E]. rewrite E. pose proof (linR_sorted T n HT) as S. rewrite E in S.
  assert (B : forall s, In s (0 :: r) -> 0 <= s <= T).
  { intros s Hs. rewrite <- E in Hs. apply linR_in in Hs. destruct Hs as [k [Hk ->]]. split; nra. }
  rewrite clamp_row_fin by (intros s Hs; apply B; now right).
  destruct (clampR_spec (tm - yr / 10) r S) as [L [Z [S' [LE _]]]]. unfold clampR in *.
  eexists. split; [reflexivity|]. split; [exact S'|]. intros s Hs. destruct (In_nth _ _ 0 Hs) as [i [Hi Es]]. rewrite map_length in Hi.
  specialize (LE (Datatypes.S i) ltac:(lia)). cbn [nth] in LE. rewrite Es in LE. eapply Rle_trans; [exact LE|]. apply B. right. now apply nth_In.
Qed.
Lemma steps_late tm t n : (1 <= n)%nat -> tm - yr / 10 < 0 -> 0 <= t ->
  exists ts, ecc_steps (Fin tm) (Fin t) n = map Fin (0 :: ts) /\ forall s, In s ts -> s = 0.
Proof.
  intros Hn HT Ht. unfold ecc_steps, t_before_ecc. rewrite nsub_fin, nmin_fin. rewrite Rmin_left by lra. set (T := tm - yr / 10) in *. rewrite linspace0_R.
  destruct (linR_cons T n Hn) as [r E]. rewrite E.
  assert (B : forall s, In s r -> T <= s).
  { intros s Hs. assert (Hs' : In s (linR T n)) by (rewrite E; now right). apply linR_in in Hs'. destruct Hs' as [k [Hk ->]]. nra. }
  assert (TC : too_close_row (Fin tm) (Fin (yr / 10)) (map Fin (0 :: r)) = false :: map (fun _ => true) r).
  { unfold too_close_row. cbn [map]. f_equal. rewrite map_map. apply map_ext_in. intros s Hs. rewrite nsub_fin. fold T. unfold nge. apply nle_t. now apply B. }
  rewrite TC. unfold clamp_row. cbn [map map2]. rewrite (map2_map (fun (b : bool) t0 => if b then Fin (- Gyr) else t0) (fun _ => true) Fin r). cbn beta iota.
  assert (RM : row_max (Fin 0 :: map (fun _ : R => Fin (- Gyr)) r) = Fin 0).
  { unfold row_max. rewrite <- (map_map (fun _ : R => - Gyr) Fin). rewrite fold_nmax_fin. f_equal. clear. assert (0 < Gyr) by (unfold Gyr; pose proof yr_pos; lra).
    induction r as [|x r IH]; cbn; auto. rewrite Rmax_left by lra. exact IH. }
  rewrite RM. rewrite (map2_map (fun (b : bool) t0 => if b then Fin 0 else t0) (fun _ => true) (fun _ => Fin (- Gyr)) r). cbn beta iota.
  exists (map (fun _ => 0) r). split; [cbn [map]; now rewrite map_map|]. intros s Hs. apply in_map_iff in Hs. destruct Hs as [? [<- _]]. auto.
Qed.

Lemma ecc_track_real odeint m1 m2 f e0 tm t n T e ts : odeint_exact odeint -> 0 < m1 -> 0 < m2 -> 0 < f -> 0 < e0 < 1 -> 0 <= T ->
  let a0 := aR f m1 m2 in let c0 := c0R a0 e0 in
  e 0 = e0 -> follows_de_dt (betaR m1 m2) c0 T e ->
  ecc_steps tm t n = map Fin (0 :: ts) -> sorted (0 :: ts) -> (forall s, In s ts -> s <= T) ->
  tiny < aeR (e T) c0 -> fR (aeR (e T) c0) m1 m2 < 100 ->
  let fs := map (fun s => fR (aeR (e s) c0) m1 m2) (0 :: ts) in
  ecc_track odeint (Fin m1) (Fin m2) (Fin f) (Fin e0) tm t n = map (fun q => (Fin (fst q), Fin (snd q))) (combine fs (map e (0 :: ts))) /\
  sorted fs /\ (forall x, In x fs -> 0 < x < 100) /\ (forall x, In x (map e (0 :: ts)) -> 0 < x < 1).
Proof.
  intros HO H1 H2 Hf He HT a0 c0 E0 HF ES Hs Hts Ha Hff fs.
  pose proof (aR_pos f m1 m2) as Ha0. fold a0 in Ha0. assert (Hc : 0 < c0) by (now apply c0R_pos). pose proof tiny_pos as TP.
  assert (R : forall s, In s (0 :: ts) -> 0 <= s <= T).
  { intros s [<-|Hs']; [lra|]. split; [|auto]. destruct (In_nth _ _ 0 Hs') as [i [Hi E]]. rewrite <- E. apply (Hs 0%nat (S i)); simpl; lia. }
  assert (EB : forall s, In s (0 :: ts) -> 0 < e s < 1) by (intros s Hs'; now apply (HF s (R s Hs'))).
  assert (MO : forall s u, 0 <= s -> s <= u -> u <= T -> aeR (e u) c0 <= aeR (e s) c0).
  { intros s u A [L| ->] C; [|lra]. destruct (trajectory_rates_thm m1 m2 (betaR m1 m2) T c0 e H1 H2 Hc ltac:(now apply beta_fin) HF) as [a [A1 [_ A3]]].
    destruct (A3 s u A L C) as [_ D].
    pose proof (A1 s ltac:(lra)) as P1. pose proof (A1 u ltac:(lra)) as P2. destruct (HF s ltac:(lra)) as [Q1 _]. destruct (HF u ltac:(lra)) as [Q2 _].
    rewrite get_a_from_ecc_fin in P1, P2 by auto. injection P1 as P1. injection P2 as P2. lra. }
  assert (ER : ecc_es odeint (Fin m1) (Fin m2) (Fin f) (Fin e0) tm t n = map Fin (map e (0 :: ts))).
  { unfold ecc_es. rewrite ES, get_a_fin, beta_fin by auto. fold a0. unfold ecc_row. rewrite c_0_fin by auto. fold c0. rewrite <- E0 at 1.
    rewrite (HO (betaR m1 m2) c0 T e ts); auto using betaR_pos. rewrite map_nan_fin, map_map. reflexivity. }
  assert (FR : ecc_fs odeint (Fin m1) (Fin m2) (Fin f) (Fin e0) tm t n = map Fin fs).
  { unfold ecc_fs, freq_row, sep_row. fold (ecc_es odeint (Fin m1) (Fin m2) (Fin f) (Fin e0) tm t n). rewrite ER. rewrite !map_map. unfold fs. rewrite map_map. apply map_ext_in. intros s Hs'.
    rewrite get_a_fin, c_0_fin by auto. fold a0 c0. rewrite get_a_from_ecc_fin by auto. apply freq_of_a_fin; auto using aeR_pos.
    pose proof (R s Hs'). specialize (MO s T). lra. }
  assert (FL : forall x, In x fs -> 0 < x < 100).
  { intros x Hx. apply in_map_iff in Hx. destruct Hx as [s [<- Hs']]. split; [apply fR_pos|]. pose proof (R s Hs').
    pose proof (fR_anti (aeR (e T) c0) (aeR (e s) c0) m1 m2 H1 H2 ltac:(lra) (MO s T ltac:(lra) ltac:(lra) ltac:(lra))). lra. }
  split; [|split; [|split]].
  - unfold ecc_track. rewrite ER, FR. rewrite unmerged_ecc_id by (intros x Hx; specialize (FL x Hx); lra). apply combine_map2.
  - intros i j Hij Hj. unfold fs in Hj |- *. rewrite map_length in Hj. rewrite !(nth_map_in _ _ _ 0) by lia.
    assert (I1 : In (nth i (0 :: ts) 0) (0 :: ts)) by (apply nth_In; lia). assert (I2 : In (nth j (0 :: ts) 0) (0 :: ts)) by (apply nth_In; lia).
    apply fR_anti; auto; [apply aeR_pos; auto|]. pose proof (R _ I1). pose proof (R _ I2). apply MO; try lra. apply Hs; lia.
  - exact FL.
  - intros x Hx. apply in_map_iff in Hx. destruct Hx as [s [<- Hs']]. auto.
Qed.

Lemma ecc_well_defined w jv gi quad odeint sched np m1 m2 f d e0 hr t n tm b a0 c0 e aT fT sc kw p :
  noise_curve w kw sc t p -> proper_noise p -> (1 <= n)%nat -> odeint_shape odeint -> odeint_exact odeint ->
  ((1 < np)%nat -> complete_schedule 1 sched) ->
  0 < m1 -> 0 < m2 -> 0 < f -> 0 < d -> 0 < e0 < 1 ->
  (forall k x, (1 <= k)%Z -> 0 < x < 1 -> exists g, power_used jv gi k x g) ->
  beta (Fin m1) (Fin m2) = Fin b -> get_a_from_f_orb (Fin f) (Fin m1) (Fin m2) = Fin a0 -> c_0 (Fin a0) (Fin e0) = Fin c0 ->
  let T := Rmin (tm - year / 10) t in
  0 <= T -> e 0 = e0 -> follows_de_dt b c0 T e ->
  get_a_from_ecc (Fin (e T)) (Fin c0) = Fin aT -> tiny < aT ->
  get_f_orb_from_a (Fin aT) (Fin m1) (Fin m2) = Fin fT -> fT < 100 ->
  exists vs, length vs = hr /\ List.Forall (fun v => 0 <= v) vs /\
    snr_ecc_evolving w jv gi quad odeint sched [Fin m1] [Fin m2] [Fin f] [Fin d] [Fin e0] hr (Fin t) n (Some [Fin tm]) sc np false true kw = Ok (Snr2 [map Fin vs]) /\
    snr_ecc_evolving w jv gi quad odeint sched [Fin m1] [Fin m2] [Fin f] [Fin d] [Fin e0] hr (Fin t) n (Some [Fin tm]) sc np false false kw = Ok (Snr [Fin (sqrt (Rsum vs))]).
Proof.
  intros Hp Hpp Hn Hsh HO Hsc H1 H2 Hf Hd He Hg Eb Ea Ec T HT E0 HF EaT HaT EfT HfT.
  rewrite beta_fin in Eb by auto. apply Fin_inj in Eb. subst b. rewrite get_a_fin in Ea by auto. apply Fin_inj in Ea.
  rewrite c_0_fin in Ec by auto. apply Fin_inj in Ec. subst a0 c0. pose proof tiny_pos as TP.
  destruct (HF T ltac:(lra)) as [HeT _]. rewrite get_a_from_ecc_fin in EaT by auto. apply Fin_inj in EaT. subst aT.
  rewrite get_f_fin in EfT by (auto; lra). apply Fin_inj in EfT. subst fT.
  destruct (steps_early tm t n Hn) as [ts [S1 [S2 S3]]]. { rewrite <- year_yr. exact HT. } rewrite <- year_yr in S3. fold T in S3.
  destruct (ecc_track_real odeint m1 m2 f e0 (Fin tm) (Fin t) n T e ts) as [TR [SO [FL EL]]]; auto.
  set (fs := map (fun s => fR (aeR (e s) (c0R (aR f m1 m2) e0)) m1 m2) (0 :: ts)) in *. set (es := map e (0 :: ts)) in *.
  destruct (chirp_one m1 m2 H1 H2) as [EC PC].
  assert (LE : length fs = length es) by (unfold fs, es; now rewrite !map_length).
  assert (TK : forall k, (1 <= k)%Z -> forall q, In q (combine fs es) -> 0 < fst q /\ 0 <= snd q < 1 /\ exists g, power_used jv gi k (snd q) g).
  { intros k Hk [x y] Hq. pose proof (in_combine_l _ _ _ _ Hq) as I1. pose proof (in_combine_r _ _ _ _ Hq) as I2. cbn.
    pose proof (FL x I1). pose proof (EL y I2). repeat split; try lra. apply Hg; auto. }
  assert (F : map fst (combine fs es) = fs) by (now apply combine_fst).
  set (v := fun k => match ev_snr2 jv gi p (Fin (chirpR m1 m2)) (Fin d) (map (fun q => (Fin (fst q), Fin (snd q))) (combine fs es)) k with Fin r => r | _ => 0 end).
  assert (V : forall k, (1 <= k)%Z -> ev_snr2 jv gi p (Fin (chirpR m1 m2)) (Fin d) (map (fun q => (Fin (fst q), Fin (snd q))) (combine fs es)) k = Fin (v k) /\ 0 <= v k).
  { intros k Hk. unfold v. destruct (track_integral jv gi p (chirpR m1 m2) d k (combine fs es)) as [ys [Y1 [Y2 Y3]]]; auto. { now rewrite F. }
    rewrite Y3. auto. }
  assert (ROW : map (ev_snr2 jv gi p (Fin (chirpR m1 m2)) (Fin d) (map (fun q => (Fin (fst q), Fin (snd q))) (combine fs es))) (arange1 hr) = map Fin (map v (arange1 hr))).
  { rewrite map_map. apply map_ext_in. intros k Hk. apply arange1_in in Hk. now apply V. }
  exists (map v (arange1 hr)). split; [|split; [|split]].
  - now rewrite map_length, arange1_length.
  - apply Forall_forall. intros x Hx. apply in_map_iff in Hx. destruct Hx as [k [<- Hk]]. apply arange1_in in Hk. now apply V.
  - rewrite ecc_one with (p := p) by (auto; lra). now rewrite EC, TR, ROW.
  - rewrite ecc_one with (p := p) by (auto; lra). rewrite EC, TR, ROW. unfold returned. cbn [map]. rewrite nsum_fin, nsqrt_fin; auto.
    apply Rsum_map_nonneg. intros k Hk. apply arange1_in in Hk. now apply V.
Qed.

Lemma trapezium_const x (ys : list R) : trapezium (map (fun y => (x, y)) ys) = 0.
Proof.
  induction ys as [|y0 [|y1 ys] IH]; try reflexivity.
  change (trapezium (map (fun y => (x, y)) (y0 :: y1 :: ys))) with ((x - x) * (y0 + y1) / 2 + trapezium (map (fun y => (x, y)) (y1 :: ys))). rewrite IH. field.
Qed.
Lemma ecc_late w jv gi quad odeint sched np m1 m2 f d e0 hr t n tm sc kw p a0 :
  noise_curve w kw sc t p -> proper_noise p -> (1 <= n)%nat -> odeint_shape odeint -> odeint_exact odeint ->
  ((1 < np)%nat -> complete_schedule 1 sched) ->
  0 < m1 -> 0 < m2 -> 0 < f < 100 -> 0 < d -> 0 < e0 < 1 -> 0 <= t ->
  (forall k x, (1 <= k)%Z -> 0 < x < 1 -> exists g, power_used jv gi k x g) ->
  get_a_from_f_orb (Fin f) (Fin m1) (Fin m2) = Fin a0 -> tiny < a0 ->
  tm < year / 10 ->
  snr_ecc_evolving w jv gi quad odeint sched [Fin m1] [Fin m2] [Fin f] [Fin d] [Fin e0] hr (Fin t) n (Some [Fin tm]) sc np false false kw = Ok (Snr [Fin 0]).
Proof.
  intros Hp Hpp Hn Hsh HO Hsc H1 H2 Hf Hd He Ht Hg Ea Ha Htm. rewrite year_yr in Htm. rewrite get_a_fin in Ea by (auto; lra). apply Fin_inj in Ea. subst a0.
  destruct (steps_late tm t n Hn ltac:(lra) Ht) as [ts [S1 S2]].
  pose proof (aR_pos f m1 m2) as Ha0. assert (Hc : 0 < c0R (aR f m1 m2) e0) by (now apply c0R_pos). pose proof (betaR_pos m1 m2 H1 H2) as Hb.
  assert (exists e, e 0 = e0 /\ follows_de_dt (betaR m1 m2) (c0R (aR f m1 m2) e0) 0 e) as [e [E0 HF]].
  { destruct (trajectory_exists (betaR m1 m2) (c0R (aR f m1 m2) e0) e0 0) as [e [A B]]; auto; try lra. 2: eauto.
    pose proof (I514_pos e0 He). apply Rmult_lt_0_compat; auto. apply Rdiv_lt_0_compat; auto. assert (0 < c0R (aR f m1 m2) e0 ^ 4) by (now apply pow_lt). lra. }
  assert (AE : aeR (e 0) (c0R (aR f m1 m2) e0) = aR f m1 m2) by (rewrite E0; now apply aeR_c0R).
  assert (S3 : sorted (0 :: ts)).
  { assert (Z : forall i, nth i (0 :: ts) 0 = 0). { intros i. destruct (Nat.lt_ge_cases i (length (0 :: ts))) as [L|L]; [|now apply nth_overflow].
      destruct (nth_In _ 0 L) as [<-|I]; auto. } intros i j _ _. rewrite !Z. lra. }
  destruct (ecc_track_real odeint m1 m2 f e0 (Fin tm) (Fin t) n 0 e ts) as [TR [SO [FL EL]]]; auto; try lra.
  { intros s Hs. rewrite (S2 s Hs). lra. } { rewrite AE, fR_aR; lra. }
  set (fs := map (fun s => fR (aeR (e s) (c0R (aR f m1 m2) e0)) m1 m2) (0 :: ts)) in *. set (es := map e (0 :: ts)) in *.
  destruct (chirp_one m1 m2 H1 H2) as [EC PC].
  assert (TK : forall k, (1 <= k)%Z -> forall q, In q (combine fs es) -> 0 < fst q /\ 0 <= snd q < 1 /\ exists g, power_used jv gi k (snd q) g).
  { intros k Hk [x y] Hq. pose proof (in_combine_l _ _ _ _ Hq) as I1. pose proof (in_combine_r _ _ _ _ Hq) as I2. cbn.
    pose proof (FL x I1). pose proof (EL y I2). repeat split; try lra. apply Hg; auto. }
  assert (CF : forall x, In x fs -> x = f).
  { intros x Hx. apply in_map_iff in Hx. destruct Hx as [s [<- Hs]]. replace s with 0 by (destruct Hs as [<-|Hs]; auto; symmetry; auto). rewrite AE. apply fR_aR; lra. }
  assert (V : forall k, (1 <= k)%Z -> ev_snr2 jv gi p (Fin (chirpR m1 m2)) (Fin d) (map (fun q => (Fin (fst q), Fin (snd q))) (combine fs es)) k = Fin 0).
  { intros k Hk. rewrite (ev_snr2_fin jv gi p (chirpR m1 m2) d k (combine fs es)) by auto. f_equal.
    rewrite (map_ext_in _ (fun q => (IZR k * f, evR jv gi p (chirpR m1 m2) d k q))).
    2:{ intros [x y] Hq. pose proof (in_combine_l _ _ _ _ Hq) as I1. cbn [fst]. f_equal. f_equal. auto. }
    rewrite <- (map_map (fun q => evR jv gi p (chirpR m1 m2) d k q) (fun y => (IZR k * f, y))). apply trapezium_const. }
  rewrite ecc_one with (p := p) by (auto; lra). rewrite EC, TR. unfold returned. cbn [map]. do 2 f_equal. f_equal.
  rewrite (map_ext_in _ (fun _ => Fin 0)). 2:{ intros k Hk. apply arange1_in in Hk. now apply V. }
  rewrite <- (map_map (fun _ => 0) Fin), nsum_fin. replace (Rsum (map (fun _ : Z => 0) (arange1 hr))) with 0.
  { rewrite nsqrt_fin by lra. now rewrite sqrt_0. }
  induction (arange1 hr) as [|k l IH]; [reflexivity|]. cbn [map]. rewrite Rsum_cons, <- IH. lra.
Qed.
