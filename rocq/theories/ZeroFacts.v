(** ZeroFacts.v -- when stationary SNRs are zero, and how they scale with the chirp mass. *)
From Coq Require Import Reals ZArith List Lra Lia.
From Verif Require Import Num NumFacts Np Utils Spec UtilsFacts EvolSpec Evol OdeintFacts Strain StrainSpec StrainFacts Bessel BesselFacts Psd PsdSpec Snr SnrSpec SnrFacts SnrThms SnrThms2
  ConvSpec SumSpec ParsevalThms ParsevalStrain BesselPositive HarmonicSums SnrThms3 SnrThms4 PositiveFacts PropUtils.
Import ListNotations.
Open Scope R_scope.

(** The harmonics that carry power at eccentricity [e]. *)
Lemma radiating jv n e : (forall k x, jv k (Fin x) = Fin (besselJ k x)) -> (1 <= n)%Z -> 0 <= e < 1 ->
  exists g, power_used jv None n e g /\ 0 <= g /\ (0 < g <-> 0 < e \/ n = 2%Z).
Proof.
  intros J Hn He. destruct (Rlt_le_dec 0 e) as [P|P].
  - destruct (every_harmonic jv n e J Hn ltac:(lra)) as (g & G & Q). exists g. split; [exact G|]. split; [lra|]. tauto.
  - assert (e = 0) by lra. subst e. exists (if (n =? 2)%Z then 1 else 0).
    split; [exact (C05_peters_g_circular jv besselJ n J besselJ_0 Hn)|]. destruct (Z.eqb_spec n 2) as [E|E]; (split; [lra|]); split; intros; try lra; try tauto.
Qed.

Section Zero.
Variables (w : psd_env) (jv : Z -> num -> num) (kw : psd_kwargs) (sc : option (num -> num)) (p : num -> num) (t : R).
Variables (X : Type) (m f d : X -> R) (xs : list X).
Hypothesis J : forall k x, jv k (Fin x) = Fin (besselJ k x).
Hypothesis Hp : noise_curve w kw sc t p.
Hypothesis Hq : proper_noise p.
Hypothesis Ht : 0 < t.

Lemma zero_eccentric (e : X -> R) hr : (forall x, In x xs -> 0 < m x /\ 0 < f x /\ 0 < d x /\ 0 <= e x < 1) ->
  exists s : X -> R,
    snr_ecc_stationary w jv None (map (fun x => Fin (m x)) xs) (map (fun x => Fin (f x)) xs) (map (fun x => Fin (e x)) xs)
      (map (fun x => Fin (d x)) xs) (Fin t) hr sc false false kw = Ok (Snr (map (fun x => Fin (s x)) xs)) /\
    forall x, In x xs -> 0 <= s x /\
      (s x = 0 <-> forall n, (1 <= n <= Z.of_nat hr)%Z -> 0 < e x \/ n = 2%Z -> p (Fin (IZR n * f x)) = PInf).
Proof.
  intros H. assert (G : forall x, In x xs -> good_source jv None (m x) (f x) (e x) (d x)).
  { intros x Hx. destruct (H x Hx) as (A & B & C & D). repeat split; try lra. intros n Hn.
    destruct (radiating jv n (e x) J Hn D) as (g & U & _). eauto. }
  destruct (stationary_formula w jv None X m f e d xs t hr sc kw p Hp Hq (Rlt_le _ _ Ht) G) as (v & _ & V & T).
  exists (fun x => sqrt (Rsum (map (v x) (map Z.of_nat (seq 1 hr))))). split; [exact V|]. intros x Hx. split; [apply sqrt_pos|].
  destruct (H x Hx) as (A & B & C & D).
  assert (K : forall n, (1 <= n <= Z.of_nat hr)%Z -> 0 <= v x n /\ (0 < v x n <-> (0 < e x \/ n = 2%Z) /\ p (Fin (IZR n * f x)) <> PInf)).
  { intros n Hn. destruct (T x n Hx Hn) as (V0 & h & HH & S). split; [exact V0|].
    destruct (radiating jv n (e x) J ltac:(lia) D) as (g & U & G0 & P).
    rewrite (h_0_single_fin jv None (m x) (f x) (e x) n (d x) g None A B C ltac:(lra) ltac:(lia) U) in HH.
    assert (EH : h = sqrt (ampR None) * h0R (m x) (f x) (d x) g n) by congruence. clear HH.
    assert (H2 : exists c, 0 < c /\ h ^ 2 = c * g).
    { pose proof (IZR_pos n ltac:(lia)). pose proof clight_pos.
      exists (ampR None * (Rpower 2 (28/3) / 5 * Rpower Ggrav (10/3) / clight ^ 8 * Rpower (m x) (10/3) * Rpower (PI * f x) (4/3) / d x ^ 2 / IZR n ^ 2)). split.
      - cbn [ampR]. assert (L1 : 0 < clight ^ 8) by (apply pow_lt; lra). assert (L2 : 0 < d x ^ 2) by (apply pow_lt; lra). assert (L3 : 0 < IZR n ^ 2) by (apply pow_lt; lra).
        assert (R1 := exp_pos). unfold Rdiv. repeat apply Rmult_lt_0_compat; try apply Rinv_0_lt_compat; auto; try lra; unfold Rpower; apply exp_pos.
      - rewrite EH, Rpow_mult_distr, h0R_sqr by (auto; lia). rewrite pow2_sqrt by (cbn; lra). field. lra. }
    destruct H2 as (c & Hc & H2).
    assert (Z : p (Fin (IZR n * f x)) = PInf \/ exists s, p (Fin (IZR n * f x)) = Fin s /\ 0 < s) by (apply Hq; pose proof (IZR_pos n ltac:(lia)); nra).
    pose proof (sns_value _ _ _ _ S) as E. destruct Z as [Z|(s & Z & Hs)]; rewrite Z in E |- *.
    - split; [intros; nra|intros (_ & N); congruence].
    - rewrite H2 in E. pose proof (Rinv_0_lt_compat s Hs) as I. split.
      + intros Q. split; [|discriminate]. apply P. destruct G0 as [G0|G0]; [exact G0|]. rewrite <- G0 in E. lra.
      + intros (Q & _). apply P in Q. rewrite E. repeat apply Rmult_lt_0_compat; assumption. }
  assert (IN : forall n, In n (map Z.of_nat (seq 1 hr)) <-> (1 <= n <= Z.of_nat hr)%Z).
  { intros n. rewrite in_map_iff. split.
    - intros (k & <- & I). apply in_seq in I. lia.
    - intros I. exists (Z.to_nat n). split; [lia|]. apply in_seq. lia. }
  split.
  - intros Z n Hn HE. destruct (Hq (IZR n * f x)) as [Q|(s & Q & _)]; [pose proof (IZR_pos n ltac:(lia)); nra|exact Q|]. exfalso.
    assert (P : 0 < v x n) by (apply (K n Hn); split; [exact HE|rewrite Q; discriminate]).
    assert (0 < sqrt (Rsum (map (v x) (map Z.of_nat (seq 1 hr))))); [|lra]. apply sqrt_lt_R0.
    apply (Rsum_pos_in (v x) _ n); [now apply IN| |exact P]. intros k I. apply K, IN, I.
  - intros HZ. rewrite (map_ext_in (v x) (fun _ => 0)).
    + replace (Rsum (map (fun _ => 0) (map Z.of_nat (seq 1 hr)))) with 0; [apply sqrt_0|].
      generalize (map Z.of_nat (seq 1 hr)) as l. induction l as [|a l IH]; [reflexivity|]. cbn [map]. rewrite Rsum_cons, <- IH. ring.
    + intros n I. apply IN in I. destruct (K n I) as ([P|P] & Q); [|congruence]. exfalso. apply Q in P. destruct P as (P & N). apply N, HZ; auto.
Qed.

Lemma zero_circular : (forall x, In x xs -> 0 < m x /\ 0 < f x /\ 0 < d x) ->
  exists s : X -> R,
    snr_circ_stationary w jv None (map (fun x => Fin (m x)) xs) (map (fun x => Fin (f x)) xs) (map (fun x => Fin (d x)) xs) (Fin t) no_sky sc kw
      = Ok (map (fun x => Fin (s x)) xs) /\
    forall x, In x xs -> 0 <= s x /\ (s x = 0 <-> p (Fin (2 * f x)) = PInf).
Proof.
  intros H. assert (CP : circular_powers jv None).
  { exists 1. intros n Hn. exact (C05_peters_g_circular jv besselJ n J besselJ_0 Hn). }
  destruct (circ_ecc_agree w jv None X m f d xs t 2 sc kw p Hp Hq (Rlt_le _ _ Ht) CP H (le_n 2)) as (s & S0 & S1 & S2 & _).
  destruct (zero_eccentric (fun _ => 0) 2 ltac:(intros x Hx; destruct (H x Hx) as (A & B & C); repeat split; lra)) as (s' & E & Z).
  exists s. split; [exact S1|]. intros x Hx. split; [now apply S0|].
  assert (SS : s x = s' x).
  { rewrite S2 in E. injection E as E. assert (Q : forall l, map (fun x => Fin (s x)) l = map (fun x => Fin (s' x)) l -> In x l -> s x = s' x).
    { clear. induction l as [|a l IH]; [easy|]. cbn [map]. intros E [->|I]; injection E; auto. }
    now apply (Q xs). }
  rewrite SS. destruct (Z x Hx) as (_ & Z'). rewrite Z'. split.
  - intros Q. exact (Q 2%Z ltac:(lia) (or_intror eq_refl)).
  - intros Q n _ [P| ->]; [lra|exact Q].
Qed.
End Zero.

Lemma zero_band w jv kw t X (m f d : X -> R) xs B : (forall k x, jv k (Fin x) = Fin (besselJ k x)) ->
  built_in_curve w kw t B -> 0 < t -> forall (e : X -> R) hr, (forall x, In x xs -> 0 < m x /\ 0 < f x /\ 0 < d x /\ 0 <= e x < 1) ->
  exists s : X -> R,
    snr_ecc_stationary w jv None (map (fun x => Fin (m x)) xs) (map (fun x => Fin (f x)) xs) (map (fun x => Fin (e x)) xs)
      (map (fun x => Fin (d x)) xs) (Fin t) hr None false false kw = Ok (Snr (map (fun x => Fin (s x)) xs)) /\
    forall x, In x xs -> 0 <= s x /\
      (s x = 0 <-> forall n, (1 <= n <= Z.of_nat hr)%Z -> 0 < e x \/ n = 2%Z -> ~ B (IZR n * f x)).
Proof.
  intros J HB Ht e hr H. destruct (built_in_noise w kw t B HB Ht) as (p & Hp & Hq & Out).
  destruct (zero_eccentric w jv kw None p t X m f d xs J Hp Hq Ht e hr H) as (s & S & Z). exists s. split; [exact S|]. intros x Hx.
  destruct (Z x Hx) as (Z0 & Z1). split; [exact Z0|]. rewrite Z1. destruct (H x Hx) as (_ & F & _).
  split; intros Q n Hn E; (apply Out; [pose proof (IZR_pos n ltac:(lia)); nra|]); now apply Q.
Qed.
Lemma zero_band_circular w jv kw t X (m f d : X -> R) xs B : (forall k x, jv k (Fin x) = Fin (besselJ k x)) ->
  built_in_curve w kw t B -> 0 < t -> (forall x, In x xs -> 0 < m x /\ 0 < f x /\ 0 < d x) ->
  exists s : X -> R,
    snr_circ_stationary w jv None (map (fun x => Fin (m x)) xs) (map (fun x => Fin (f x)) xs) (map (fun x => Fin (d x)) xs) (Fin t) no_sky None kw
      = Ok (map (fun x => Fin (s x)) xs) /\
    forall x, In x xs -> 0 <= s x /\ (s x = 0 <-> ~ B (2 * f x)).
Proof.
  intros J HB Ht H. destruct (built_in_noise w kw t B HB Ht) as (p & Hp & Hq & Out).
  destruct (zero_circular w jv kw None p t X m f d xs J Hp Hq Ht H) as (s & S & Z). exists s. split; [exact S|]. intros x Hx.
  destruct (Z x Hx) as (Z0 & Z1). split; [exact Z0|]. rewrite Z1. destruct (H x Hx) as (_ & F & _). apply Out. lra.
Qed.

(** ** Chirp masses *)
Lemma sum_scaled_list {A} c (v : A -> R) l : Rsum (map (fun n => c * v n) l) = c * Rsum (map v l).
Proof. induction l as [|a l IH]; [unfold Rsum; cbn; ring|]. cbn [map]. rewrite !Rsum_cons, IH. ring. Qed.
Lemma mass_eccentric w jv gi X (m f e d : X -> R) xs t hr sc kw p k : noise_curve w kw sc t p -> proper_noise p -> 0 <= t -> 0 < k ->
  (forall x, In x xs -> good_source jv gi (m x) (f x) (e x) (d x)) ->
  let call (M : X -> R) := snr_ecc_stationary w jv gi (map (fun x => Fin (M x)) xs) (map (fun x => Fin (f x)) xs) (map (fun x => Fin (e x)) xs)
      (map (fun x => Fin (d x)) xs) (Fin t) hr sc false false kw in
  exists s : X -> R, call m = Ok (Snr (map (fun x => Fin (s x)) xs)) /\ call (fun x => k * m x) = Ok (Snr (map (fun x => Fin (Rpower k (5/3) * s x)) xs)).
Proof.
  intros Hp Hq Ht Hk G call.
  assert (G' : forall c, 0 < c -> forall x, In x xs -> good_source jv gi (c * m x) (f x) (e x) (d x)).
  { intros c Hc x Hx. destruct (G x Hx) as (A & R). split; [nra|exact R]. }
  destruct (stationary_formula w jv gi X m f e d xs t hr sc kw p Hp Hq Ht G) as (v & _ & V & T).
  destruct (stationary_formula w jv gi X (fun x => k * m x) f e d xs t hr sc kw p Hp Hq Ht (G' k Hk)) as (v' & _ & V' & T').
  exists (fun x => sqrt (Rsum (map (v x) (map Z.of_nat (seq 1 hr))))). split; [exact V|]. unfold call. rewrite V'. do 2 f_equal.
  apply map_ext_in. intros x Hx. f_equal.
  assert (P : 0 < Rpower k (5/3)) by (unfold Rpower; apply exp_pos).
  rewrite <- (sqrt_pow2 (Rpower k (5/3))) by lra. rewrite <- sqrt_mult_alt by (apply pow2_ge_0). f_equal.
  rewrite <- sum_scaled_list. f_equal. apply map_ext_in. intros n I. apply in_map_iff in I. destruct I as (j & <- & I). apply in_seq in I.
  assert (Hn : (1 <= Z.of_nat j <= Z.of_nat hr)%Z) by lia. destruct (G x Hx) as (A & B & C & D & E). destruct (E (Z.of_nat j) ltac:(lia)) as (g & U).
  destruct (T x _ Hx Hn) as (_ & h & H & S). destruct (T' x _ Hx Hn) as (_ & h' & H' & S').
  rewrite (h_0_single_fin jv gi (m x) (f x) (e x) (Z.of_nat j) (d x) g None A B C ltac:(lra) ltac:(lia) U) in H.
  rewrite (h_0_single_fin jv gi (k * m x) (f x) (e x) (Z.of_nat j) (d x) g None (Rmult_lt_0_compat _ _ Hk A) B C ltac:(lra) ltac:(lia) U) in H'.
  assert (E1 : h = sqrt (ampR None) * h0R (m x) (f x) (d x) g (Z.of_nat j)) by congruence.
  assert (E2 : h' = sqrt (ampR None) * h0R (k * m x) (f x) (d x) g (Z.of_nat j)) by congruence.
  rewrite h0R_scale_m in E2 by auto. rewrite (sns_value _ _ _ _ S), (sns_value _ _ _ _ S'), E1, E2. ring.
Qed.
Lemma mass_circular w jv gi X (m f d : X -> R) (o : option (X -> angles)) xs t sc kw p k : noise_curve w kw sc t p -> proper_noise p -> 0 <= t -> 0 < k ->
  (exists g, power_used jv gi 2 0 g) -> (forall x, In x xs -> 0 < m x /\ 0 < f x /\ 0 < d x) ->
  let call (M : X -> R) := snr_circ_stationary w jv gi (map (fun x => Fin (M x)) xs) (map (fun x => Fin (f x)) xs) (map (fun x => Fin (d x)) xs) (Fin t) (pop_sky xs o) sc kw in
  exists s : X -> R, call m = Ok (map (fun x => Fin (s x)) xs) /\ call (fun x => k * m x) = Ok (map (fun x => Fin (Rpower k (5/3) * s x)) xs).
Proof.
  intros Hp Hq Ht Hk [g Hg] HX call.
  set (S (M : X -> R) x := match st_elem jv gi (Fin t) p (Fin (M x)) (Fin (f x)) (Fin 0) (Fin (d x)) (pop_amp o x) 2 with Fin r => r | _ => 0 end).
  assert (V : forall c x, (forall x, In x xs -> 0 < c x) -> In x xs -> st_elem jv gi (Fin t) p (Fin (c x)) (Fin (f x)) (Fin 0) (Fin (d x)) (pop_amp o x) 2 = Fin (S c x) /\ 0 <= S c x /\
     signal_to_noise_squared (sqrt (ampR (option_map (fun g => g x) o)) * h0R (c x) (f x) (d x) g 2) t (p (Fin (IZR 2 * f x))) (S c x)).
  { intros c x Hc Hx. destruct (HX x Hx) as [A [B C]].
    destruct (st_elem_fin jv gi t p (c x) (f x) 0 (d x) 2 g (option_map (fun g => g x) o) (Hc x Hx) B C ltac:(lra) ltac:(lia) Hg Ht Hq) as [v [E [P Q]]].
    assert (E' : st_elem jv gi (Fin t) p (Fin (c x)) (Fin (f x)) (Fin 0) (Fin (d x)) (pop_amp o x) 2 = Fin v).
    { rewrite <- E. destruct o; reflexivity. }
    unfold S. rewrite E'. auto. }
  assert (E : forall c, (forall x, In x xs -> 0 < c x) -> call c = Ok (map (fun x => Fin (sqrt (S c x))) xs)).
  { intros c Hc. unfold call. rewrite (circ_stationary_map _ _ _ _ _ _ _ _ _ _ _ p) by auto. f_equal. apply map_ext_in. intros x Hx.
    destruct (V c x Hc Hx) as [-> [P _]]. now apply nsqrt_fin. }
  assert (M1 : forall x, In x xs -> 0 < m x) by (intros x Hx; apply (HX x Hx)).
  assert (M2 : forall x, In x xs -> 0 < k * m x) by (intros x Hx; specialize (M1 x Hx); nra).
  exists (fun x => sqrt (S m x)). split; [apply E; exact M1|]. rewrite E by exact M2. f_equal. apply map_ext_in. intros x Hx. f_equal.
  assert (P : 0 < Rpower k (5/3)) by (unfold Rpower; apply exp_pos). destruct (HX x Hx) as [A [B C]].
  rewrite <- (sqrt_pow2 (Rpower k (5/3))) by lra. rewrite <- sqrt_mult_alt by (apply pow2_ge_0). f_equal.
  destruct (V m x M1 Hx) as (_ & _ & S1). destruct (V (fun x => k * m x) x M2 Hx) as (_ & _ & S2).
  rewrite (sns_value _ _ _ _ S1), (sns_value _ _ _ _ S2), h0R_scale_m by auto. ring.
Qed.

(** ** Evolving SNRs with the Bessel functions themselves *)
Lemma bessel_positive w jv quad odeint sched np m1 m2 f d e0 hr t n tmo tm b a0 c0 e aT fT sc kw p :
  (forall k x, jv k (Fin x) = Fin (besselJ k x)) ->
  noise_curve w kw sc t p -> proper_noise p -> ((3 <= n)%nat \/ (2 <= n)%nat /\ t < tm - year / 10) -> odeint_shape odeint -> odeint_exact odeint ->
  ((1 < np)%nat -> complete_schedule 1 sched) ->
  0 < m1 -> 0 < m2 -> 0 < f -> 0 < d -> 0 < e0 < 1 ->
  beta (Fin m1) (Fin m2) = Fin b -> get_a_from_f_orb (Fin f) (Fin m1) (Fin m2) = Fin a0 -> c_0 (Fin a0) (Fin e0) = Fin c0 ->
  merger_time_used quad m1 m2 f e0 tm tmo ->
  let T := Rmin (tm - year / 10) t in
  0 < T -> e 0 = e0 -> follows_de_dt b c0 T e ->
  get_a_from_ecc (Fin (e T)) (Fin c0) = Fin aT -> tiny < aT ->
  get_f_orb_from_a (Fin aT) (Fin m1) (Fin m2) = Fin fT -> fT < 100 ->
  (exists h, (1 <= h <= Z.of_nat hr)%Z /\ p (Fin (IZR h * f)) <> PInf) ->
  exists s, snr_ecc_evolving w jv None quad odeint sched [Fin m1] [Fin m2] [Fin f] [Fin d] [Fin e0] hr (Fin t) n tmo sc np false false kw = Ok (Snr [Fin s]) /\ 0 < s.
Proof.
  intros J Hp Hq Hn O1 O2 Hs H1 H2 Hf Hd He Hb Ha Hc Hm T HT E0 HE A1 A2 F1 F2 (h & Hh & Ph).
  apply (ecc_positive_any w jv None quad odeint sched np m1 m2 f d e0 hr t n tmo tm b a0 c0 e aT fT sc kw p); auto.
  - intros k x Hk Hx. destruct (every_harmonic jv k x J Hk Hx) as (g & G & _). exists g. exact G.
  - exists h. split; [exact Hh|]. split; [|exact Ph]. destruct (every_harmonic jv h e0 J ltac:(lia) He) as (g & G & P). exists g. split; [exact G|exact P].
Qed.
