(** ConvFacts.v -- with more time steps the evolving SNR tends to the time integral of the squared strain over the noise. *)
From Coq Require Import String Reals ZArith List Bool Lra Lia.
From Coquelicot Require Import Coquelicot.
From Verif Require Import Num NumFacts Np NpFacts Utils Spec UtilsFacts Strain DetectorFacts Evol EvolSpec EvolFacts MergeFacts OdeFacts ArrEvolFacts CircFacts EccEvolFacts LocalFacts
  EvolThms OdeintFacts StrainSpec StrainFacts Psd PsdSpec PsdFacts PsdThms ArgFacts ScaleFacts Snr SnrSpec SnrFacts SnrThms SnrThms2 SnrThms3 SnrThms4 PositiveFacts AgreeFacts ConvSpec.
Import ListNotations.
Open Scope R_scope.

(** ** The trapezium rule over a changing abscissa *)
Section Trapezium.
Variables (T : R) (F D w : R -> R).
Hypothesis HT : 0 < T.
Hypothesis HF : forall s, 0 <= s <= T -> is_derive F s (D s).
Hypothesis HD : forall s, 0 <= s <= T -> 0 < D s.
Hypothesis CD : forall s, 0 <= s <= T -> continuous D s.
Hypothesis Cw : forall s, 0 <= s <= T -> continuous w s.
Let G s := w s / D s.

Lemma ex_w a b : 0 <= a -> a <= b -> b <= T -> ex_RInt w a b.
Proof. intros A B C. apply (ex_RInt_continuous (V := R_CompleteNormedModule)). intros z. rewrite Rmin_left, Rmax_right by auto. intros. apply Cw. lra. Qed.
Lemma int_D a b : 0 <= a -> a <= b -> b <= T -> is_RInt D a b (F b - F a).
Proof.
  intros A B C. apply (is_RInt_derive (V := R_CompleteNormedModule) F D); intros z; rewrite Rmin_left, Rmax_right by auto; intros; [apply HF|apply CD]; lra.
Qed.
Lemma cont_G s : 0 <= s <= T -> continuity_pt G s.
Proof.
  intros Hs. apply continuity_pt_div; [| |pose proof (HD s Hs); lra]; apply continuity_pt_filterlim; [now apply Cw|now apply CD].
Qed.
Lemma F_mono a b : 0 <= a -> a <= b -> b <= T -> F a <= F b.
Proof.
  intros A B C. enough (0 <= F b - F a) by lra. apply (is_RInt_ge_0 D a b); auto; [now apply int_D|]. intros x Hx. left. apply HD. lra.
Qed.
(** One panel: if the ordinate varies by at most [eps]. *)
Lemma panel a b eps : 0 <= a -> a <= b -> b <= T -> (forall x y, a <= x <= b -> a <= y <= b -> Rabs (G x - G y) <= eps) ->
  Rabs ((F b - F a) * (G a + G b) / 2 - RInt w a b) <= eps * (F b - F a).
Proof.
  intros A B C H. set (m := (G a + G b) / 2).
  assert (I1 : is_RInt (fun s => (m - eps) * D s) a b ((m - eps) * (F b - F a))) by (apply (is_RInt_scal (V := R_NormedModule) D); now apply int_D).
  assert (I2 : is_RInt (fun s => (m + eps) * D s) a b ((m + eps) * (F b - F a))) by (apply (is_RInt_scal (V := R_NormedModule) D); now apply int_D).
  assert (I3 : is_RInt w a b (RInt w a b)) by (apply (RInt_correct (V := R_CompleteNormedModule)); now apply ex_w).
  assert (Q : forall x, a < x < b -> (m - eps) * D x <= w x <= (m + eps) * D x).
  { intros x Hx. pose proof (HD x ltac:(lra)) as P. assert (E : w x = G x * D x) by (unfold G; field; lra). rewrite E.
    pose proof (H x a ltac:(lra) ltac:(lra)) as Q1. pose proof (H x b ltac:(lra) ltac:(lra)) as Q2.
    apply Rabs_le_between' in Q1, Q2. assert (m - eps <= G x <= m + eps) by (unfold m; lra). split; apply Rmult_le_compat_r; lra. }
  pose proof (is_RInt_le _ _ a b _ _ B I1 I3 ltac:(intros x Hx; apply Q; auto)) as L1.
  pose proof (is_RInt_le _ _ a b _ _ B I3 I2 ltac:(intros x Hx; apply Q; auto)) as L2.
  replace ((F b - F a) * (G a + G b) / 2) with (m * (F b - F a)) by (unfold m; field). apply Rabs_le. lra.
Qed.
Lemma panels eps dl r : 0 < dl -> (forall x y, 0 <= x <= T -> 0 <= y <= T -> Rabs (x - y) < dl -> Rabs (G x - G y) <= eps) ->
  forall a, 0 <= a -> sorted (a :: r) -> (forall s, In s (a :: r) -> s <= T) -> (forall i, (i < length r)%nat -> nth (S i) (a :: r) 0 - nth i (a :: r) 0 < dl) ->
  Rabs (trapezium (map (fun s => (F s, G s)) (a :: r)) - RInt w a (last r a)) <= eps * (F (last r a) - F a).
Proof.
  intros Hdl HU. induction r as [|b r IH]; intros a Ha S L GP.
  - cbn [map last trapezium]. assert (Z : RInt w a a = 0) by exact (RInt_point (V := R_CompleteNormedModule) a w). rewrite Z. replace (0 - 0) with 0 by ring. rewrite Rabs_R0. lra.
  - assert (AB : a <= b) by (apply (S 0%nat 1%nat); cbn; lia). assert (BT : b <= T) by (apply L; cbn; auto).
    assert (S' : sorted (b :: r)). { intros i j L1 L2. apply (S (Datatypes.S i) (Datatypes.S j)); cbn in *; lia. }
    specialize (IH b ltac:(lra) S' ltac:(intros s Hs; apply L; now right) ltac:(intros i Hi; apply (GP (Datatypes.S i)); cbn; lia)).
    assert (EL : last (b :: r) a = last r b) by apply last_default. rewrite EL. set (z := last r b) in *.
    assert (BZ : b <= z <= T).
    { assert (In z (b :: r)). { unfold z. rewrite <- (last_default r b 0). rewrite last_nth. apply nth_In. cbn. lia. }
      split; [|apply L; now right]. destruct (In_nth _ _ 0 H) as [i [Hi E]]. rewrite <- E. apply (S' 0%nat i); cbn in *; lia. }
    pose proof (GP 0%nat ltac:(cbn; lia)) as G0. cbn [nth] in G0.
    pose proof (panel a b eps Ha AB BT) as P. specialize (P ltac:(intros x y Hx Hy; apply HU; try lra; apply Rabs_def1; lra)).
    assert (CH : RInt w a z = RInt w a b + RInt w b z). { symmetry. apply (RInt_Chasles (V := R_CompleteNormedModule) w a b z); apply ex_w; lra. }
    rewrite CH. change (trapezium (map (fun s => (F s, G s)) (a :: b :: r))) with ((F b - F a) * (G a + G b) / 2 + trapezium (map (fun s => (F s, G s)) (b :: r))).
    set (t1 := (F b - F a) * (G a + G b) / 2) in *. set (t2 := trapezium (map (fun s => (F s, G s)) (b :: r))) in *.
    replace (t1 + t2 - (RInt w a b + RInt w b z)) with ((t1 - RInt w a b) + (t2 - RInt w b z)) by ring.
    eapply Rle_trans; [apply Rabs_triang|]. replace (eps * (F z - F a)) with (eps * (F b - F a) + eps * (F z - F b)) by ring. lra.
Qed.
(** [steps n] cuts [0,T] into pieces of at most T/(n-1) and ends at most T/(n-1) before T. *)
Definition good_steps (n : nat) (l : list R) : Prop := let h := T / INR (n - 1) in
  exists r, l = 0 :: r /\ sorted l /\ (forall s, In s l -> s <= T) /\ (forall i, (i < length r)%nat -> nth (S i) l 0 - nth i l 0 <= h) /\ T - last r 0 <= h.
Lemma trapezium_limit (steps : nat -> list R) : (forall n, (3 <= n)%nat -> good_steps n (steps n)) ->
  Un_cv (fun n => trapezium (map (fun s => (F s, w s / D s)) (steps n))) (RInt w 0 T).
Proof.
  intros HS eps He.
  assert (BD : exists M, 0 < M /\ forall s, 0 <= s <= T -> Rabs (w s) <= M).
  { destruct (bounded_continuity (K := R_AbsRing) (V := R_NormedModule) w 0 T) as [M HM]. { intros s Hs. now apply Cw. }
    exists (Rmax M 1). split; [eapply Rlt_le_trans; [|apply Rmax_r]; lra|]. intros s Hs. eapply Rle_trans; [|apply Rmax_l]. left. exact (HM s Hs). }
  destruct BD as [M [MP HM]].
  pose proof (F_mono 0 T ltac:(lra) ltac:(lra) ltac:(lra)) as FT. set (V := F T - F 0 + 1). assert (VP : 1 <= V) by (unfold V; lra).
  assert (E1 : 0 < eps / (2 * V)) by (apply Rdiv_lt_0_compat; lra). set (e1 := eps / (2 * V)) in *.
  destruct (Heine_cor2 (f := G) (a := 0) (b := T) cont_G (mkposreal e1 E1)) as [[dl Hdl] HU]. cbn [pos] in HU.
  set (q := Rmin dl (eps / (2 * M))). assert (QP : 0 < q) by (unfold q; apply Rmin_glb_lt; auto; apply Rdiv_lt_0_compat; lra).
  destruct (archimed_cor1 (q / T)) as [N [N1 N2]]; [now apply Rdiv_lt_0_compat|].
  exists (N + 3)%nat. intros n Hn. unfold R_dist.
  assert (HP : T / INR (n - 1) < q).
  { assert (INR N < INR (n - 1)) by (apply lt_INR; lia). assert (0 < INR N) by (apply lt_0_INR; lia).
    assert (/ INR (n - 1) < / INR N) by (apply Rinv_lt_contravar; nra). apply Rlt_trans with (T * / INR N); [apply Rmult_lt_compat_l; auto|].
    apply Rlt_le_trans with (T * (q / T)); [apply Rmult_lt_compat_l; auto|]. right. field. lra. }
  destruct (HS n ltac:(lia)) as [r [-> [S [L [GP LA]]]]]. set (h := T / INR (n - 1)) in *.
  assert (Q1 : q <= dl) by apply Rmin_l. assert (Q2 : q <= eps / (2 * M)) by apply Rmin_r.
  pose proof (panels e1 dl r Hdl ltac:(intros x y X Y Z; left; now apply HU) 0 ltac:(lra) S L ltac:(intros i Hi; specialize (GP i Hi); lra)) as P.
  fold G. set (z := last r 0) in *.
  assert (BZ : 0 <= z <= T).
  { assert (In z (0 :: r)). { unfold z. rewrite <- (last_default r 0 0). rewrite last_nth. apply nth_In. cbn. lia. }
    split; [|auto]. destruct (In_nth _ _ 0 H) as [i [Hi E]]. rewrite <- E. apply (S 0%nat i); cbn in *; lia. }
  assert (CH : RInt w 0 T = RInt w 0 z + RInt w z T). { symmetry. apply (RInt_Chasles (V := R_CompleteNormedModule) w 0 z T); apply ex_w; lra. }
  pose proof (abs_RInt_le_const w z T M ltac:(lra) ltac:(apply ex_w; lra) ltac:(intros s Hs; apply HM; lra)) as R.
  rewrite CH. change (fun s => (F s, w s / D s)) with (fun s => (F s, G s)). set (t := trapezium (map (fun s => (F s, G s)) (0 :: r))) in *.
  replace (t - (RInt w 0 z + RInt w z T)) with ((t - RInt w 0 z) + - RInt w z T) by ring.
  eapply Rle_lt_trans; [apply Rabs_triang|]. rewrite Rabs_Ropp.
  pose proof (F_mono z T ltac:(lra) ltac:(lra) ltac:(lra)) as FZ.
  assert (K1 : e1 * (F z - F 0) < eps / 2).
  { apply Rlt_le_trans with (e1 * V); [apply Rmult_lt_compat_l; unfold V; lra|]. unfold e1. right. field. lra. }
  assert (K2 : (T - z) * M < eps / 2).
  { apply Rlt_le_trans with (eps / (2 * M) * M); [apply Rmult_lt_compat_r; lra|]. right. field. lra. }
  lra.
Qed.
End Trapezium.

(** ** Time steps *)
Lemma good_lin T n : 0 < T -> (2 <= n)%nat -> good_steps T n (linR T n).
Proof.
  intros HT Hn. destruct (linR_cons T n ltac:(lia)) as [r E]. pose proof (linR_length T n) as LL. pose proof (linR_sorted T n ltac:(lra)) as S.
  assert (PI : 0 < INR (n - 1)) by (apply lt_0_INR; lia).
  exists r. split; [auto|]. split; [auto|]. split; [|split].
  - intros s Hs. apply linR_in in Hs. destruct Hs as [k [Hk ->]]. nra.
  - intros i Hi. rewrite E in LL. cbn in LL. rewrite !linR_nth by lia. rewrite S_INR. right. field. lra.
  - assert (EL : last r 0 = T).
    { rewrite <- (last_default r 0 0), last_nth. rewrite E in LL. cbn [length] in LL. rewrite <- E, linR_nth by lia. replace (length r) with (n - 1)%nat by lia. field. lra. }
    rewrite EL. assert (0 < T / INR (n - 1)) by (now apply Rdiv_lt_0_compat). lra.
Qed.
Lemma good_ecc tm t n : let T := Rmin (tm - yr / 10) t in 0 < T -> (3 <= n)%nat ->
  exists l, ecc_steps (Fin tm) (Fin t) n = map Fin l /\ good_steps T n l.
Proof.
  intros T HT Hn. unfold ecc_steps, t_before_ecc. rewrite nsub_fin, nmin_fin. fold T. rewrite linspace0_R.
  destruct (linR_cons T n ltac:(lia)) as [r E]. pose proof (linR_sorted T n ltac:(lra)) as S. pose proof (linR_length T n) as LL.
  assert (PN : forall i, (i < n)%nat -> nth i (0 :: r) 0 = INR i / INR (n - 1) * T) by (intros i Hi; rewrite <- E; apply linR_nth; lia).
  rewrite E in *. cbn [length] in LL.
  assert (B : forall s, In s (0 :: r) -> 0 <= s <= T).
  { intros s Hs. rewrite <- E in Hs. apply linR_in in Hs. destruct Hs as [k [Hk ->]]. split; nra. }
  rewrite clamp_row_fin by (intros s Hs; apply B; now right).
  exists (clampR (tm - yr / 10) r). split; [reflexivity|].
  destruct (clampR_spec (tm - yr / 10) r S) as [L [Z [S' [LE [KE KL]]]]]. set (lim := tm - yr / 10) in *. assert (TL : T <= lim) by apply Rmin_l.
  set (l := clampR lim r) in *. assert (PI : 0 < INR (n - 1)) by (apply lt_0_INR; lia). set (h := T / INR (n - 1)).
  assert (HP : 0 < h) by (now apply Rdiv_lt_0_compat).
  assert (NI : forall i, (i < n)%nat -> nth i (0 :: r) 0 = INR i * h) by (intros i Hi; rewrite PN by auto; unfold h; field; lra).
  assert (TH : T = INR (n - 1) * h) by (unfold h; field; lra).
  (* all but the last step are kept *)
  assert (A : forall i, (i < n - 1)%nat -> nth i l 0 = INR i * h).
  { intros i Hi. rewrite KE, NI; auto; try lia. rewrite NI by lia. apply Rlt_le_trans with T; auto. rewrite TH. apply Rmult_lt_compat_r; auto. apply lt_INR. lia. }
  assert (NL : INR (n - 2) * h <= nth (n - 1) l 0 <= T).
  { split.
    - rewrite <- (A (n - 2)%nat) by lia. apply S'; lia.
    - eapply Rle_trans; [apply LE; lia|]. apply B. apply nth_In. cbn. lia. }
  assert (N2 : INR (n - 1) = INR (n - 2) + 1) by (replace (n - 1)%nat with (Datatypes.S (n - 2)) by lia; apply S_INR).
  exists (map (fun u => if adm lim u then u else last_adm lim r) r). fold l. split; [reflexivity|]. split; [exact S'|]. split; [|split].
  - intros s Hs. destruct (In_nth _ _ 0 Hs) as [i [Hi Es]]. rewrite <- Es. eapply Rle_trans; [apply LE; lia|]. apply B. apply nth_In. cbn. lia.
  - intros i Hi. rewrite map_length in Hi. fold h. destruct (Nat.eq_dec (Datatypes.S i) (n - 1)) as [Q|Q].
    + rewrite Q, (A i) by lia. replace i with (n - 2)%nat by lia. rewrite TH, N2 in NL. lra.
    + rewrite !A by lia. rewrite S_INR. lra.
  - fold h. assert (EL : last (map (fun u => if adm lim u then u else last_adm lim r) r) 0 = nth (n - 1) l 0).
    { rewrite <- (last_default _ 0 0), last_nth, map_length. unfold l, clampR. f_equal. lia. }
    rewrite EL, TH, N2. lra.
Qed.

(** ** The integrand is the rate of growth of SNR^2 over the drift *)
Lemma evR_rate jv gi p mc d k f e g q : 0 < mc -> 0 < d -> 0 < f -> 0 <= e < 1 -> (1 <= k)%Z -> power_used jv gi k e g -> proper_noise p ->
  inverse_noise p (IZR k * f) q -> evR jv gi p mc d k (f, e) = h0R mc f d g k ^ 2 * q / fdotR mc f e k.
Proof.
  intros Hm Hd Hf He Hk Hg Hp HQ.
  destruct (ev_elem_fin jv gi p mc d k f e g) as [_ [[_ [hc [E1 E2]]] _]]; auto.
  cbn [fst snd] in *. rewrite (h_c_single_fin jv gi mc f e k d g None) in E1 by auto. cbn [ampR] in E1. rewrite sqrt_1, Rmult_1_l in E1. injection E1 as <-.
  pose proof (fdotR_pos mc f e k Hk Hm Hf He) as FP. pose proof (IZR_pos k Hk) as KP.
  destruct HQ as [[Es ->]|[s [Es ->]]]; rewrite Es in E2.
  - assert (Q : evR jv gi p mc d k (f, e) = 0) by (inversion E2; reflexivity). rewrite Q. field. lra.
  - assert (Q : evR jv gi p mc d k (f, e) = hcR mc f e d g k ^ 2 / ((IZR k * f) ^ 2 * s)) by (inversion E2; reflexivity). rewrite Q.
    assert (SP : 0 < s). { destruct (Hp (IZR k * f) ltac:(nra)) as [W|[s' [W P]]]; rewrite Es in W; [discriminate|]. injection W as ->. exact P. }
    destruct (g_value_used jv gi k e g Hk ltac:(lra) Hg) as [_ G1].
    pose proof (strain_identity mc f e d g k Hm Hf Hd He G1 Hk) as K.
    set (hc := hcR mc f e d g k) in *. set (h0 := h0R mc f d g k) in *. set (fd := fdotR mc f e k) in *.
    assert (0 < (IZR k * f) ^ 2) by (apply pow_lt; nra).
    apply (Rmult_eq_reg_r fd); [|lra]. replace (h0 ^ 2 * / s / fd * fd) with (((IZR k * f) ^ 2 * h0 ^ 2) / ((IZR k * f) ^ 2 * s)) by (field; repeat split; lra).
    rewrite <- K. field. repeat split; lra.
Qed.

(** ** Continuity along the track *)
Lemma cont_Rpower (u : R -> R) c s : continuous u s -> 0 < u s -> continuous (fun x => Rpower (u x) c) s.
Proof.
  intros C P. apply (continuous_comp u (fun y => Rpower y c)); auto. apply (ex_derive_continuous (K := R_AbsRing) (V := R_NormedModule) (fun y => Rpower y c)). unfold Rpower. auto_derive. auto.
Qed.
Lemma cont_const (c s : R) : continuous (fun _ : R => c) s.
Proof. apply continuous_const. Qed.
Lemma cont_mult (u v : R -> R) s : continuous u s -> continuous v s -> continuous (fun x => u x * v x) s.
Proof. intros A B. exact (continuous_mult (K := R_AbsRing) u v s A B). Qed.
Lemma cont_sqr (u : R -> R) s : continuous u s -> continuous (fun x => u x ^ 2) s.
Proof.
  intros C. assert (E : forall x, u x * u x = u x ^ 2) by (intros; ring). apply (continuous_ext (fun x => u x * u x) _ _ E). now apply cont_mult.
Qed.
Lemma cont_enh (e : R -> R) s : continuous e s -> 0 <= e s < 1 -> continuous (fun x => enhancement (e x)) s.
Proof.
  intros C He. apply (continuous_comp e enhancement); auto. apply (ex_derive_continuous (K := R_AbsRing) (V := R_NormedModule) enhancement).
  unfold enhancement. assert (P : 0 < 1 - e s ^ 2) by nra. pose proof (sqrt_lt_R0 _ P) as Q. auto_derive.
  replace (e s * (e s * 1)) with (e s ^ 2) by ring. split; [lra|]. split; auto. 
  assert (0 < sqrt (1 + - (e s ^ 2))) by (replace (1 + - e s ^ 2) with (1 - e s ^ 2) by ring; auto). apply (pow_nonzero _ 7). lra.
Qed.
Lemma cont_fdot mc (f e : R -> R) k s : continuous f s -> continuous e s -> 0 < f s -> 0 <= e s < 1 -> continuous (fun x => fdotR mc (f x) (e x) k) s.
Proof.
  intros Cf Ce Hf He. unfold fdotR. pose proof PI_RGT_0. apply cont_mult; [|now apply cont_enh]. apply cont_mult; [apply cont_const|].
  apply (cont_Rpower (fun x => 2 * PI * f x)); [|nra]. apply cont_mult; auto. apply cont_const.
Qed.
Lemma cont_h0 mc d (f g : R -> R) k s : continuous f s -> continuous g s -> 0 < f s -> continuous (fun x => h0R mc (f x) d (g x) k) s.
Proof.
  intros Cf Cg Hf. unfold h0R. pose proof PI_RGT_0. unfold Rdiv. apply cont_mult; [apply cont_mult; [apply cont_mult; [apply cont_const|]|apply cont_const]|].
  - apply (cont_Rpower (fun x => PI * f x)); [|nra]. apply cont_mult; auto. apply cont_const.
  - apply cont_mult; [|apply cont_const]. apply (continuous_comp g sqrt); auto. apply continuous_sqrt.
Qed.
Lemma Un_cv_sqrt (v : nat -> R) l : (forall n, 0 <= v n) -> 0 <= l -> Un_cv v l -> Un_cv (fun n => sqrt (v n)) (sqrt l).
Proof. intros Hv Hl H. apply is_lim_seq_Reals. apply is_lim_seq_Reals in H. apply (is_lim_seq_continuous sqrt v l); auto. apply continuity_pt_filterlim. apply continuous_sqrt. Qed.

(** ** Circular binaries *)
Lemma freqR_cont m1 m2 f s : 0 < m1 -> 0 < m2 -> 0 < f -> s < tmR (betaR m1 m2) (aR f m1 m2) -> continuous (freqR m1 m2 f) s.
Proof.
  intros H1 H2 Hf Hs. assert (E : forall u, / 2 * (2 * freqR m1 m2 f u) = freqR m1 m2 f u) by (intros; field).
  apply (continuous_ext (fun u => / 2 * (2 * freqR m1 m2 f u)) _ _ E). apply cont_mult; [apply cont_const|].
  apply (ex_derive_continuous (K := R_AbsRing) (V := R_NormedModule) (fun u => 2 * freqR m1 m2 f u)). eexists. now apply freqR_derive.
Qed.
Lemma circ_converges w jv gi quad m1 m2 mc f d t n0 tm aT sc kw p (fo h q : R -> R) : noise_curve w kw sc t p -> proper_noise p ->
  0 < m1 -> 0 < m2 -> 0 < f -> 0 < d -> (exists g, power_used jv gi 2 0 g) -> chirp_mass (Fin m1) (Fin m2) = Fin mc ->
  get_t_merge_circ_sc None (Some (Fin m1)) (Some (Fin m2)) None (Some (Fin f)) = Ok (Fin tm) ->
  let T := Rmin (tm - 1) t in 0 < T ->
  (forall s, 0 <= s <= T -> circ_call_freq quad m1 m2 f n0 [Fin s] ["f_orb"%string] = Ok (Single (E1 [Fin (fo s)]))) ->
  circ_call_freq quad m1 m2 f n0 [Fin T] ["a"%string] = Ok (Single (E1 [Fin aT])) -> tiny < aT -> fo T < 100 ->
  (forall s, 0 <= s <= T -> h_0_single jv gi mc (fo s) 0 2 d None = Ok [[[Fin (h s)]]]) ->
  (forall x, 2 * f <= x <= 2 * fo T -> inverse_noise p x (q x) /\ continuous q x) ->
  ex_RInt (fun s => h s ^ 2 * q (2 * fo s)) 0 T /\
  exists v : nat -> R, (forall n, (3 <= n)%nat -> snr_circ_evolving w jv gi quad [Fin m1] [Fin m2] [Fin f] [Fin d] (Fin t) n None sc kw = Ok [Fin (v n)]) /\
    Un_cv v (sqrt (RInt (fun s => h s ^ 2 * q (2 * fo s)) 0 T)).
Proof.
  intros Hp Hpp H1 H2 Hf Hd [g Hg] Hmc HT T TP HFO HA Ha HfT Hh Hq.
  rewrite chirp_mass_fin in Hmc by auto. injection Hmc as <-. set (mc := chirpR m1 m2) in *. assert (PC : 0 < mc) by apply chirpR_pos.
  rewrite merge_circ_sc_f in HT by auto. injection HT as HT.
  set (a0 := aR f m1 m2) in *. set (b := betaR m1 m2) in *. assert (Hb : 0 < b) by (now apply betaR_pos).
  assert (TT : T < tmR b a0). { assert (T <= tm - 1) by apply Rmin_l. lra. }
  rewrite circ_call_freq_a in HA by (auto; fold a0 b; lra). injection HA as HA. fold a0 b in HA. pose proof tiny_pos as TI.
  assert (AC : forall s, 0 <= s <= T -> aT <= acR a0 b s). { intros s Hs. rewrite <- HA. apply acR_anti; auto; lra. }
  assert (FO : forall s, 0 <= s <= T -> fo s = freqR m1 m2 f s).
  { intros s Hs. pose proof (HFO s Hs) as E. rewrite circ_call_freq_eq in E by (auto; fold a0 b; lra). fold a0 b in E.
    specialize (AC s Hs). rewrite freq_of_a_fin in E by (auto; lra). injection E as E. now rewrite <- E. }
  assert (F0 : freqR m1 m2 f 0 = f). { unfold freqR. rewrite acR_0; auto; [|apply aR_pos]. now apply fR_aR. }
  assert (MO : forall s u, s <= u -> u <= T -> freqR m1 m2 f s <= freqR m1 m2 f u).
  { intros s u Hsu Hu. unfold freqR. fold a0 b. apply fR_anti; auto; [apply acR_pos; auto; lra|]. apply acR_anti; auto. lra. }
  assert (FB : forall s, 0 <= s <= T -> f <= freqR m1 m2 f s <= fo T).
  { intros s Hs. rewrite (FO T) by lra. split; [rewrite <- F0 at 1|]; apply MO; lra. }
  assert (HH : forall s, 0 <= s <= T -> h s = h0R mc (freqR m1 m2 f s) d g 2).
  { intros s Hs. pose proof (Hh s Hs) as E. specialize (FB s Hs). rewrite (FO s Hs) in E. rewrite (h_0_single_fin jv gi mc (freqR m1 m2 f s) 0 2 d g None) in E by (auto; lra || lia).
    cbn [ampR] in E. rewrite sqrt_1, Rmult_1_l in E. injection E as E. auto. }
  set (y := fun s => h0R mc (freqR m1 m2 f s) d g 2 ^ 2 * q (2 * freqR m1 m2 f s)). set (D := fun s => fdotR mc (freqR m1 m2 f s) 0 2).
  assert (CF : forall s, 0 <= s <= T -> continuous (freqR m1 m2 f) s) by (intros s Hs; apply freqR_cont; auto; fold a0 b; lra).
  assert (HD : forall s, 0 <= s <= T -> 0 < D s) by (intros s Hs; specialize (FB s Hs); unfold D; apply fdotR_pos; lra || lia || auto).
  assert (CD : forall s, 0 <= s <= T -> continuous D s).
  { intros s Hs. specialize (FB s Hs). apply (cont_fdot mc (freqR m1 m2 f) (fun _ => 0)); auto; try lra. apply cont_const. }
  assert (CY : forall s, 0 <= s <= T -> continuous y s).
  { intros s Hs. specialize (FB s Hs). unfold y. apply cont_mult.
    - apply cont_sqr.
      assert (C : continuous (fun u => h0R mc (freqR m1 m2 f u) d g 2) s) by (apply (cont_h0 mc d (freqR m1 m2 f) (fun _ => g)); auto; try lra; apply cont_const). exact C.
    - apply (continuous_comp (fun u => 2 * freqR m1 m2 f u) q); [apply cont_mult; auto; apply cont_const|]. apply Hq. lra. }
  assert (EQ : forall s, Rmin 0 T < s < Rmax 0 T -> y s = h s ^ 2 * q (2 * fo s)).
  { intros s. rewrite Rmin_left, Rmax_right by lra. intros Hs. unfold y. now rewrite HH, FO by lra. }
  assert (EX : ex_RInt y 0 T) by (apply (ex_w T y CY); lra).
  split; [now apply (ex_RInt_ext (V := R_NormedModule) y)|]. rewrite <- (RInt_ext (V := R_CompleteNormedModule) y) by auto.
  set (tr := fun n => trapezium (map (fun s => (2 * freqR m1 m2 f s, y s / D s)) (linR T n))).
  assert (LIM : Un_cv tr (RInt y 0 T)).
  { apply trapezium_limit; auto. { intros s Hs. apply freqR_derive; auto. fold a0 b. lra. } intros n Hn. apply good_lin; auto. lia. }
  assert (IN : forall n s, In s (linR T n) -> 0 <= s <= T). { intros n s Hs. apply linR_in in Hs. destruct Hs as [k [Hk ->]]. split; nra. }
  assert (YP : forall s, 0 <= s <= T -> 0 <= y s).
  { intros s Hs. unfold y. apply Rmult_le_pos; [apply pow2_ge_0|]. specialize (FB s Hs). destruct (Hq (2 * freqR m1 m2 f s) ltac:(lra)) as [[[_ ->]|[x [Ex ->]]] _]; [lra|].
    destruct (Hpp (2 * freqR m1 m2 f s) ltac:(lra)) as [W|[x' [W P]]]; rewrite Ex in W; [discriminate|]. injection W as ->. left. now apply Rinv_0_lt_compat. }
  assert (TP0 : forall n, 0 <= tr n).
  { intros n. apply trapezium_nonneg.
    - rewrite map_map. cbn [fst]. intros i j Hij Hj. rewrite map_length in Hj. rewrite !(nth_map_in _ _ _ 0) by lia. apply Rmult_le_compat_l; [lra|].
      assert (I2 : 0 <= nth j (linR T n) 0 <= T) by (apply (IN n), nth_In; lia). apply MO; [|lra]. apply linR_sorted; auto; lra.
    - intros z Hz. apply in_map_iff in Hz. destruct Hz as [s [<- Hs]]. cbn [snd]. pose proof (IN n s Hs) as I. apply Rmult_le_pos; auto. left. apply Rinv_0_lt_compat. auto. }
  exists (fun n => sqrt (tr n)). split.
  2:{ apply Un_cv_sqrt; auto. apply RInt_ge_0; auto; [lra|]. intros s Hs. apply YP. lra. }
  intros n Hn.
  set (fs := map (freqR m1 m2 f) (linR T n)).
  assert (EF : circ_freqs (Fin m1) (Fin m2) (Fin f) (Fin T) n = map Fin fs).
  { unfold fs, freqR, a0, b. apply circ_freqs_real; auto. fold a0 b. intros s Hs. specialize (AC s (IN n s Hs)). lra. }
  assert (FL : forall x, In x fs -> f <= x <= fo T). { intros x Hx. apply in_map_iff in Hx. destruct Hx as [s [<- Hs]]. apply FB. now apply (IN n). }
  rewrite (default_merger_circ _ _ _ _ _ _ _ _ _ _ [Fin tm]).
  2:{ pose proof (get_t_merge_circ_map (fun _ : unit => Fin m1) (fun _ => Fin m2) (fun _ => Fin f) [tt]) as E. cbn [map] in E. rewrite E.
      rewrite get_a_fin, beta_fin, t_merge_circ_fin by auto. now rewrite <- HT. }
  rewrite circ_one with (p := p) by (auto; lia). rewrite chirp_mass_fin by auto. fold mc. unfold circ_track. rewrite nsub_fin, nmin_fin. fold T. rewrite EF.
  rewrite unmerged_id by (intros x Hx; specialize (FL x Hx); lra). rewrite map_map.
  assert (TR : forall q, In q (map (fun x => (x, 0)) fs) -> 0 < fst q /\ 0 <= snd q < 1 /\ exists g, power_used jv gi 2 (snd q) g).
  { intros z Hz. apply in_map_iff in Hz. destruct Hz as [x [<- Hx]]. cbn. specialize (FL x Hx). repeat split; eauto; lra. }
  pose proof (ev_snr2_fin jv gi p mc d 2 (map (fun x => (x, 0)) fs) PC Hd ltac:(lia) Hpp TR) as E. rewrite !map_map in E. cbn [fst snd] in E. rewrite E. clear E.
  rewrite (map_ext_in _ (fun x => (2 * x, h0R mc x d g 2 ^ 2 * q (2 * x) / fdotR mc x 0 2))).
  2:{ intros x Hx. specialize (FL x Hx). f_equal. apply evR_rate; auto; try lra; try lia. apply Hq. lra. }
  unfold fs. rewrite map_map. match goal with |- context [trapezium ?l] => change (trapezium l) with (tr n) end. rewrite nsqrt_fin by auto. reflexivity.
Qed.

(** ** Eccentric binaries *)
Lemma Un_cv_Rsum (ks : list Z) (u : Z -> nat -> R) (l : Z -> R) : (forall k, In k ks -> Un_cv (u k) (l k)) ->
  Un_cv (fun n => Rsum (map (fun k => u k n) ks)) (Rsum (map l ks)).
Proof.
  induction ks as [|k ks IH]; intros H; cbn [map].
  - intros eps He. exists 0%nat. intros n _. unfold R_dist. rewrite Rminus_diag_eq, Rabs_R0; auto.
  - rewrite Rsum_cons. pose proof (CV_plus _ _ _ _ (H k (or_introl eq_refl)) (IH ltac:(intros; apply H; now right))) as P.
    intros eps He. destruct (P eps He) as [N HN]. exists N. intros n Hn. rewrite Rsum_cons. now apply HN.
Qed.
Lemma ecc_converges w jv gi quad odeint sched np m1 m2 mc f d e0 hr t tmo tm b a0 c0 aT sc kw p (e fo q : R -> R) (g h : Z -> R -> R) :
  noise_curve w kw sc t p -> proper_noise p -> odeint_shape odeint -> odeint_exact odeint -> ((1 < np)%nat -> complete_schedule 1 sched) ->
  0 < m1 -> 0 < m2 -> 0 < f -> 0 < d -> 0 < e0 < 1 -> chirp_mass (Fin m1) (Fin m2) = Fin mc ->
  (forall k x, (1 <= k)%Z -> 0 < x < 1 -> power_used jv gi k x (g k x) /\ continuous (g k) x) ->
  beta (Fin m1) (Fin m2) = Fin b -> get_a_from_f_orb (Fin f) (Fin m1) (Fin m2) = Fin a0 -> c_0 (Fin a0) (Fin e0) = Fin c0 ->
  merger_time_used quad m1 m2 f e0 tm tmo ->
  let T := Rmin (tm - year / 10) t in 0 < T -> e 0 = e0 -> follows_de_dt b c0 T e ->
  (forall s, 0 <= s <= T -> exists a, get_a_from_ecc (Fin (e s)) (Fin c0) = Fin a /\ get_f_orb_from_a (Fin a) (Fin m1) (Fin m2) = Fin (fo s)) ->
  get_a_from_ecc (Fin (e T)) (Fin c0) = Fin aT -> tiny < aT -> fo T < 100 ->
  (forall k s, (1 <= k)%Z -> 0 <= s <= T -> h_0_single jv gi mc (fo s) (e s) k d None = Ok [[[Fin (h k s)]]]) ->
  (forall k x, (1 <= k <= Z.of_nat hr)%Z -> IZR k * f <= x <= IZR k * fo T -> inverse_noise p x (q x) /\ continuous q x) ->
  (forall k, (1 <= k <= Z.of_nat hr)%Z -> ex_RInt (fun s => h k s ^ 2 * q (IZR k * fo s)) 0 T) /\
  exists v : nat -> R,
    (forall n, (3 <= n)%nat -> snr_ecc_evolving w jv gi quad odeint sched [Fin m1] [Fin m2] [Fin f] [Fin d] [Fin e0] hr (Fin t) n tmo sc np false false kw = Ok (Snr [Fin (v n)])) /\
    Un_cv v (sqrt (Rsum (map (fun k => RInt (fun s => h k s ^ 2 * q (IZR k * fo s)) 0 T) (map Z.of_nat (seq 1 hr))))).
Proof.
  intros Hp Hpp Hsh HO Hsc H1 H2 Hf Hd He Hmc Hg Eb Ea Ec HM T TP E0 HF HFO EaT HaT HfT Hh Hq.
  rewrite chirp_mass_fin in Hmc by auto. injection Hmc as <-. set (mc := chirpR m1 m2) in *. assert (PC : 0 < mc) by apply chirpR_pos.
  rewrite beta_fin in Eb by auto. apply Fin_inj in Eb. subst b. rewrite get_a_fin in Ea by auto. apply Fin_inj in Ea.
  rewrite c_0_fin in Ec by auto. apply Fin_inj in Ec. subst a0. assert (Hc : 0 < c0) by (rewrite <- Ec; apply c0R_pos; auto using aR_pos). pose proof tiny_pos as TI.
  assert (EB : forall s, 0 <= s <= T -> 0 < e s < 1) by (intros s Hs; now apply (HF s Hs)).
  rewrite get_a_from_ecc_fin in EaT by (apply EB || auto; lra). apply Fin_inj in EaT. subst aT.
  destruct (trajectory_rates_thm m1 m2 (betaR m1 m2) T c0 e H1 H2 Hc ltac:(now apply beta_fin) HF) as [a [A1 [A2 A3]]].
  assert (AE : forall s, 0 <= s <= T -> a s = aeR (e s) c0).
  { intros s Hs. pose proof (A1 s Hs) as E. rewrite get_a_from_ecc_fin in E by auto. apply Fin_inj in E. auto. }
  assert (AP : forall s, 0 <= s <= T -> 0 < a s) by (intros s Hs; now apply (A2 s Hs)).
  set (F := fun s => fR (a s) m1 m2).
  assert (FO : forall s, 0 <= s <= T -> fo s = F s).
  { intros s Hs. destruct (HFO s Hs) as [x [X1 X2]]. rewrite (A1 s Hs) in X1. apply Fin_inj in X1. subst x. rewrite get_f_fin in X2 by auto. apply Fin_inj in X2. auto. }
  assert (F0 : F 0 = f). { unfold F. rewrite AE, E0, <- Ec by lra. rewrite aeR_c0R by (auto using aR_pos). now apply fR_aR. }
  assert (MO : forall s u, 0 <= s -> s <= u -> u <= T -> F s <= F u).
  { intros s u A [L| ->] C; [|lra]. unfold F. apply fR_anti; auto; [apply AP; lra|]. left. now apply A3. }
  assert (FB : forall s, 0 <= s <= T -> f <= F s <= fo T).
  { intros s Hs. rewrite (FO T) by lra. split; [rewrite <- F0|]; apply MO; lra. }
  assert (HH : forall k s, (1 <= k)%Z -> 0 <= s <= T -> h k s = h0R mc (F s) d (g k (e s)) k).
  { intros k s Hk Hs. pose proof (Hh k s Hk Hs) as E. specialize (FB s Hs). specialize (EB s Hs). rewrite (FO s Hs) in E.
    rewrite (h_0_single_fin jv gi mc (F s) (e s) k d (g k (e s)) None) in E by (auto; try lra; apply Hg; auto).
    cbn [ampR] in E. rewrite sqrt_1, Rmult_1_l in E. injection E as E. auto. }
  set (y := fun k s => h0R mc (F s) d (g k (e s)) k ^ 2 * q (IZR k * F s)). set (D := fun k s => fdotR mc (F s) (e s) k).
  assert (DF : forall k s, (1 <= k)%Z -> 0 <= s <= T -> is_derive (fun u => IZR k * F u) s (D k s)).
  { intros k s Hk Hs. destruct (A2 s Hs) as [P1 [P2 [P3 _]]].
    destruct (fn_dot_is_derivative a F (e s) s m1 m2 k H1 H2 P2 Hk P1 P3) as [mc' [dd [Q1 [Q2 [_ Q3]]]]].
    { pose proof (is_derive_pos_loc _ s _ P1 P3) as L. revert L. apply filter_imp. intros u Hu. now apply get_f_fin. }
    rewrite chirp_mass_fin in Q1 by auto. injection Q1 as <-. fold mc in Q2.
    unfold fn_dot in Q2. cbn [existsb] in Q2. destruct (Z.ltb_spec k 1); [lia|]. cbn [orb map] in Q2. rewrite fn_dot_elem_fin in Q2; auto; [|apply fR_pos|lra].
    injection Q2 as <-. exact Q3. }
  assert (Ce : forall s, 0 <= s <= T -> continuous e s).
  { intros s Hs. destruct (HF s Hs) as [_ [dd [_ DD]]]. apply (ex_derive_continuous (K := R_AbsRing) (V := R_NormedModule) e). now exists dd. }
  assert (CF : forall s, 0 <= s <= T -> continuous F s).
  { intros s Hs. assert (E : forall u, IZR 1 * F u = F u) by (intros; change (IZR 1) with 1; ring).
    apply (continuous_ext (fun u => IZR 1 * F u) _ _ E).
    apply (ex_derive_continuous (K := R_AbsRing) (V := R_NormedModule) (fun u => IZR 1 * F u)). eexists. apply DF; auto; lia. }
  assert (HD : forall k s, (1 <= k)%Z -> 0 <= s <= T -> 0 < D k s).
  { intros k s Hk Hs. specialize (FB s Hs). specialize (EB s Hs). unfold D. apply fdotR_pos; auto; lra. }
  assert (CD : forall k s, (1 <= k)%Z -> 0 <= s <= T -> continuous (D k) s).
  { intros k s Hk Hs. specialize (FB s Hs). specialize (EB s Hs). apply (cont_fdot mc F e); auto; lra. }
  assert (CY : forall k s, (1 <= k <= Z.of_nat hr)%Z -> 0 <= s <= T -> continuous (y k) s).
  { intros k s Hk Hs. specialize (FB s Hs). specialize (EB s Hs). pose proof (IZR_pos k ltac:(lia)) as KP. unfold y. apply cont_mult.
    - apply cont_sqr. apply (cont_h0 mc d F (fun u => g k (e u))); auto; [|lra]. apply (continuous_comp e (g k)); auto. apply Hg; auto. lia.
    - apply (continuous_comp (fun u => IZR k * F u) q); [apply cont_mult; auto; apply cont_const|]. apply (Hq k); auto. split; apply Rmult_le_compat_l; lra. }
  assert (EQ : forall k s, (1 <= k)%Z -> Rmin 0 T < s < Rmax 0 T -> y k s = h k s ^ 2 * q (IZR k * fo s)).
  { intros k s Hk. rewrite Rmin_left, Rmax_right by lra. intros Hs. unfold y. now rewrite HH, FO by (auto; lra). }
  assert (EX : forall k, (1 <= k <= Z.of_nat hr)%Z -> ex_RInt (y k) 0 T) by (intros k Hk; apply (ex_w T (y k) ltac:(intros; now apply CY)); lra).
  split. { intros k Hk. apply (ex_RInt_ext (V := R_NormedModule) (y k)); [|now apply EX]. intros s. apply EQ. lia. }
  fold (arange1 hr).
  replace (map (fun k => RInt (fun s => h k s ^ 2 * q (IZR k * fo s)) 0 T) (arange1 hr)) with (map (fun k => RInt (y k) 0 T) (arange1 hr)).
  2:{ apply map_ext_in. intros k Hk. apply arange1_in in Hk. apply (RInt_ext (V := R_CompleteNormedModule)). intros s. apply EQ. lia. }
  assert (GS : forall n, (3 <= n)%nat -> exists l, ecc_steps (Fin tm) (Fin t) n = map Fin l /\ good_steps T n l).
  { intros n Hn. unfold T. rewrite year_yr. apply good_ecc; auto. rewrite <- year_yr. exact TP. }
  set (st := fun n => map (fun x => match x with Fin r => r | _ => 0 end) (ecc_steps (Fin tm) (Fin t) n)).
  assert (ST : forall n, (3 <= n)%nat -> ecc_steps (Fin tm) (Fin t) n = map Fin (st n) /\ good_steps T n (st n)).
  { intros n Hn. destruct (GS n Hn) as [l [L1 L2]]. assert (SE : st n = l) by (unfold st; rewrite L1, map_map; apply map_id). rewrite SE. auto. }
  set (tr := fun k n => trapezium (map (fun s => (IZR k * F s, y k s / D k s)) (st n))).
  assert (LIM : forall k, In k (arange1 hr) -> Un_cv (tr k) (RInt (y k) 0 T)).
  { intros k Hk. apply arange1_in in Hk. apply (trapezium_limit T (fun u => IZR k * F u) (D k) (y k)); auto.
    - intros s Hs. apply DF; auto; lia.
    - intros s Hs. apply HD; auto; lia.
    - intros s Hs. apply CD; auto; lia.
    - intros n Hn. now apply ST. }
  assert (YP : forall k s, (1 <= k <= Z.of_nat hr)%Z -> 0 <= s <= T -> 0 <= y k s).
  { intros k s Hk Hs. unfold y. apply Rmult_le_pos; [apply pow2_ge_0|]. specialize (FB s Hs). pose proof (IZR_pos k ltac:(lia)) as KP.
    destruct (Hq k (IZR k * F s) Hk ltac:(split; apply Rmult_le_compat_l; lra)) as [[[_ ->]|[x [Ex ->]]] _]; [lra|].
    destruct (Hpp (IZR k * F s) ltac:(apply Rmult_lt_0_compat; lra)) as [W|[x' [W P]]]; rewrite Ex in W; [discriminate|]. injection W as ->. left. now apply Rinv_0_lt_compat. }
  assert (IN : forall n s, (3 <= n)%nat -> In s (st n) -> 0 <= s <= T).
  { intros n s Hn Hs. destruct (ST n Hn) as [_ [r [R1 [R2 [R3 _]]]]]. split; [|auto]. destruct (In_nth _ _ 0 Hs) as [i [Hi E]]. rewrite <- E.
    replace 0 with (nth 0 (st n) 0) at 1 by (rewrite R1; reflexivity). apply R2; lia. }
  assert (TP0 : forall k n, (1 <= k <= Z.of_nat hr)%Z -> (3 <= n)%nat -> 0 <= tr k n).
  { intros k n Hk Hn. pose proof (IZR_pos k ltac:(lia)) as KP. destruct (ST n Hn) as [_ [r [R1 [R2 [R3 _]]]]]. apply trapezium_nonneg.
    - rewrite map_map. cbn [fst]. intros i j Hij Hj. rewrite map_length in Hj. rewrite !(nth_map_in _ _ _ 0) by lia. apply Rmult_le_compat_l; [lra|].
      assert (I1 : 0 <= nth i (st n) 0 <= T) by (apply (IN n); auto; apply nth_In; lia). assert (I2 : 0 <= nth j (st n) 0 <= T) by (apply (IN n); auto; apply nth_In; lia).
      apply MO; try lra. now apply R2.
    - intros z Hz. apply in_map_iff in Hz. destruct Hz as [s [<- Hs]]. cbn [snd]. pose proof (IN n s Hn Hs) as I. apply Rmult_le_pos; auto. left. apply Rinv_0_lt_compat. apply HD; auto; lia. }
  assert (SP : forall n, (3 <= n)%nat -> 0 <= Rsum (map (fun k => tr k n) (arange1 hr))).
  { intros n Hn. apply Rsum_map_nonneg. intros k Hk. apply arange1_in in Hk. now apply TP0. }
  exists (fun n => sqrt (Rsum (map (fun k => tr k n) (arange1 hr)))). split.
  - intros n Hn. rewrite (merger_time_replace _ _ _ _ _ _ _ _ _ _ _ _ _ _ _ tm) by auto.
    destruct (ST n Hn) as [S1 [r [R1 [R2 [R3 _]]]]].
    destruct (ecc_track_real odeint m1 m2 f e0 (Fin tm) (Fin t) n T e r) as [TR _]; auto; try lra.
    { rewrite Ec. exact HF. } { now rewrite S1, R1. } { now rewrite <- R1. } { intros s Hs. apply R3. rewrite R1. now right. } { now rewrite Ec. } { rewrite Ec. rewrite <- AE by lra. fold (F T). rewrite <- FO by lra. exact HfT. }
    rewrite Ec, <- R1 in TR.
    rewrite ecc_one with (p := p) by (auto; lra || lia). rewrite chirp_mass_fin by auto. fold mc. rewrite TR.
    assert (CO : combine (map (fun s => fR (aeR (e s) c0) m1 m2) (st n)) (map e (st n)) = map (fun s => (F s, e s)) (st n)).
    { rewrite (map_ext_in (fun s => fR (aeR (e s) c0) m1 m2) F). 2:{ intros s Hs. unfold F. rewrite AE; auto. now apply (IN n). }
      clear. induction (st n) as [|s l IH]; auto. cbn [map combine]. now rewrite IH. }
    rewrite CO.
    assert (V : forall k, In k (arange1 hr) -> ev_snr2 jv gi p (Fin mc) (Fin d) (map (fun q => (Fin (fst q), Fin (snd q))) (map (fun s => (F s, e s)) (st n))) k = Fin (tr k n)).
    { intros k Hk. apply arange1_in in Hk. rewrite (ev_snr2_fin jv gi p mc d k) ; auto; try lia.
      2:{ intros z Hz. apply in_map_iff in Hz. destruct Hz as [s [<- Hs]]. cbn. pose proof (IN n s Hn Hs) as I. specialize (FB s I). specialize (EB s I). repeat split; try lra. eexists. apply Hg; auto. lia. }
      f_equal. unfold tr. f_equal. rewrite map_map. apply map_ext_in. intros s Hs. cbn [fst]. f_equal.
      pose proof (IN n s Hn Hs) as I. specialize (FB s I). specialize (EB s I). pose proof (IZR_pos k ltac:(lia)) as KP.
      apply evR_rate; auto; try lra; try lia. { apply Hg; auto; lia. } apply (Hq k); auto. split; apply Rmult_le_compat_l; lra. }
    rewrite (map_ext_in _ (fun k => Fin (tr k n))) by exact V. unfold returned. cbn [map]. rewrite <- (map_map (fun k => tr k n) Fin), nsum_fin, nsqrt_fin; auto.
  - assert (L0 : 0 <= Rsum (map (fun k => RInt (y k) 0 T) (arange1 hr))).
    { apply Rsum_map_nonneg. intros k Hk. apply arange1_in in Hk. apply RInt_ge_0; [lra|now apply EX|]. intros s Hs. apply YP; auto. lra. }
    pose proof (Un_cv_Rsum (arange1 hr) tr (fun k => RInt (y k) 0 T) LIM) as U.
    pose proof (Un_cv_sqrt (fun n => Rmax 0 (Rsum (map (fun k => tr k n) (arange1 hr)))) _ ltac:(intros; apply Rmax_l) L0) as W.
    assert (U' : Un_cv (fun n => Rmax 0 (Rsum (map (fun k => tr k n) (arange1 hr)))) (Rsum (map (fun k => RInt (y k) 0 T) (arange1 hr)))).
    { intros eps He'. destruct (U eps He') as [N HN]. exists (N + 3)%nat. intros n Hn. rewrite Rmax_right by (apply SP; lia). apply HN. lia. }
    specialize (W U'). intros eps He'. destruct (W eps He') as [N HN]. exists (N + 3)%nat. intros n Hn. specialize (HN n ltac:(lia)). rewrite Rmax_right in HN by (apply SP; lia). exact HN.
Qed.

(** ** Two white dwarfs at 1 mHz with flat noise *)
Definition flat_gi : option (Z -> num -> num) := Some (fun n _ => Fin (/ IZR n)).
Lemma flat_power jv k x : (1 <= k)%Z -> power_used jv flat_gi k x (/ IZR k).
Proof. intros Hk. exists (/ IZR k). split; [reflexivity|]. rewrite Rmax_left; auto. left. apply Rinv_0_lt_compat. now apply IZR_pos. Qed.
Lemma early_circ_track jv : exists quad mc tm aT (fo h : R -> R), chirp_mass (Fin 1e30) (Fin 1e30) = Fin mc /\
  get_t_merge_circ_sc None (Some (Fin 1e30)) (Some (Fin 1e30)) None (Some (Fin 1e-3)) = Ok (Fin tm) /\
  let T := Rmin (tm - 1) (4 * year) in 0 < T /\
  (forall s, 0 <= s <= T -> circ_call_freq quad 1e30 1e30 1e-3 100 [Fin s] ["f_orb"%string] = Ok (Single (E1 [Fin (fo s)]))) /\
  circ_call_freq quad 1e30 1e30 1e-3 100 [Fin T] ["a"%string] = Ok (Single (E1 [Fin aT])) /\ tiny < aT /\ fo T < 100 /\
  (forall s, 0 <= s <= T -> h_0_single jv flat_gi mc (fo s) 0 2 1e20 None = Ok [[[Fin (h s)]]]).
Proof.
  destruct early_circ as [tm [aT [fT [quad [HT [Htm [HA [Ha [HF HfT]]]]]]]]]. assert (H1 : 0 < 1e30) by lra. assert (Hf : 0 < 1e-3) by lra.
  set (m := 1e30) in *. set (f := 1e-3) in *. clearbody m f.
  exists quad, (chirpR m m), tm, aT, (freqR m m f), (fun s => h0R (chirpR m m) (freqR m m f s) 1e20 (/ 2) 2).
  split; [now apply chirp_mass_fin|]. split; [exact HT|]. cbv zeta. set (T := Rmin (tm - 1) (4 * year)) in *.
  assert (TP : 0 < T) by (apply Rmin_glb_lt; [lra|unfold year; lra]). split; auto.
  rewrite merge_circ_sc_f in HT by auto. injection HT as HT. assert (TT : T < tmR (betaR m m) (aR f m m)) by (assert (T <= tm - 1) by apply Rmin_l; lra).
  assert (HA' := HA). rewrite circ_call_freq_a in HA' by (auto; lra). injection HA' as HA'. pose proof (betaR_pos m m H1 H1) as Hb. pose proof tiny_pos as TI.
  assert (AC : forall s, 0 <= s <= T -> aT <= acR (aR f m m) (betaR m m) s). { intros s Hs. rewrite <- HA'. apply acR_anti; auto; lra. }
  assert (K : forall s, 0 <= s <= T -> circ_call_freq quad m m f 100 [Fin s] ["f_orb"%string] = Ok (Single (E1 [Fin (freqR m m f s)]))).
  { intros s Hs. rewrite circ_call_freq_eq by (auto; lra). specialize (AC s Hs). rewrite freq_of_a_fin by (auto; lra). reflexivity. }
  split; [exact K|]. split; [exact HA|]. split; [exact Ha|]. split.
  - rewrite K in HF by lra. injection HF as HF. now rewrite HF.
  - intros s Hs. rewrite (h_0_single_fin jv flat_gi _ _ 0 2 1e20 (/ 2) None); try lra; try lia; [|apply chirpR_pos|apply fR_pos|apply flat_power; lia].
    cbn [ampR]. now rewrite sqrt_1, Rmult_1_l.
Qed.
Lemma early_ecc_track jv : let e0 := 1/10 in let t := year / 2 in let tm := year in let T := Rmin (tm - year / 10) t in
  (forall k x, (1 <= k)%Z -> 0 < x < 1 -> power_used jv flat_gi k x (/ IZR k) /\ continuous (fun _ : R => / IZR k) x) /\
  exists mc b a0 c0 aT (e fo : R -> R) (h : Z -> R -> R), chirp_mass (Fin 1e30) (Fin 1e30) = Fin mc /\
  beta (Fin 1e30) (Fin 1e30) = Fin b /\ get_a_from_f_orb (Fin 1e-3) (Fin 1e30) (Fin 1e30) = Fin a0 /\ c_0 (Fin a0) (Fin e0) = Fin c0 /\
  0 < T /\ e 0 = e0 /\ follows_de_dt b c0 T e /\
  (forall s, 0 <= s <= T -> exists a, get_a_from_ecc (Fin (e s)) (Fin c0) = Fin a /\ get_f_orb_from_a (Fin a) (Fin 1e30) (Fin 1e30) = Fin (fo s)) /\
  get_a_from_ecc (Fin (e T)) (Fin c0) = Fin aT /\ tiny < aT /\ fo T < 100 /\
  (forall k s, (1 <= k)%Z -> 0 <= s <= T -> h_0_single jv flat_gi mc (fo s) (e s) k 1e20 None = Ok [[[Fin (h k s)]]]).
Proof.
  cbv zeta. split. { intros k x Hk Hx. split; [now apply flat_power|apply cont_const]. }
  destruct early_ecc as [b [a0 [c0 [e [aT [fT [EB [EA [EC [TP [E0 [HF [EaT [HaT [EfT HfT]]]]]]]]]]]]]]]. cbv zeta in *.
  assert (H1 : 0 < 1e30) by lra. assert (Hf : 0 < 1e-3) by lra. set (m := 1e30) in *. set (f := 1e-3) in *. clearbody m f. set (T := Rmin (year - year / 10) (year / 2)) in *.
  assert (EA' := EA). rewrite get_a_fin in EA' by auto. apply Fin_inj in EA'. assert (EC' := EC). rewrite c_0_fin in EC' by lra. apply Fin_inj in EC'.
  assert (Hc : 0 < c0) by (rewrite <- EC', <- EA'; apply c0R_pos; auto using aR_pos; lra).
  exists (chirpR m m), b, a0, c0, aT, e, (fun s => fR (aeR (e s) c0) m m), (fun k s => h0R (chirpR m m) (fR (aeR (e s) c0) m m) 1e20 (/ IZR k) k).
  assert (EBd : forall s, 0 <= s <= T -> 0 < e s < 1) by (intros s Hs; now apply (HF s Hs)).
  split; [now apply chirp_mass_fin|]. repeat (split; [assumption|]). split; [|split; [assumption|split; [assumption|split]]].
  - intros s Hs. exists (aeR (e s) c0). split; [now apply get_a_from_ecc_fin; auto|]. apply get_f_fin; auto. apply aeR_pos; auto.
  - rewrite get_a_from_ecc_fin in EaT by (auto; apply EBd; lra). apply Fin_inj in EaT. rewrite EaT. pose proof tiny_pos. rewrite get_f_fin in EfT by (auto; lra). apply Fin_inj in EfT. now rewrite EfT.
  - intros k s Hk Hs. specialize (EBd s Hs). rewrite (h_0_single_fin jv flat_gi _ _ (e s) k 1e20 (/ IZR k) None); try lra; auto; [|apply chirpR_pos|apply fR_pos|now apply flat_power].
    cbn [ampR]. now rewrite sqrt_1, Rmult_1_l.
Qed.
