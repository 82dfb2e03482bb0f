(** LongerSnr.v -- stationary SNRs and the observing time (C121). *)
From Coq Require Import String Reals ZArith List Lra Lia.
From Verif Require Import Num NumFacts Np Utils Spec UtilsFacts EvolSpec Evol Strain StrainSpec StrainFacts Psd PsdSpec PsdFacts PsdThms Snr SnrSpec SnrFacts SnrThms SnrThms2
  HarmonicSums SnrThms3 SnrThms4 ZeroFacts LongerSpec LongerFacts.
Import ListNotations.
Open Scope R_scope.

Lemma sns_more h t t' P P' v v' : signal_to_noise_squared h t P v -> signal_to_noise_squared h t' P' v' ->
  (P = PInf \/ exists s, P = Fin s /\ 0 < s) -> (P' = PInf \/ exists s, P' = Fin s /\ 0 < s) -> nle P' P = true -> 0 <= t <= t' -> v <= v'.
Proof.
  intros A B HP HP' L Ht. rewrite (sns_value _ _ _ _ A), (sns_value _ _ _ _ B). pose proof (pow2_ge_0 h) as H2.
  destruct HP as [->|(s & -> & Hs)], HP' as [->|(s' & -> & Hs')].
  - lra.
  - assert (0 < / s') by now apply Rinv_0_lt_compat. assert (0 <= h ^ 2 * t') by (apply Rmult_le_pos; lra). rewrite Rmult_0_r. apply Rmult_le_pos; lra.
  - discriminate.
  - apply nle_fin in L. apply Rmult_le_compat; [apply Rmult_le_pos; lra|left; now apply Rinv_0_lt_compat|apply Rmult_le_compat_l; lra|now apply Rinv_le_contravar].
Qed.
Lemma longer_ecc w w' jv gi X (m f e d : X -> R) xs t t' hr sc sc' kw kw' p p' :
  noise_curve w kw sc t p -> noise_curve w' kw' sc' t' p' -> proper_noise p -> proper_noise p' -> 0 <= t <= t' -> nowhere_higher p' p ->
  (forall x, In x xs -> good_source jv gi (m x) (f x) (e x) (d x)) ->
  exists s s' : X -> R,
    snr_ecc_stationary w jv gi (map (fun x => Fin (m x)) xs) (map (fun x => Fin (f x)) xs) (map (fun x => Fin (e x)) xs)
      (map (fun x => Fin (d x)) xs) (Fin t) hr sc false false kw = Ok (Snr (map (fun x => Fin (s x)) xs)) /\
    snr_ecc_stationary w' jv gi (map (fun x => Fin (m x)) xs) (map (fun x => Fin (f x)) xs) (map (fun x => Fin (e x)) xs)
      (map (fun x => Fin (d x)) xs) (Fin t') hr sc' false false kw' = Ok (Snr (map (fun x => Fin (s' x)) xs)) /\
    forall x, In x xs -> 0 <= s x <= s' x.
Proof.
  intros Hp Hp' Hq Hq' Ht HS G.
  destruct (stationary_formula w jv gi X m f e d xs t hr sc kw p Hp Hq ltac:(lra) G) as (v & _ & V & T).
  destruct (stationary_formula w' jv gi X m f e d xs t' hr sc' kw' p' Hp' Hq' ltac:(lra) G) as (v' & _ & V' & T').
  exists (fun x => sqrt (Rsum (map (v x) (map Z.of_nat (seq 1 hr))))), (fun x => sqrt (Rsum (map (v' x) (map Z.of_nat (seq 1 hr))))).
  split; [exact V|]. split; [exact V'|]. intros x Hx. split; [apply sqrt_pos|]. apply sqrt_le_1_alt.
  assert (L : forall n, In n (map Z.of_nat (seq 1 hr)) -> v x n <= v' x n).
  { intros n I. apply in_map_iff in I. destruct I as (j & <- & I). apply in_seq in I. assert (Hn : (1 <= Z.of_nat j <= Z.of_nat hr)%Z) by lia.
    destruct (T x _ Hx Hn) as (_ & h & H & S). destruct (T' x _ Hx Hn) as (_ & h' & H' & S'). assert (h' = h) by congruence. subst h'.
    destruct (G x Hx) as (_ & B & _). assert (N : 0 < IZR (Z.of_nat j) * f x) by (apply Rmult_lt_0_compat; [apply IZR_lt; lia|auto]).
    exact (sns_more _ _ _ _ _ _ _ S S' (Hq _ N) (Hq' _ N) (HS _ N) Ht). }
  revert L. generalize (map Z.of_nat (seq 1 hr)). intros l. induction l as [|n l IH]; intros L; cbn [map]; [lra|]. rewrite !Rsum_cons.
  pose proof (L n (or_introl eq_refl)). assert (forall k, In k l -> v x k <= v' x k) by (intros k K; apply L; now right). specialize (IH H0). lra.
Qed.
Lemma circ_formula jv gi X (m f d : X -> R) (o : option (X -> angles)) xs g : power_used jv gi 2 0 g -> (forall x, In x xs -> 0 < m x /\ 0 < f x /\ 0 < d x) ->
  forall w kw sc p t, noise_curve w kw sc t p -> proper_noise p -> 0 <= t ->
  exists S : X -> R, snr_circ_stationary w jv gi (map (fun x => Fin (m x)) xs) (map (fun x => Fin (f x)) xs) (map (fun x => Fin (d x)) xs) (Fin t)
    (pop_sky xs o) sc kw = Ok (map (fun x => Fin (sqrt (S x))) xs) /\
    forall x, In x xs -> signal_to_noise_squared (sqrt (ampR (option_map (fun g => g x) o)) * h0R (m x) (f x) (d x) g 2) t (p (Fin (IZR 2 * f x))) (S x).
Proof.
  intros Hg HX w kw sc p t Hp Hq Ht.
  set (S x := match st_elem jv gi (Fin t) p (Fin (m x)) (Fin (f x)) (Fin 0) (Fin (d x)) (pop_amp o x) 2 with Fin r => r | _ => 0 end).
  assert (V : forall x, In x xs -> st_elem jv gi (Fin t) p (Fin (m x)) (Fin (f x)) (Fin 0) (Fin (d x)) (pop_amp o x) 2 = Fin (S x) /\ 0 <= S x /\
     signal_to_noise_squared (sqrt (ampR (option_map (fun g => g x) o)) * h0R (m x) (f x) (d x) g 2) t (p (Fin (IZR 2 * f x))) (S x)).
  { intros x Hx. destruct (HX x Hx) as [A [B C]].
    destruct (st_elem_fin jv gi t p (m x) (f x) 0 (d x) 2 g (option_map (fun g => g x) o) A B C ltac:(lra) ltac:(lia) Hg Ht Hq) as [v [E [P Q]]].
    assert (E' : st_elem jv gi (Fin t) p (Fin (m x)) (Fin (f x)) (Fin 0) (Fin (d x)) (pop_amp o x) 2 = Fin v) by (rewrite <- E; destruct o; reflexivity).
    unfold S. rewrite E'. auto. }
  exists S. split; [|intros x Hx; apply (V x Hx)].
  rewrite (circ_stationary_map _ _ _ _ _ _ _ _ _ _ _ p) by auto. f_equal. apply map_ext_in. intros x Hx.
  destruct (V x Hx) as [-> [P _]]. now apply nsqrt_fin.
Qed.
Lemma longer_circ w w' jv gi X (m f d : X -> R) (o : option (X -> angles)) xs t t' sc sc' kw kw' p p' :
  noise_curve w kw sc t p -> noise_curve w' kw' sc' t' p' -> proper_noise p -> proper_noise p' -> 0 <= t <= t' -> nowhere_higher p' p ->
  (exists g, power_used jv gi 2 0 g) -> (forall x, In x xs -> 0 < m x /\ 0 < f x /\ 0 < d x) ->
  exists s s' : X -> R,
    snr_circ_stationary w jv gi (map (fun x => Fin (m x)) xs) (map (fun x => Fin (f x)) xs) (map (fun x => Fin (d x)) xs) (Fin t)
      (pop_sky xs o) sc kw = Ok (map (fun x => Fin (s x)) xs) /\
    snr_circ_stationary w' jv gi (map (fun x => Fin (m x)) xs) (map (fun x => Fin (f x)) xs) (map (fun x => Fin (d x)) xs) (Fin t')
      (pop_sky xs o) sc' kw' = Ok (map (fun x => Fin (s' x)) xs) /\
    forall x, In x xs -> 0 <= s x <= s' x.
Proof.
  intros Hp Hp' Hq Hq' Ht HS (g & Hg) HX. destruct (circ_formula jv gi X m f d o xs g Hg HX w kw sc p t Hp Hq ltac:(lra)) as (S & E & V).
  destruct (circ_formula jv gi X m f d o xs g Hg HX w' kw' sc' p' t' Hp' Hq' ltac:(lra)) as (S' & E' & V').
  exists (fun x => sqrt (S x)), (fun x => sqrt (S' x)). split; [exact E|]. split; [exact E'|]. intros x Hx. split; [apply sqrt_pos|]. apply sqrt_le_1_alt.
  destruct (HX x Hx) as (_ & B & _). assert (N : 0 < IZR 2 * f x) by lra. exact (sns_more _ _ _ _ _ _ _ (V x Hx) (V' x Hx) (Hq _ N) (Hq' _ N) (HS _ N) Ht).
Qed.
