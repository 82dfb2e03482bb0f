(** LongerFacts.v -- SNRs and the observing time (C121). *)
From Coq Require Import String Reals ZArith List Lra Lia.
From Verif Require Import Num NumFacts Np Utils Spec UtilsFacts EvolSpec Evol Strain StrainSpec StrainFacts Psd PsdSpec PsdFacts PsdThms Snr SnrSpec SnrFacts SnrThms SnrThms2
  HarmonicSums SnrThms3 SnrThms4 ZeroFacts LongerSpec.
Import ListNotations.
Open Scope R_scope.

(** ** Confusion noise *)
Lemma tanh_le x y : x <= y -> tanh x <= tanh y.
Proof.
  intros L. assert (E : forall z, tanh z = 1 - 2 / (exp z * exp z + 1)).
  { intros z. unfold tanh, sinh, cosh. rewrite exp_Ropp. pose proof (exp_pos z). field. repeat split; nra. }
  rewrite !E. assert (X : exp x <= exp y) by (destruct L as [L| ->]; [left; now apply exp_increasing|lra]). pose proof (exp_pos x).
  assert (I : / (exp y * exp y + 1) <= / (exp x * exp x + 1)) by (apply Rinv_le_contravar; nra). unfold Rdiv. lra.
Qed.
Lemma tanh_lt_lt x y : x < y -> tanh x < tanh y.
Proof.
  intros L. assert (E : forall z, tanh z = 1 - 2 / (exp z * exp z + 1)).
  { intros z. unfold tanh, sinh, cosh. rewrite exp_Ropp. pose proof (exp_pos z). field. repeat split; nra. }
  rewrite !E. assert (X : exp x < exp y) by now apply exp_increasing. pose proof (exp_pos x).
  assert (I : / (exp y * exp y + 1) < / (exp x * exp x + 1)) by (apply Rinv_lt_contravar; nra). unfold Rdiv. lra.
Qed.
Lemma exp_le x y : x <= y -> exp x <= exp y.
Proof. intros [L| ->]; [left; now apply exp_increasing|lra]. Qed.
Lemma karnesis_falls T T' f : 0 < T <= T' -> 0 < f -> karnesis_fit T' f <= karnesis_fit T f.
Proof.
  intros HT Hf. unfold karnesis_fit. cbv zeta.
  assert (L : log10 T <= log10 T').
  { unfold log10, Rdiv. apply Rmult_le_compat_r; [left; apply Rinv_0_lt_compat; rewrite <- ln_1; apply ln_increasing; lra|].
    destruct HT as (H0 & [H| ->]); [left; now apply ln_increasing|lra]. }
  assert (P : forall a b, -1 <= a <= 0 -> Rpower 10 (a * log10 T' - b) <= Rpower 10 (a * log10 T - b)) by (intros a b Ha; apply Rle_Rpower; nra).
  pose proof (P (-0.15) 2.72 ltac:(lra)) as P1. pose proof (P (-0.37) 2.49 ltac:(lra)) as P2.
  set (f1 := Rpower 10 (-0.15 * log10 T - 2.72)) in *. set (f1' := Rpower 10 (-0.15 * log10 T' - 2.72)) in *.
  set (fk := Rpower 10 (-0.37 * log10 T - 2.49)) in *. set (fk' := Rpower 10 (-0.37 * log10 T' - 2.49)) in *.
  assert (F1 : 0 < f1') by apply exp_pos. assert (F0 : 0 < f1) by lra.
  assert (Q : Rpower (f / f1) 1.56 <= Rpower (f / f1') 1.56).
  { apply Rle_Rpower_l; [lra|]. split; [apply Rdiv_lt_0_compat; auto|]. unfold Rdiv. apply Rmult_le_compat_l; [lra|]. now apply Rinv_le_contravar. }
  pose proof (exp_le (- Rpower (f / f1') 1.56) (- Rpower (f / f1) 1.56) ltac:(lra)) as E.
  assert (TH : tanh ((fk' - f) / 0.00067) <= tanh ((fk - f) / 0.00067)) by (apply tanh_le; unfold Rdiv; apply Rmult_le_compat_r; lra).
  pose proof (tanh_gt ((fk' - f) / 0.00067)). pose proof (exp_pos (- Rpower (f / f1') 1.56)). pose proof (exp_pos (-7/3 * ln f)) as A. fold (Rpower f (-7/3)) in A.
  apply Rmult_le_compat; [left; apply Rmult_lt_0_compat; lra|lra| |lra]. apply Rmult_le_compat_l; [lra|exact E].
Qed.
Lemma confusion_falls c t t' f v v' : same_fit c t t' -> 0 < t <= t' -> 0 < f -> published_confusion c t f v -> published_confusion c t' f v' -> v' <= v.
Proof.
  intros S Ht Hf A B. destruct S as [t t'|t t'|t t' r N N'|t t' r N N'].
  - inversion A; inversion B; subst; lra.
  - inversion A; inversion B; subst. apply karnesis_falls; [|exact Hf]. assert (Y : 0 < year) by (unfold year; lra).
    split; [apply Rdiv_lt_0_compat; lra|]. unfold Rdiv. apply Rmult_le_compat_r; [left; now apply Rinv_0_lt_compat|lra].
  - inversion A as [|? ? r1 N1| | | |]; inversion B as [|? ? r2 N2| | | |]; subst.
    rewrite (nearest_unique r_len robson_table _ _ _ (table_unique r_len robson_table robson_sorted) N1 N), (nearest_unique r_len robson_table _ _ _ (table_unique r_len robson_table robson_sorted) N2 N'). lra.
  - inversion A as [| |? ? r1 N1 I1|? ? O1| |]; inversion B as [| |? ? r2 N2 I2|? ? O2| |]; subst; try tauto; try lra.
    rewrite (nearest_unique h_len huang_table _ _ _ (table_unique h_len huang_table huang_sorted) N1 N), (nearest_unique h_len huang_table _ _ _ (table_unique h_len huang_table huang_sorted) N2 N'). lra.
Qed.

(** ** Noise curves *)
Lemma chosen_unique x d c c' : chosen_conf x d c -> chosen_conf x d c' -> c = c'.
Proof. intros [(A & ->)|(A & ->)] [(B & ->)|(B & ->)]; congruence. Qed.
Lemma chosen_arm {A} (x : auto A) d u u' : chosen x d u -> chosen x d u' -> u = u'.
Proof. intros [->|(-> & ->)] [E|(E & ->)]; congruence. Qed.
Lemma curve_unique w kw t p q : noise_curve w kw None t p -> noise_curve w kw None t q -> forall x, p x = q x.
Proof. intros P Q x. specialize (P [x]). specialize (Q [x]). cbv beta iota in P, Q. rewrite P in Q. cbn [map] in Q. congruence. Qed.
(** The noise with confusion is a part that does not depend on the time plus the confusion noise. *)
Lemma split_noise w kw c t t' B : built_in_curve w kw t B -> uses kw c -> builtin c t' -> 0 < t -> 0 < t' ->
  exists p p' p0, noise_curve w kw None t p /\ noise_curve w kw None t' p' /\ proper_noise p /\ proper_noise p' /\
    (forall f, 0 < f -> ~ B f -> p (Fin f) = PInf /\ p' (Fin f) = PInf) /\
    (forall f, 0 < f -> B f -> exists v v', published_confusion c t f v /\ published_confusion c t' f v' /\ p (Fin f) = nadd (p0 (Fin f)) (Fin v) /\ p' (Fin f) = nadd (p0 (Fin f)) (Fin v')).
Proof.
  intros H U Hb' Ht Ht'. destruct (built_in_noise w kw t B H Ht) as (p & Np & Pp & Ip).
  assert (H' : built_in_curve w kw t' B).
  { destruct H as [L k Hi HL HL0 HR Hc Hb|L k Hi HL HL0 Hc Hb|k Hi Hc Hb].
    - apply (lisa_curve_used w kw t' L c); auto. destruct U as [(_ & U)|[(U & _)|(U & _)]]; [exact U|rewrite Hi in U; discriminate|rewrite Hi in U; discriminate].
    - apply (tianqin_curve_used w kw t' L c); auto. destruct U as [(U & _)|[(_ & U)|(U & _)]]; [rewrite Hi in U; discriminate|exact U|rewrite Hi in U; discriminate].
    - apply (decigo_curve_used w kw t' c); auto. destruct U as [(U & _)|[(U & _)|(_ & U)]]; [rewrite Hi in U; discriminate|rewrite Hi in U; discriminate|exact U]. }
  destruct (built_in_noise w kw t' B H' Ht') as (p' & Np' & Pp' & Ip'). clear H'.
  assert (O : forall f, 0 < f -> ~ B f -> p (Fin f) = PInf /\ p' (Fin f) = PInf) by (intros f Hf N; split; [now apply Ip|now apply Ip']).
  assert (R : forall q q' q0 q0', noise_curve w kw None t q -> noise_curve w kw None t' q' -> (forall x, q0 x = q0' x) ->
    (forall f, 0 < f -> B f -> exists v, published_confusion c t f v /\ q (Fin f) = nadd (q0 (Fin f)) (Fin v)) ->
    (forall f, 0 < f -> B f -> exists v, published_confusion c t' f v /\ q' (Fin f) = nadd (q0' (Fin f)) (Fin v)) ->
    exists p p' p0, noise_curve w kw None t p /\ noise_curve w kw None t' p' /\ proper_noise p /\ proper_noise p' /\
    (forall f, 0 < f -> ~ B f -> p (Fin f) = PInf /\ p' (Fin f) = PInf) /\
    (forall f, 0 < f -> B f -> exists v v', published_confusion c t f v /\ published_confusion c t' f v' /\ p (Fin f) = nadd (p0 (Fin f)) (Fin v) /\ p' (Fin f) = nadd (p0 (Fin f)) (Fin v'))).
  { intros q q' q0 q0' Q Q' Z V V'. exists p, p', q0. do 4 (split; [assumption|]). split; [exact O|]. intros f Hf HB. destruct (V f Hf HB) as (v & C & E). destruct (V' f Hf HB) as (v' & C' & E').
    exists v, v'. split; [exact C|]. split; [exact C'|]. rewrite (curve_unique _ _ _ _ _ Np Q), (curve_unique _ _ _ _ _ Np' Q'), E, E', Z. now split. }
  destruct H as [L k Hi HL HL0 HR Hc Hb|L k Hi HL HL0 Hc Hb|k Hi Hc Hb].
  - assert (c = k). { destruct U as [(_ & U)|[(U & _)|(U & _)]]; [exact (chosen_unique _ _ _ _ U Hc)|rewrite Hi in U; discriminate|rewrite Hi in U; discriminate]. } subst k.
    destruct (added_lisa w c t L (kw_approximate_R kw) Hb Ht HL0 HR) as (q & q0 & A & _ & V). destruct (added_lisa w c t' L (kw_approximate_R kw) Hb' Ht' HL0 HR) as (q' & q0' & A' & _ & V').
    apply (R q q' q0 q0'); [| | |intros f _; apply V|intros f _; apply V'].
    + intros fs; rewrite Hi, (psd_lisa _ _ _ _ _ _ _ (Fin t) (Fin L) c); auto; [apply A|now left].
    + intros fs; rewrite Hi, (psd_lisa _ _ _ _ _ _ _ (Fin t') (Fin L) c); auto; [apply A'|now left].
    + intros x. assert (ZZ : Ok (map q0 [x]) = Ok (map q0' [x])) by (rewrite <- (proj2 (A [x])), <- (proj2 (A' [x])); reflexivity). cbn [map] in ZZ. congruence.
  - assert (c = k). { destruct U as [(U & _)|[(_ & U)|(U & _)]]; [rewrite Hi in U; discriminate|exact (chosen_unique _ _ _ _ U Hc)|rewrite Hi in U; discriminate]. } subst k.
    destruct (added_tianqin c t L Hb Ht HL0) as (q & q0 & A & _ & V). destruct (added_tianqin c t' L Hb' Ht' HL0) as (q' & q0' & A' & _ & V').
    apply (R q q' q0 q0'); [| | |intros f F _; now apply V|intros f F _; now apply V'].
    + intros fs; rewrite Hi, (psd_tianqin _ _ _ _ _ _ _ (Fin t) (Fin L) c); auto; [apply A|now left].
    + intros fs; rewrite Hi, (psd_tianqin _ _ _ _ _ _ _ (Fin t') (Fin L) c); auto; [apply A'|now left].
    + intros x. assert (ZZ : Ok (map q0 [x]) = Ok (map q0' [x])) by (rewrite <- (proj2 (A [x])), <- (proj2 (A' [x])); reflexivity). cbn [map] in ZZ. congruence.
  - assert (c = k). { destruct U as [(U & _)|[(U & _)|(_ & U)]]; [rewrite Hi in U; discriminate|rewrite Hi in U; discriminate|exact (chosen_unique _ _ _ _ U Hc)]. } subst k.
    destruct (added_decigo c t 1e-3 1e2 Hb Ht ltac:(lra)) as (q & q0 & A & _ & V). destruct (added_decigo c t' 1e-3 1e2 Hb' Ht' ltac:(lra)) as (q' & q0' & A' & _ & V').
    apply (R q q' q0 q0'); [| | |intros f _; apply V|intros f _; apply V'].
    + intros fs; rewrite Hi, (psd_decigo _ _ _ _ _ _ _ (Fin t) c); auto; [apply A|now left].
    + intros fs; rewrite Hi, (psd_decigo _ _ _ _ _ _ _ (Fin t') c); auto; [apply A'|now left].
    + intros x. assert (ZZ : Ok (map q0 [x]) = Ok (map q0' [x])) by (rewrite <- (proj2 (A [x])), <- (proj2 (A' [x])); reflexivity). cbn [map] in ZZ. congruence.
Qed.
Lemma same_builtin c t t' : same_fit c t t' -> builtin c t'.
Proof. intros [ | | | ]; unfold builtin; tauto. Qed.
Lemma band_dec w kw t B f : built_in_curve w kw t B -> B f \/ ~ B f.
Proof. intros [ | | ]; cbv beta; [destruct (Rle_dec 1e-7 f), (Rle_dec f 2); try (left; lra); right; lra|now left|destruct (Rle_dec 1e-3 f), (Rle_dec f 1e2); try (left; lra); right; lra]. Qed.
Lemma noise_falls w kw c t t' B : built_in_curve w kw t B -> uses kw c -> same_fit c t t' -> 0 < t <= t' ->
  exists p p', noise_curve w kw None t p /\ noise_curve w kw None t' p' /\ proper_noise p /\ proper_noise p' /\ nowhere_higher p' p.
Proof.
  intros H U S Ht. destruct (split_noise w kw c t t' B H U (same_builtin _ _ _ S) ltac:(lra) ltac:(lra)) as (p & p' & p0 & N & N' & P & P' & O & V).
  exists p, p'. do 4 (split; [assumption|]). intros f Hf. destruct (band_dec _ _ _ _ f H) as [HB|HB].
  - destruct (V f Hf HB) as (v & v' & C & C' & E & E'). pose proof (confusion_falls c t t' f v v' S Ht Hf C C') as L.
    destruct (P f Hf) as [X|(s & X & _)]; destruct (P' f Hf) as [Y|(s' & Y & _)]; rewrite E in X; rewrite E' in Y; rewrite E, E'.
    + destruct (p0 (Fin f)); try discriminate; reflexivity.
    + destruct (p0 (Fin f)); discriminate.
    + destruct (p0 (Fin f)); discriminate.
    + destruct (p0 (Fin f)) as [z| | |]; try discriminate. rewrite !nadd_fin. apply nle_t. lra.
  - destruct (O f Hf HB) as (-> & ->). reflexivity.
Qed.
