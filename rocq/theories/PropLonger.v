(** PropLonger.v -- property C121: observing longer never lowers an SNR. *)
From Coq Require Import String Reals ZArith List Lra Lia.
From Verif Require Import Num Np Utils Strain StrainSpec Psd PsdSpec Evol EvolSpec Snr SnrSpec LongerSpec LongerFacts LongerSnr LongerJump LongerHuang.
Import ListNotations.
Open Scope R_scope.

(** ** C121: observing longer never lowers an SNR *)
(** [nowhere_higher p' p]: the noise [p'] is at no frequency above [p].  With a noise curve that is nowhere higher, stationary sources have SNRs that
    are not lower after a longer time; this covers interpolated curves ([sc] given, the same for both times). *)
Theorem C121_circular_partial : forall w w' jv gi X (m f d : X -> R) (o : option (X -> angles)) xs t t' sc sc' kw kw' p p',
  noise_curve w kw sc t p -> noise_curve w' kw' sc' t' p' -> proper_noise p -> proper_noise p' -> 0 <= t <= t' -> nowhere_higher p' p ->
  (exists g, power_used jv gi 2 0 g) -> (forall x, In x xs -> 0 < m x /\ 0 < f x /\ 0 < d x) ->
  exists s s' : X -> R,
    snr_circ_stationary w jv gi (map (fun x => Fin (m x)) xs) (map (fun x => Fin (f x)) xs) (map (fun x => Fin (d x)) xs) (Fin t)
      (pop_sky xs o) sc kw = Ok (map (fun x => Fin (s x)) xs) /\
    snr_circ_stationary w' jv gi (map (fun x => Fin (m x)) xs) (map (fun x => Fin (f x)) xs) (map (fun x => Fin (d x)) xs) (Fin t')
      (pop_sky xs o) sc' kw' = Ok (map (fun x => Fin (s' x)) xs) /\
    forall x, In x xs -> 0 <= s x <= s' x.
Proof. exact longer_circ. Qed.
Print Assumptions C121_circular_partial.
Theorem C121_eccentric_partial : forall w w' jv gi X (m f e d : X -> R) xs t t' hr sc sc' kw kw' p p',
  noise_curve w kw sc t p -> noise_curve w' kw' sc' t' p' -> proper_noise p -> proper_noise p' -> 0 <= t <= t' -> nowhere_higher p' p ->
  (forall x, In x xs -> good_source jv gi (m x) (f x) (e x) (d x)) ->
  exists s s' : X -> R,
    snr_ecc_stationary w jv gi (map (fun x => Fin (m x)) xs) (map (fun x => Fin (f x)) xs) (map (fun x => Fin (e x)) xs)
      (map (fun x => Fin (d x)) xs) (Fin t) hr sc false false kw = Ok (Snr (map (fun x => Fin (s x)) xs)) /\
    snr_ecc_stationary w' jv gi (map (fun x => Fin (m x)) xs) (map (fun x => Fin (f x)) xs) (map (fun x => Fin (e x)) xs)
      (map (fun x => Fin (d x)) xs) (Fin t') hr sc' false false kw' = Ok (Snr (map (fun x => Fin (s' x)) xs)) /\
    forall x, In x xs -> 0 <= s x <= s' x.
Proof. exact longer_ecc. Qed.
Print Assumptions C121_eccentric_partial.
(** The curves of the instruments are nowhere higher for a longer time without confusion noise, with the fit of Karnesis et al. (LISA's and
    DECIGO's default), and while the other fits use the same mission length. *)
Theorem C121_noise_falls : forall w kw c t t' B, built_in_curve w kw t B -> uses kw c -> same_fit c t t' -> 0 < t <= t' ->
  exists p p', noise_curve w kw None t p /\ noise_curve w kw None t' p' /\ proper_noise p /\ proper_noise p' /\ nowhere_higher p' p.
Proof. exact noise_falls. Qed.
Print Assumptions C121_noise_falls.
(** Not with the fit of Robson et al.: up to 1.4 mHz the noise for every time from nine months to a year and a half is higher than the one for
    every shorter time, ... *)
Theorem C121_robson_noise_refuted : forall w kw t t' B, built_in_curve w kw t B -> uses kw (CName "robson19") -> 0 < t <= 3/4 * year -> 3/4 * year < t' <= 3/2 * year ->
  exists p p', noise_curve w kw None t p /\ noise_curve w kw None t' p' /\
    forall f, 0 < f <= 0.0014 -> B f -> exists n n', p (Fin f) = Fin n /\ p' (Fin f) = Fin n' /\ 0 < n < n'.
Proof. exact robson_higher. Qed.
Print Assumptions C121_robson_noise_refuted.
(** ... so that every circular source in that range has a lower SNR after a little more than nine months than after nine months. *)
Theorem C121_robson_snr_refuted : forall w jv gi kw m f d B, built_in_curve w kw (3/4 * year) B -> uses kw (CName "robson19") ->
  0 < m -> 0 < f -> 0 < d -> B (2 * f) -> 2 * f <= 0.0014 -> (exists g, power_used jv gi 2 0 g /\ 0 < g) ->
  exists T, 3/4 * year < T /\ forall t, 3/4 * year < t <= T -> exists s s',
    snr_circ_stationary w jv gi [Fin m] [Fin f] [Fin d] (Fin (3/4 * year)) no_sky None kw = Ok [Fin s] /\
    snr_circ_stationary w jv gi [Fin m] [Fin f] [Fin d] (Fin t) no_sky None kw = Ok [Fin s'] /\ 0 < s' < s.
Proof. exact robson_jump. Qed.
Print Assumptions C121_robson_snr_refuted.
(** Nor with the fit of Huang et al., TianQin's default: from 0.7 to 1 mHz the noise for every time above four and a half years is higher than the one
    for every time from three to four and a half years, ... *)
Theorem C121_huang_noise_refuted : forall w kw t t' B, built_in_curve w kw t B -> uses kw (CName "huang20") -> 3 * year < t <= 9/2 * year -> 9/2 * year < t' ->
  exists p p', noise_curve w kw None t p /\ noise_curve w kw None t' p' /\
    forall f, 0.0007 <= f < 0.001 -> B f -> exists n n', p (Fin f) = Fin n /\ p' (Fin f) = Fin n' /\ 0 < n < n'.
Proof. exact huang_higher. Qed.
Print Assumptions C121_huang_noise_refuted.
(** ... so that every circular source emitting there has a lower SNR after a little more than four and a half years than after four and a half years. *)
Theorem C121_huang_snr_refuted : forall w jv gi kw m f d B, built_in_curve w kw (9/2 * year) B -> uses kw (CName "huang20") ->
  0 < m -> 0 < d -> B (2 * f) -> 0.0007 <= 2 * f < 0.001 -> (exists g, power_used jv gi 2 0 g /\ 0 < g) ->
  exists T, 9/2 * year < T /\ forall t, 9/2 * year < t <= T -> exists s s',
    snr_circ_stationary w jv gi [Fin m] [Fin f] [Fin d] (Fin (9/2 * year)) no_sky None kw = Ok [Fin s] /\
    snr_circ_stationary w jv gi [Fin m] [Fin f] [Fin d] (Fin t) no_sky None kw = Ok [Fin s'] /\ 0 < s' < s.
Proof. exact huang_jump. Qed.
Print Assumptions C121_huang_snr_refuted.
(** TianQin with its default settings. *)
Example C121_huang_satisfiable : forall w, let kw := mkKw "TianQin" None Auto true (CName "auto") in
  built_in_curve w kw (9/2 * year) (fun _ => True) /\ uses kw (CName "huang20") /\ 0.0007 <= 2 * 4e-4 < 0.001.
Proof.
  intros w kw. split; [|split; [|lra]].
  - apply (tianqin_curve_used _ _ _ (sqrt 3 * 1e8) (CName "huang20")); cbn; try reflexivity; [right; now split|apply Rmult_lt_0_compat; [apply sqrt_lt_R0|]; lra|left; now split|unfold builtin; tauto].
  - right. left. split; [reflexivity|]. left. now split.
Qed.
(** LISA with the approximate response: the default confusion noise for any times, and the fit of Robson et al. *)
Example C121_satisfiable : forall w t t', 0 < t <= t' -> let B f := 1e-7 <= f <= 2 in
  (built_in_curve w (mkKw "LISA" None Auto true (CName "auto")) t B /\ uses (mkKw "LISA" None Auto true (CName "auto")) (CName "karnesis21") /\ same_fit (CName "karnesis21") t t') /\
  (built_in_curve w (mkKw "LISA" None Auto true (CName "robson19")) (3/4 * year) B /\ uses (mkKw "LISA" None Auto true (CName "robson19")) (CName "robson19")) /\
  B (2 * 1e-4) /\ 2 * 1e-4 <= 0.0014 /\ exists gi : option (Z -> num -> num), exists g, power_used (fun _ _ => NaN) gi 2 0 g /\ 0 < g.
Proof.
  intros w t t' Ht B. split; [split; [|split]|split; [split|]].
  - apply (lisa_curve_used _ _ _ 2.5e9 (CName "karnesis21")); cbn; try reflexivity; try lra; [right; now split|now left|left; now split|unfold builtin; tauto].
  - left. split; [reflexivity|]. left. now split.
  - apply same_karnesis.
  - apply (lisa_curve_used _ _ _ 2.5e9 (CName "robson19")); cbn; try reflexivity; try lra; [right; now split|now left|right; now split|unfold builtin; tauto].
  - left. split; [reflexivity|]. right. now split.
  - unfold B. split; [lra|]. split; [lra|]. exists (Some (fun _ _ => Fin 1)), (Rmax 1 0). split; [eexists; split; reflexivity|]. rewrite Rmax_left; lra.
Qed.
