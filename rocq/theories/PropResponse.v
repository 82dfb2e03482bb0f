(** PropResponse.v -- property C109: LISA's noise with the packaged response table. *)
From Coq Require Import String ZArith Reals List Lra Lia.
From Verif Require Import Num NumFacts Np Utils Strain StrainSpec StrainFacts Psd PsdSpec Snr SnrSpec SplineSpec ResponseData ResponseThms.
Import ListNotations.
Open Scope R_scope.

(** ** C109: the noise of LISA is positive throughout its band with the response that comes with the package *)
(** Frequencies up to 108.5065 f* are inside of the table or below it: the interpolated response lies between 3.24e-5 and 0.3007. *)
Theorem C109_response : forall w L f, packaged_response w -> interpolates w -> 0 < L -> 0 <= f -> 2 * PI * L * f / 299792458 <= 108.5065 ->
  exists r, response w L false f r /\ 3.24e-5 <= r <= 0.3007.
Proof. exact response_in_bounds. Qed.
Print Assumptions C109_response.
(** Arms of up to 2.588 million km: finite positive noise exactly in band. *)
Theorem C109_short_arms : forall w c t L, packaged_response w -> interpolates w -> builtin c t -> 0 < t -> 0 < L <= 2.588e9 ->
  exists p : num -> num, (forall fs, lisa_psd w fs (Fin t) (Fin L) false c = Ok (map p fs)) /\
    (forall x, p x = PInf <-> outside 1e-7 2 x) /\ (forall f, 1e-7 <= f <= 2 -> exists v, p (Fin f) = Fin v /\ 0 < v).
Proof. exact short_arms_noise. Qed.
Print Assumptions C109_short_arms.
(** With all settings left at their defaults the SNR functions use a built-in noise curve. *)
Theorem C109_default_noise : forall w t, packaged_response w -> interpolates w -> 0 < t -> built_in_curve w default_kw t (fun f => 1e-7 <= f <= 2).
Proof. exact default_noise. Qed.
Print Assumptions C109_default_noise.
(** Longer arms: 2 Hz lies beyond the table, and the last cubic, continued, is negative there. *)
Theorem C109_long_arms_refuted : forall w t L, packaged_response w -> interpolates w -> 0 < t -> 2.625e9 <= L ->
  exists v, lisa_psd w [Fin 2] (Fin t) (Fin L) false CNone = Ok [Fin v] /\ v < 0.
Proof. exact long_arms. Qed.
Print Assumptions C109_long_arms_refuted.
(** The SNR of a circular binary of 1 Hz is then not a number (with the default confusion noise). *)
Theorem C109_snr_refuted : forall w jv gi g t L m d, packaged_response w -> interpolates w -> power_used jv gi 2 0 g -> 0 < g ->
  0 < t -> 2.625e9 <= L <= 5e9 -> 0 < m -> 0 < d ->
  snr_circ_stationary w jv gi [Fin m] [Fin 1] [Fin d] (Fin t) no_sky None (mkKw "LISA" None (Given (Fin L)) false (CName "auto")) = Ok [NaN].
Proof. exact long_arms_snr. Qed.
Print Assumptions C109_snr_refuted.
Example C109_satisfiable : packaged_response splined /\ interpolates splined /\ power_used (fun _ _ => NaN) (Some (fun n _ => Fin (/ IZR n))) 2 0 (/ 2) /\ builtin (CName "karnesis21") (4 * year).
Proof.
  destruct splined_ok as (A & B). split; [exact A|]. split; [exact B|]. split; [|unfold builtin; auto 10]. cbn. eexists. split; [reflexivity|]. rewrite Rmax_left; lra.
Qed.
