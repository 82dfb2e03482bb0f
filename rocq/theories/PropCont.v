(** PropCont.v -- property C112: continuity of the noise curves. *)
From Coq Require Import String Reals List Lra.
From Coquelicot Require Import Coquelicot.
From Verif Require Import Num Np Psd PsdSpec ConvSpec NoiseContFacts.
Import ListNotations.
Open Scope R_scope.

(** ** C112: in band the noise is a continuous function of the frequency *)
(** Partial: with the huang20 confusion noise only away from its cut-off frequencies (1e-4 Hz and 1 Hz). *)
Theorem C112_lisa_partial : forall w c t L ap (r : R -> R) lo hi, builtin c t -> 0 < t -> 0 < L -> 1e-7 <= lo -> hi <= 2 -> no_cut c lo hi ->
  (forall f, 1e-7 <= f <= 2 -> response w L ap f (r f) /\ 0 < r f /\ continuous r f) ->
  exists p, (forall fs, lisa_psd w fs (Fin t) (Fin L) ap c = Ok (map p fs)) /\ continuous_noise p lo hi.
Proof. exact lisa_continuous. Qed.
Print Assumptions C112_lisa_partial.
(** The approximate response is one that meets the hypothesis. *)
Theorem C112_approximate_response : forall w L f, 0 < L ->
  response w L true f (robson_response L f) /\ 0 < robson_response L f /\ continuous (robson_response L) f.
Proof. exact response_continuous. Qed.
Print Assumptions C112_approximate_response.
Theorem C112_tianqin_partial : forall c t L lo hi, builtin c t -> 0 < t -> 0 < L -> 0 < lo -> no_cut c lo hi ->
  exists p, (forall fs, tianqin_psd fs (Fin t) (Fin L) c = Ok (map p fs)) /\ continuous_noise p lo hi.
Proof. exact tianqin_continuous. Qed.
Print Assumptions C112_tianqin_partial.
(** [a] and [b] are the limits of the band. *)
Theorem C112_decigo_partial : forall c t a b lo hi, builtin c t -> 0 < t -> 1e-8 < a -> a <= lo -> hi <= b -> no_cut c lo hi ->
  exists p, (forall fs, decigo_psd fs (Fin t) c (Fin a) (Fin b) = Ok (map p fs)) /\ continuous_noise p lo hi.
Proof. exact decigo_continuous. Qed.
Print Assumptions C112_decigo_partial.
Example C112_satisfiable : builtin (CName "karnesis21") (4 * year) /\ no_cut (CName "karnesis21") 1e-7 2 /\
  builtin (CName "huang20") (5 * year) /\ no_cut (CName "huang20") 2e-4 0.9 /\ 0 < 4 * year /\ 0 < 5 * year.
Proof.
  assert (0 < year) by (unfold year; lra). unfold builtin, no_cut. repeat split; try lra; auto 6.
  intros E. first [discriminate E | right; left; lra].
Qed.
(** The default curve of TianQin jumps at 1e-4 Hz and at 1 Hz. *)
Theorem C112_tianqin_refuted : forall w cust ap t, 0 < t -> exists S : R -> R,
  (forall f, 0 < f -> power_spectral_density w [Fin f] "TianQin" cust (Given (Fin t)) Auto ap (CName "auto") = Ok [Fin (S f)]) /\
  ~ continuous S 1e-4 /\ ~ continuous S 1.
Proof. exact default_tianqin_jumps. Qed.
Print Assumptions C112_tianqin_refuted.
(** For missions of about a year it jumps by a factor of 1e12 at 1e-4 Hz. *)
Theorem C112_one_year_refuted : forall w cust ap t, 3/4 < t / year <= 3/2 -> exists S : R -> R,
  (forall f, 0 < f -> power_spectral_density w [Fin f] "TianQin" cust (Given (Fin t)) Auto ap (CName "auto") = Ok [Fin (S f)]) /\
  (forall f, 0 < f < 1e-4 -> S f = tianqin_curve (sqrt 3 * 1e8) f) /\ 1e12 * tianqin_curve (sqrt 3 * 1e8) 1e-4 <= S 1e-4.
Proof. exact default_tianqin_one_year. Qed.
Print Assumptions C112_one_year_refuted.
(** For all other missions, and at 1 Hz for all, the jump is below 1e-5 of the instrumental noise. *)
Theorem C112_jumps_small_partial : forall w cust ap t, 0 < t -> exists S : R -> R,
  (forall f, 0 < f -> power_spectral_density w [Fin f] "TianQin" cust (Given (Fin t)) Auto ap (CName "auto") = Ok [Fin (S f)]) /\
  (~ (3/4 < t / year <= 3/2) -> Rabs (S 1e-4 - tianqin_curve (sqrt 3 * 1e8) 1e-4) <= 1e-5 * tianqin_curve (sqrt 3 * 1e8) 1e-4) /\
  Rabs (S 1 - tianqin_curve (sqrt 3 * 1e8) 1) <= 1e-5 * tianqin_curve (sqrt 3 * 1e8) 1.
Proof. exact default_tianqin_small. Qed.
Print Assumptions C112_jumps_small_partial.
Example C112_missions : 3/4 < year / year <= 3/2 /\ ~ (3/4 < 5 * year / year <= 3/2).
Proof. assert (0 < year) by (unfold year; lra). replace (year / year) with 1 by (field; lra). replace (5 * year / year) with 5 by (field; lra). lra. Qed.
(** Where the noise is continuous, so is its reciprocal: the noise hypothesis of C111. *)
Theorem C112_reciprocal : forall p lo hi, continuous_noise p lo hi ->
  exists q : R -> R, forall x, lo <= x <= hi -> inverse_noise p x (q x) /\ continuous q x.
Proof. exact reciprocal_continuous. Qed.
Print Assumptions C112_reciprocal.
Example C112_reciprocal_satisfiable : continuous_noise (fun _ => Fin 1e-40) 1e-4 1.
Proof. exists (fun _ => 1e-40). intros f _. split; [reflexivity|]. split; [lra|apply continuous_const]. Qed.
