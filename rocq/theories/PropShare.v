(** PropShare.v -- properties C56 and C115: the n = 2 share of the luminosity and the tolerance, for the Bessel functions themselves. *)
From Coq Require Import String Reals ZArith List Lra Lia.
From Verif Require Import Num Np Utils Spec EvolSpec Bessel Harmonics HarmSpec HarmThms ShareFacts BesselBounds.
Import ListNotations.
Open Scope R_scope.

(** ** C56: the circular/eccentric transition *)
(** The share of the luminosity in the n = 2 harmonic falls strictly with eccentricity, all the way from 0 to 1. *)
Theorem C56_share_falls : forall jv a b, (forall k x, jv k (Fin x) = Fin (besselJ k x)) -> 0 <= a < b -> b < 1 -> exists ga gb Fa Fb,
  peters_g jv 2 (Fin a) = Fin ga /\ peters_g jv 2 (Fin b) = Fin gb /\ peters_f (Fin a) = Fin Fa /\ peters_f (Fin b) = Fin Fb /\
  gb / Fb < ga / Fa.
Proof. exact share_falls. Qed.
Print Assumptions C56_share_falls.
Example C56_share_satisfiable : exists jv, forall k x, jv k (Fin x) = Fin (besselJ k x).
Proof. exists (fun k x => match x with Fin r => Fin (besselJ k r) | _ => NaN end). reflexivity. Qed.
(** So ecc_tol lies above every eccentricity within tolerance, on the grid or not, and everything one grid step below it is within
    tolerance. Missing for C56: the last grid step up to and including ecc_tol itself, where C56_transition_refuted applies. *)
Theorem C56_exact_transition_partial : forall jv tol e, (forall k x, jv k (Fin x) = Fin (besselJ k x)) -> 0 <= tol ->
  eccentric_transition jv (Fin tol) = Ok e ->
  exists x, e = Fin x /\ 0 < x <= 1/5 /\
    (forall y, 0 <= y < 1 -> within_tolerance jv tol y -> y < x) /\
    (forall y, 0 <= y <= x - 1/5 / 9999 -> within_tolerance jv tol y).
Proof. exact exact_transition. Qed.
Print Assumptions C56_exact_transition_partial.
(** A larger tolerance never treats fewer eccentricities as circular. *)
Theorem C56_monotone : forall jv J tol tol' e e', (forall k x, jv k (Fin x) = Fin (J k x)) -> tol <= tol' ->
  eccentric_transition jv (Fin tol) = Ok e -> eccentric_transition jv (Fin tol') = Ok e' -> exists x x', e = Fin x /\ e' = Fin x' /\ x <= x'.
Proof. exact transition_monotone. Qed.
Print Assumptions C56_monotone.

(** ** C115: every luminosity tolerance between 0 and 1 can be used *)
(** False: from 0.39 on no eccentricity of the search grid fails the tolerance, and assigning it raises IndexError. *)
Theorem C115_large_tolerance_refuted : forall jv lum tbl tol h, (forall k x, jv k (Fin x) = Fin (besselJ k x)) ->
  lum_table lum tbl -> h_gw_lum_tol h <> Some (Fin tol) -> 39/100 <= tol <= 1 ->
  exists h', set_gw_lum_tol jv lum (Fin tol) h = (h', Err IndexError).
Proof. exact setter_refuses. Qed.
Print Assumptions C115_large_tolerance_refuted.
(** Up to 0.36 every tolerance is accepted. *)
Theorem C115_small_tolerance_partial : forall jv lum tbl tol h, (forall k x, jv k (Fin x) = Fin (besselJ k x)) ->
  lum_table lum tbl -> h_gw_lum_tol h <> Some (Fin tol) -> tol <= 36/100 ->
  exists h', set_gw_lum_tol jv lum (Fin tol) h = (h', Ok tt).
Proof. exact setter_accepts. Qed.
Print Assumptions C115_small_tolerance_partial.
Example C115_satisfiable : lum_table lum_ex tbl_ex /\ h_gw_lum_tol no_harm <> Some (Fin (1/20)).
Proof. split; [exact lum_ex_ok|discriminate]. Qed.
(** In between as well: a tolerance is accepted exactly if the n = 2 harmonic fails it at the end of the search, e = 0.2. *)
Theorem C115_accepted_iff : forall jv lum tbl tol h, (forall k x, jv k (Fin x) = Fin (besselJ k x)) ->
  lum_table lum tbl -> h_gw_lum_tol h <> Some (Fin tol) ->
  exists h', (set_gw_lum_tol jv lum (Fin tol) h = (h', Ok tt) /\ ~ within_tolerance jv tol (1/5)) \/
    (set_gw_lum_tol jv lum (Fin tol) h = (h', Err IndexError) /\ within_tolerance jv tol (1/5)).
Proof. exact setter_iff. Qed.
Print Assumptions C115_accepted_iff.
