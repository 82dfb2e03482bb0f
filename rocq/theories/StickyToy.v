(** StickyToy.v -- a Source with LISA as its instrument that has computed its SNRs (C52). *)
From Coq Require Import String Reals ZArith List Lra Lia Bool.
From Verif Require Import Num NumFacts Np NpFacts Utils UtilsFacts Spec Strain StrainSpec StrainFacts Psd Snr SnrSpec SnrFacts SnrThms Interp Evol EvolSpec Harmonics HarmSpec
  HarmThms ScParams Source Index SourceSpec MethodSpec SourceFacts MethodFacts MethodThms SourceThms SourceThms2 PsdSpec History CurveSpec CurveFacts OdeintFacts MergeFacts Toy PsdSpec SnrThms2 CurveThms Toy2.
Import ListNotations.
Open Scope R_scope.

Definition lisa_args : init_args := toy_args [Fin 1e30] [Fin 1e30] [Fin 0] [Fin 1e20] [Fin 1e-3] false [("approximate_R", PBool true)]%string.
Definition lisa_params (t : pval) : dict :=
  [("instrument", PStr "LISA"); ("custom_psd", PNil); ("t_obs", t); ("L", PStr "auto"); ("approximate_R", PBool true); ("confusion_noise", PStr "auto")]%string.
Definition lisa_src : src := toy_src KSource [Fin 1e30] [Fin 1e30] [Fin 0] [Fin 1e20] [Fin 1e-3] false None (lisa_params (PStr "auto")).
Lemma lisa_init : init x_toy KSource lisa_args = Ok lisa_src.
Proof. apply toy_init; reflexivity. Qed.
Lemma lisa_exact : exists p, exact_curve x_toy (lisa_params (PVal (Fin (4 * year)))) p /\ exact_curve x_toy (lisa_params (PStr "auto")) p.
Proof.
  destruct (built_in_noise (x_psd x_toy) (mkKw "LISA" None Auto true (CName "auto")) (4 * year) (fun f => 1e-7 <= f <= 2)) as (p & P & _).
  - apply (lisa_curve_used _ _ _ 2.5e9 (CName "karnesis21")); cbn; try reflexivity; try lra; [right; now split|now left|left; now split|unfold builtin; tauto].
  - unfold year. lra.
  - exists p. assert (E : exact_curve x_toy (lisa_params (PVal (Fin (4 * year)))) p) by (intros fs; rewrite <- (P fs); reflexivity). split; [exact E|].
    intros fs. rewrite <- (E fs). exact (psd_mission (x_psd x_toy) fs None Auto true (CName "auto") "LISA" (or_introl eq_refl)).
Qed.
Definition lisa_row : row := toy_row 1e30 1e30 1e20 1e-3 0.
Lemma lisa_computable : computable x_toy lisa_src [lisa_row] no_args (4 * year) 1.
Proof.
  destruct lisa_exact as (p & P & P'). split.
  - split; try reflexivity; left; reflexivity.
  - reflexivity.
  - reflexivity.
  - reflexivity.
  - exists p. exact P.
  - exists p. exact P'.
  - destruct toy_tol as (t & T & _). exists t. exact T.
  - intros r [<-|[]]. exists 0. split; [reflexivity|]. split; [lra|]. pose proof (toy_required 0). cbn [s_harm lisa_src toy_src]. lia.
  - lia.
  - exact odeint_model_shape.
  - intros k i Hi. apply in_seq. lia.
Qed.
Lemma lisa_second_call : exists s s1 v b, init x_toy KSource lisa_args = Ok s /\ keys (s_params s) = documented /\ a_t_obs no_args = PNil /\ a_t_obs b = PNil /\
  current "t_obs" s = PStr "auto" /\ instrument_of no_args s = PStr "LISA" /\ a_instrument b = PStr "TianQin" /\ get_snr_stationary x_toy no_args None s = (s1, Ok v) /\ length v = 1%nat.
Proof.
  destruct (stationary_thm x_toy lisa_src [lisa_row] no_args (4 * year) 1 None lisa_computable I) as (s' & v & sc & kw & E & _ & _ & M).
  exists lisa_src, s', v, (mkArgs PNil (PStr "TianQin") PNil PNil PNil PNil). split; [exact lisa_init|]. do 6 (split; [reflexivity|]). split; [exact E|].
  destruct M as (F & _). cbn [chosen] in F. inversion F as [|? ? ? ? _ F1]; subst. now inversion F1.
Qed.
