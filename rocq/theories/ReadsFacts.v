(** ReadsFacts.v -- the interpolated curve and power_spectral_density (C82). *)
From Coq Require Import String Reals List Bool.
From Verif Require Import Num Np Psd Snr ScParams CurveSpec CurveFacts CurveThms ReadsSpec.
Import ListNotations.
Open Scope string_scope.

Lemma param_value k d v : In k documented -> value_of k d v -> param k d = v.
Proof. intros K [H|[H ->]]; unfold param; rewrite H; [reflexivity|]. cbn in K. repeat (destruct K as [<-|K]; [reflexivity|]). destruct K. Qed.
Lemma psd_reads x d i c t L b cf fs : reads x d i c t L b cf -> psd_of x d fs = power_spectral_density (x_psd x) fs i c t L b cf.
Proof.
  intros (K & I & B & (vc & C & Sc) & (vt & T & St) & (vl & HL & Sl) & (vn & N & Sn)). unfold psd_of.
  assert (F : forallb known (keys d) = true).
  { apply forallb_forall. intros k Hk. apply K in Hk. unfold known. apply existsb_exists. exists k. split; [exact Hk|apply String.eqb_refl]. }
  rewrite F. cbn [negb]. unfold kw_of. rewrite (param_value "instrument" _ _ ltac:(cbn; tauto) I), (param_value "approximate_R" _ _ ltac:(cbn; tauto) B), (param_value "custom_psd" _ _ ltac:(cbn; tauto) C),
    (param_value "t_obs" _ _ ltac:(cbn; tauto) T), (param_value "L" _ _ ltac:(cbn; tauto) HL), (param_value "confusion_noise" _ _ ltac:(cbn; tauto) N).
  destruct St, Sl, Sc, Sn; reflexivity.
Qed.
Lemma curve_reads x d i c t L b cf p curve : reads x d i c t L b cf ->
  (forall fs, power_spectral_density (x_psd x) fs i c t L b cf = Ok (map p fs)) -> curve_of x d = Ok curve -> tabulates curve (fun f => p (Fin f)).
Proof. intros H E. apply curve_spec. intros fs. now rewrite (psd_reads x d i c t L b cf fs H). Qed.
Lemma curve_fails x d i c t L b cf e : reads x d i c t L b cf -> power_spectral_density (x_psd x) curve_grid i c t L b cf = Err e -> curve_of x d = Err e.
Proof. intros H E. unfold curve_of. rewrite (psd_reads x d i c t L b cf _ H), E. reflexivity. Qed.
Lemma time_fails x d v s i : In i ["LISA"; "TianQin"; "DECIGO"] -> value_of "instrument" d (PStr i) -> value_of "confusion_noise" d (PStr s) ->
  value_of "t_obs" d v -> (forall t, ~ stands_for v t) -> exists e, curve_of x d = Err e.
Proof.
  intros _ _ _ T N. unfold curve_of, psd_of. rewrite (param_value "t_obs" _ _ ltac:(cbn; tauto) T). destruct (negb _); [now eexists|].
  destruct v as [a| |b|q|n]; cbn [quantity_of]; try (now eexists); [|exfalso; apply (N (Given q)); constructor].
  destruct (String.eqb a "auto") eqn:E; [|now eexists]. apply String.eqb_eq in E. subst a. exfalso. apply (N Auto). constructor.
Qed.
