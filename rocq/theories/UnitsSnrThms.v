(** UnitsSnrThms.v -- the statements of C96 from UnitsSnrFacts, UnitsSnrEvol, UnitsSnrEcc and UnitsSnrWrong. *)
From Coq Require Import String Reals ZArith List Bool Lra Lia.
From Verif Require Import Num NumFacts Np NpFacts Utils UtilsFacts Strain Evol EvolFacts Psd PsdSpec Snr SnrSpec SnrFacts SnrThms3 SnrThms4 Units UnitsSpec UnitsFacts UnitsThms UnitsStrain
  UnitsEvol UnitsEvolSpec UnitsEvolFacts UnitsEvolThms UnitsEvolRuns UnitsPsd UnitsPsdSpec UnitsPsdFacts UnitsPsdWrong UnitsPsdThms UnitsSnr UnitsSnrSpec UnitsSnrFacts UnitsSnrEvol
  UnitsSnrEcc UnitsSnrWrong.
Import ListNotations.
Open Scope list_scope.
Open Scope R_scope.
Open Scope res_scope.

Theorem circ_stationary_in w jv gi m f d t s s' sc sc' kw kw' um uf ud ut :
  unit_for mass_dim um -> unit_for frequency_dim uf -> unit_for length_dim ud -> unit_for time_dim ut -> sky_reads s s' ->
  same_curve sc sc' -> same_settings kw kw' ->
  snr_circ_stationary_q w jv gi (map (in_unit um) m) (map (in_unit uf) f) (map (in_unit ud) d) (in_unit ut t) s sc kw
  = snr_circ_stationary w jv gi m f d t s' sc' kw'.
Proof.
  intros UM UF UD UT S C K. apply circ_stationary_si; auto; [eapply in_reads; eauto|now apply list_is|eapply in_reads; eauto|now apply isv_in].
Qed.
Theorem ecc_stationary_in w jv gi m f e d t nh sc sc' rm rs kw kw' um uf ud ut :
  unit_for mass_dim um -> unit_for frequency_dim uf -> unit_for length_dim ud -> unit_for time_dim ut ->
  same_curve sc sc' -> same_settings kw kw' ->
  snr_ecc_stationary_q w jv gi (map (in_unit um) m) (map (in_unit uf) f) e (map (in_unit ud) d) (in_unit ut t) nh sc rm rs kw
  = snr_ecc_stationary w jv gi m f e d t nh sc' rm rs kw'.
Proof.
  intros UM UF UD UT C K. apply ecc_stationary_si; auto; [eapply in_reads; eauto|now apply list_is|eapply in_reads; eauto|now apply isv_in].
Qed.

Theorem source_curve_same g : same_curve (Some (source_curve_q g)) (Some g).
Proof.
  exists (u_size per_hertz). intros v x V. unfold source_curve_q.
  rewrite (to_value_si frequency_dim hertz v x unit_hertz eq_refl frequency_not_none V). split; [|reflexivity].
  pose proof unit_per_hertz as (P & D). split; [exact P|]. split; [exact D|]. unfold si. cbn [mag unit_of]. rewrite per_hertz_one. apply scale_one.
Qed.
Theorem settings_same i L a c uL : unit_for length_dim uL -> forall c', same_noise c c' ->
  same_settings (mkKwQ i None (auto_in uL L) a c) (mkKw i None L a c').
Proof.
  intros U c' C. split; [reflexivity|]. split; [exact Logic.I|]. split; [|split; [reflexivity|exact C]]. destruct L; [exact Logic.I|]. now apply isv_in.
Qed.

(** An observation time in metres, or without unit. *)
Theorem stationary_any_time w jv gi m f d x s s' g g' kw um uf ud :
  unit_for mass_dim um -> unit_for frequency_dim uf -> unit_for length_dim ud -> sky_reads s s' -> same_curve (Some g) (Some g') ->
  let snr t := snr_circ_stationary_q w jv gi (map (in_unit um) m) (map (in_unit uf) f) (map (in_unit ud) d) t s (Some g) kw in
  let snr_ecc t e nh rm rs := snr_ecc_stationary_q w jv gi (map (in_unit um) m) (map (in_unit uf) f) e (map (in_unit ud) d) t nh (Some g) rm rs kw in
  (snr (Qy x meter) = snr (Qy x second) /\ snr (Pl x) = snr (Qy x second)) /\
  (forall e nh rm rs, snr_ecc (Qy x meter) e nh rm rs = snr_ecc (Qy x second) e nh rm rs /\ snr_ecc (Pl x) e nh rm rs = snr_ecc (Qy x second) e nh rm rs).
Proof.
  intros UM UF UD S C snr snr_ecc.
  assert (P1 : proper (Qy x meter)) by (unfold proper; cbn; lra). assert (P2 : proper (Qy x second)) by (unfold proper; cbn; lra).
  assert (P3 : proper (Pl x)) by (unfold proper; cbn; lra).
  assert (E1 : si (Qy x meter) = x) by (unfold si; cbn [mag unit_of meter u_size]; apply scale_one).
  assert (E2 : si (Qy x second) = x) by (unfold si; cbn [mag unit_of second u_size]; apply scale_one).
  assert (E3 : si (Pl x) = x) by apply si_pl.
  assert (A : forall t, proper t -> si t = x -> snr t = snr_circ_stationary w jv gi m f d x s' (Some g') default_kw).
  { intros t P <-. unfold snr. apply circ_any_time; auto; [eapply in_reads; eauto|now apply list_is|eapply in_reads; eauto]. }
  assert (B : forall t e nh rm rs, proper t -> si t = x -> snr_ecc t e nh rm rs = snr_ecc_stationary w jv gi m f e d x nh (Some g') rm rs default_kw).
  { intros t e nh rm rs P <-. unfold snr_ecc. apply ecc_any_time; auto; [eapply in_reads; eauto|now apply list_is|eapply in_reads; eauto]. }
  split; [split; rewrite !A; auto|]. intros. split; rewrite !B; auto.
Qed.

(** A binary of two 1e30 kg stars at 1 mHz, seen for four years against a flat noise curve, has a positive SNR. *)
Lemma snr_units_example :
  unit_for mass_dim msun /\ unit_for frequency_dim millihertz /\ unit_for time_dim UnitsPsdThms.month /\ unit_for length_dim kilometer /\
  same_curve (Some (source_curve_q (fun _ => Fin 1e-40))) (Some (fun _ => Fin 1e-40)) /\
  sky_reads no_sky_args no_sky /\
  same_settings (mkKwQ "LISA" None (auto_in kilometer Auto) false (CNameQ "auto")) default_kw /\
  wrong time_dim (Qy (Fin 4) kilometer) /\ (exists mc, bzip chirp_mass [Fin 1e30] [Fin 1e30] = Ok mc) /\
  (forall w, exists quad s, 0 < s /\
    snr_circ_evolving w (fun _ _ => NaN) (Some (fun n _ => Fin (IZR n))) quad [Fin 1e30] [Fin 1e30] [Fin 1e-3] [Fin 1e19] (Fin (4 * yr)) 100 None
      (Some (fun _ => Fin 1e-40)) default_kw = Ok [Fin s]).
Proof.
  destruct UnitsPsdThms.psd_units_example as (A & B & C & _ & _ & _ & _ & D & _).
  split; [exact unit_msun|]. split; [exact A|]. split; [exact B|]. split; [exact C|]. split; [apply source_curve_same|].
  split; [exact no_sky_reads|]. split; [apply settings_same; [exact C|reflexivity]|]. split; [exact D|]. split; [eexists; reflexivity|].
  intros w. destruct early_circ as (tm & aT & fT & quad & E1 & L1 & E2 & L2 & E3 & L3). exists quad.
  assert (YE : yr = PsdSpec.year) by (with_strategy transparent [yr] unfold yr, PsdSpec.year; lra). rewrite YE.
  assert (Y : 0 < PsdSpec.year) by (unfold PsdSpec.year; lra).
  destruct (circ_well_defined w (fun _ _ => NaN) (Some (fun n _ => Fin (IZR n))) quad 1e30 1e30 1e-3 1e19 (4 * PsdSpec.year) 100 tm aT fT
    (Some (fun _ => Fin 1e-40)) default_kw (fun _ => Fin 1e-40)) as (s & E & _ & P); try lra; try lia; auto.
  - intros fs. reflexivity.
  - intros g Hg. right. exists 1e-40. split; [reflexivity|lra].
  - exists (Rmax 2 0), 2. split; reflexivity.
  - exists s. split; [|exact E]. apply P; [lia|lra|lra| |discriminate].
    intros g (v & V & ->). injection V as <-. apply Rlt_le_trans with 2; [lra|apply Rmax_l].
Qed.
