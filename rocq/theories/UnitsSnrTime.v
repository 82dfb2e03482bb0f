(** UnitsSnrTime.v -- observation times of the wrong dimension where the noise is computed (C96). *)
From Coq Require Import String Reals ZArith List Bool Lra Lia.
From Verif Require Import Num NumFacts Np NpFacts Utils UtilsFacts Strain Evol EvolFacts Psd Snr Units UnitsSpec UnitsFacts UnitsThms UnitsStrain
  UnitsEvol UnitsEvolSpec UnitsEvolFacts UnitsEvolThms UnitsPsd UnitsPsdSpec UnitsPsdFacts UnitsSnr UnitsSnrSpec UnitsSnrFacts UnitsSnrEvol UnitsSnrEcc UnitsTimes UnitsPsdWrong UnitsSnrWrong.
Import ListNotations.
Open Scope list_scope.
Open Scope R_scope.
Open Scope res_scope.

Definition fails {A} (r : res A) : Prop := exists e, r = Err e.
Lemma fails_bind {A B} (r : res A) (k : A -> res B) : (forall a, fails (k a)) -> fails (rbind r k).
Proof. intros H. destruct r as [a|e]; [apply H|now exists e]. Qed.
Lemma fails_first {A B} (r : res A) (k : A -> res B) : fails r -> fails (rbind r k).
Proof. intros [e ->]. now exists e. Qed.
Lemma confusion_fails fq s v : wrong time_dim v -> fails (get_confusion_noise_q fq (Some s) (Given v)).
Proof.
  intros W. pose proof W as (_ & D & A). unfold get_confusion_noise_q. cbn [resolve]. destruct (String.eqb s "robson19"); [|destruct (String.eqb s "huang20"); [|destruct (String.eqb s "thiele21"); [|destruct (String.eqb s "karnesis21")]]].
  - apply fails_bind. intros f. apply fails_first. rewrite nearest_wrong by assumption. now eexists.
  - apply fails_first. rewrite nearest_wrong by assumption. now eexists.
  - rewrite four_years_wrong by assumption. now eexists.
  - apply fails_bind. intros f. apply fails_first. unfold to_value. destruct v as [x|x u]; [now eexists|]. rewrite to_wrong; [now eexists|reflexivity|exact D].
  - now eexists.
Qed.
Lemma resolve_name d s : exists s', resolve_conf_q d (CNameQ s) = CNameQ s'.
Proof. unfold resolve_conf_q. destruct (String.eqb s "auto"); now eexists. Qed.
Lemma psd_fails w fq i p v L a s : wrong time_dim v -> In i ["LISA"; "TianQin"; "DECIGO"]%string -> fails (power_spectral_density_q w fq i p (Given v) L a (CNameQ s)).
Proof.
  intros W [<-|[<-|[<-|[]]]]; unfold power_spectral_density_q; cbn [String.eqb Ascii.eqb Bool.eqb resolve].
  - destruct (resolve_name "karnesis21" s) as [s' ->]. do 3 (apply fails_bind; intros ?). apply fails_first, fails_first, confusion_fails, W.
  - destruct (resolve_name "huang20" s) as [s' ->]. apply fails_bind; intros ?. apply fails_first, confusion_fails, W.
  - destruct (resolve_name "karnesis21" s) as [s' ->]. do 3 (apply fails_bind; intros ?). apply fails_first, fails_first, confusion_fails, W.
Qed.
Lemma stationary_wrong_time : forall w jv gi m f ecc d tq nh sky rm rs kw s,
  wrong time_dim tq -> In (kwq_instrument kw) ["LISA"; "TianQin"; "DECIGO"]%string -> kwq_confusion kw = CNameQ s ->
  (exists e, snr_circ_stationary_q w jv gi m f d tq sky None kw = Err e) /\
  (exists e, snr_ecc_stationary_q w jv gi m f ecc d tq nh None rm rs kw = Err e).
Proof.
  intros w jv gi m f ecc d tq nh sky rm rs kw s W I C. split.
  - unfold snr_circ_stationary_q. destruct (negb _); [now eexists|]. apply fails_bind. intros h. apply fails_first. unfold noise_q. rewrite C. now apply psd_fails.
  - unfold snr_ecc_stationary_q. apply fails_bind. intros h. cbv zeta. destruct (negb _); [now eexists|]. apply fails_first. unfold noise2_q, noise_q. apply fails_first. rewrite C. now apply psd_fails.
Qed.

(** Without confusion noise the time is not looked at when the noise is computed, and read in SI base units. *)
Lemma quiet_noise w kw v v' fq : In (kwq_instrument kw) ["LISA"; "TianQin"; "DECIGO"]%string -> kwq_confusion kw = CNoneQ -> noise_q w kw None v fq = noise_q w kw None v' fq.
Proof.
  intros I C. unfold noise_q. rewrite C. destruct (mission_ignored w fq (kwq_custom kw) v v' (kwq_L kw) (kwq_approximate_R kw)) as (A & B & D).
  destruct I as [<-|[<-|[<-|[]]]]; assumption.
Qed.
Lemma circ_quiet w jv gi m f d m' f' d' tq s s' kw kw' :
  Forall2 reads m m' -> all_is frequency_dim f f' -> Forall2 reads d d' -> proper tq -> sky_reads s s' -> same_settings kw kw' ->
  In (kwq_instrument kw) ["LISA"; "TianQin"; "DECIGO"]%string -> kwq_confusion kw = CNoneQ ->
  snr_circ_stationary_q w jv gi m f d tq s None kw = snr_circ_stationary w jv gi m' f' d' (si tq) s' None kw'.
Proof.
  intros M F D P S K I C. assert (T : isv (dim_of tq) tq (si tq)) by (split; [exact P|split; reflexivity]).
  unfold snr_circ_stationary_q, snr_circ_stationary. rewrite (all_quantities _ _ _ frequency_not_none F). cbn [negb].
  rewrite (h_0_n_si jv gi m (newaxis f) _ [2%Z] d s m' (newaxis f') d' s' M (rel_newaxis _ _ _ (all_reads _ _ _ F)) D S).
  replace (map (fun _ : val => Fin 0) f) with (map (fun _ : num => Fin 0) f') by (clear - F; induction F; cbn; congruence).
  destruct (h_0_n _ _ _ _ _ _ _ _) as [h|e]; [|reflexivity]. cbn [rbind]. rewrite (quiet_noise w kw tq (in_unit second (si tq)) _ I C).
  pose proof (noise_si w kw kw' None None (in_unit second (si tq)) (si tq) (map (vmul (lit 2)) f) (map (nmul (Fin 2)) f') K Logic.I (isv_in _ _ _ unit_second)
    (rel_map _ _ _ _ _ _ F (fun v x => isv_double v x))) as N.
  destruct (noise_q _ _ _ _ _) as [n|e], (noise _ _ _ _ _) as [n'|e']; cbn [res_rel] in N; try contradiction; [|now subst].
  destruct N as (z & N). cbn [rbind]. eapply (bzip_decompose (isv (dim_of tq)) (isv time_dim)).
  - apply (forall2_map_l (isv (dim_of tq)) (fun x => vmul (Pl x) tq) (fun x => (x * si tq)%num)). intros x. now apply isv_times.
  - eapply forall2_imp; [|exact N]. now intros v x (V & _).
  - intros. eapply any_root; eassumption.
Qed.
Lemma ecc_quiet w jv gi m f ecc d m' f' d' tq nh rm rs kw kw' :
  Forall2 reads m m' -> all_is frequency_dim f f' -> Forall2 reads d d' -> proper tq -> same_settings kw kw' ->
  In (kwq_instrument kw) ["LISA"; "TianQin"; "DECIGO"]%string -> kwq_confusion kw = CNoneQ ->
  snr_ecc_stationary_q w jv gi m f ecc d tq nh None rm rs kw = snr_ecc_stationary w jv gi m' f' ecc d' (si tq) nh None rm rs kw'.
Proof.
  intros M F D P K I C. assert (T : isv (dim_of tq) tq (si tq)) by (split; [exact P|split; reflexivity]).
  unfold snr_ecc_stationary_q, snr_ecc_stationary. cbv zeta.
  rewrite (h_0_n_si jv gi m (newaxis f) _ _ d no_sky_args m' (newaxis f') d' no_sky M (rel_newaxis _ _ _ (all_reads _ _ _ F)) D no_sky_reads).
  destruct (h_0_n _ _ _ _ _ _ _ _) as [h|e]; [|reflexivity]. cbn [rbind]. rewrite (rel_length _ _ _ M).
  destruct (negb _); [reflexivity|]. pose proof (harmonics_is (arange1 nh) f f' F) as FN. set (fq := map _ f) in *. set (fs := map _ f') in *.
  assert (Q : noise2_q w kw None tq fq = noise2_q w kw None (in_unit second (si tq)) fq) by (unfold noise2_q; rewrite (quiet_noise w kw tq (in_unit second (si tq)) (concat fq) I C); reflexivity).
  rewrite Q. clear Q. pose proof (noise2_si w kw kw' None None (in_unit second (si tq)) (si tq) fq fs K Logic.I (isv_in _ _ _ unit_second) FN) as N.
  destruct (noise2_q _ _ _ _ _) as [n|e], (noise2 _ _ _ _ _) as [n'|e']; cbn [res_rel] in N; try contradiction; [|now subst].
  destruct N as (z & N). cbn [rbind].
  assert (E : (r <- bzip2 vdiv (map (map (fun x => vmul (Pl (x ^^ 2)%num) tq)) (map (@concat num) h)) n ;; mapM (mapM decompose_value) r)
    = bzip2 ndiv (map (map (fun x => x ^^ 2 * si tq)%num) (map (@concat num) h)) n').
  { apply (bzip2_decompose (isv (dim_of tq)) (isv time_dim)); [| |intros; eapply any_ratio; eassumption].
    - apply forall2_map_l. intros r. apply forall2_map_l. intros x. now apply isv_times.
    - eapply forall2_imp; [|exact N]. intros v x. apply forall2_imp. now intros a b (V & _). }
  rewrite <- E. destruct (bzip2 vdiv _ n); reflexivity.
Qed.
Theorem stationary_quiet_time : forall w jv gi m f d x s s' kw kw' um uf ud,
  unit_for mass_dim um -> unit_for frequency_dim uf -> unit_for length_dim ud -> sky_reads s s' -> same_settings kw kw' ->
  In (kwq_instrument kw) ["LISA"; "TianQin"; "DECIGO"]%string -> kwq_confusion kw = CNoneQ ->
  let snr t := snr_circ_stationary_q w jv gi (map (in_unit um) m) (map (in_unit uf) f) (map (in_unit ud) d) t s None kw in
  let snr_ecc t e nh rm rs := snr_ecc_stationary_q w jv gi (map (in_unit um) m) (map (in_unit uf) f) e (map (in_unit ud) d) t nh None rm rs kw in
  (snr (Qy x meter) = snr (Qy x second) /\ snr (Pl x) = snr (Qy x second)) /\
  (forall e nh rm rs, snr_ecc (Qy x meter) e nh rm rs = snr_ecc (Qy x second) e nh rm rs /\ snr_ecc (Pl x) e nh rm rs = snr_ecc (Qy x second) e nh rm rs).
Proof.
  intros w jv gi m f d x s s' kw kw' um uf ud UM UF UD S K I C snr snr_ecc.
  assert (P1 : proper (Qy x meter)) by (unfold proper; cbn; lra). assert (P2 : proper (Qy x second)) by (unfold proper; cbn; lra).
  assert (P3 : proper (Pl x)) by (unfold proper; cbn; lra).
  assert (E1 : si (Qy x meter) = x) by (unfold si; cbn [mag unit_of meter u_size]; apply scale_one).
  assert (E2 : si (Qy x second) = x) by (unfold si; cbn [mag unit_of second u_size]; apply scale_one).
  assert (E3 : si (Pl x) = x) by apply si_pl.
  assert (A : forall t, proper t -> si t = x -> snr t = snr_circ_stationary w jv gi m f d x s' None kw').
  { intros t P <-. unfold snr. apply circ_quiet; auto; [eapply in_reads; eauto|now apply list_is|eapply in_reads; eauto]. }
  assert (B : forall t e nh rm rs, proper t -> si t = x -> snr_ecc t e nh rm rs = snr_ecc_stationary w jv gi m f e d x nh None rm rs kw').
  { intros t e nh rm rs P <-. unfold snr_ecc. apply ecc_quiet; auto; [eapply in_reads; eauto|now apply list_is|eapply in_reads; eauto]. }
  split; [split; rewrite !A; auto|]. intros. split; rewrite !B; auto.
Qed.
