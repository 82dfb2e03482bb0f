(** UnitsSourceSnr.v -- strains and SNRs of Source with quantities against SI values. *)
From Coq Require Import String Reals ZArith List Bool Lra Lia.
From Verif Require Import Num NumFacts Np NpFacts Utils Strain Psd Evol Snr Interp Harmonics ScParams Source History Units UnitsSpec UnitsFacts UnitsThms
  UnitsStrain UnitsEvol UnitsEvolSpec UnitsEvolFacts UnitsEvolThms UnitsEvolRuns UnitsEccRuns UnitsPsd UnitsPsdSpec UnitsPsdFacts UnitsPsdThms UnitsSnr
  UnitsSnrSpec UnitsSnrFacts UnitsSnrEvol UnitsSnrEcc UnitsSnrThms UnitsSource UnitsSourceSpec UnitsSourceParams UnitsSourceFacts.
Import ListNotations.
Open Scope list_scope.
Open Scope R_scope.
Open Scope res_scope.

Lemma which_si w q s : same_source q s -> which_or_all_q w q = which_or_all w s.
Proof. intros S. unfold which_or_all_q, which_or_all. now rewrite (n_sources_si _ _ S). Qed.
Lemma take_mask_rel {A B} (R : A -> B -> Prop) m l l' : Forall2 R l l' -> res_rel (Forall2 R) (take_mask m l) (take_mask m l').
Proof. intros F. unfold take_mask. rewrite (rel_length _ _ _ F). destruct (_ =? _)%nat; cbn; [now apply rel_select|reflexivity]. Qed.
Lemma sky_si m q s : same_source q s -> res_rel sky_reads (masked_sky_q m q) (masked_sky m s).
Proof.
  intros S. destruct (ss_sky _ _ S) as (P & L & I). cbn in P, L, I. unfold masked_sky_q, masked_sky.
  destruct (q_position q) as [p|], (s_position s) as [p'|]; cbn in P; try contradiction; [|now repeat split].
  pose proof (take_mask_rel _ m _ _ P) as PM.
  cbn [take_opt]. destruct (take_mask m p) as [pm|e], (take_mask m p') as [pm'|e']; cbn in PM; try contradiction; cbn [rbind]; [|exact PM].
  destruct (q_polarisation q) as [l|], (s_polarisation s) as [l'|]; cbn in L; try contradiction; [|reflexivity].
  pose proof (take_mask_rel _ m _ _ L) as LM.
  destruct (take_mask m l) as [lm|e], (take_mask m l') as [lm'|e']; cbn in LM; try contradiction; cbn [rbind]; [|exact LM].
  destruct (q_inclination q) as [i|], (s_inclination s) as [i'|]; cbn in I; try contradiction; [|reflexivity].
  pose proof (take_mask_rel _ m _ _ I) as IM.
  destruct (take_mask m i) as [im|e], (take_mask m i') as [im'|e']; cbn in IM; try contradiction; cbn [rbind]; [|exact IM].
  cbn. repeat split; assumption.
Qed.
Lemma some_reads d v x : in_some_unit d v x -> Forall2 reads v x.
Proof. intros (u & U & ->). eapply in_reads, U. Qed.

Lemma strain_si fq f X y h w q s :
  (forall jv gi m f0 e n d sk m' f' d' sk', Forall2 reads m m' -> Forall2 (Forall2 reads) f0 f' -> Forall2 reads d d' -> sky_reads sk sk' ->
     fq jv gi m f0 e n d sk = f jv gi m' f' e n d' sk') ->
  same_world X y -> same_source q s -> get_strain_q fq X h w q = get_strain f y h w s.
Proof.
  intros H W S. unfold get_strain_q, get_strain. rewrite (which_si _ _ _ S), (ss_merged _ _ S), (ss_ecc _ _ S), (m_c_si _ _ S), (n_sources_si _ _ S), (ss_g _ _ S).
  rewrite (x_si_eq _ _ W). cbv zeta.
  destruct h as [n|n|n]; cbn [rbind]; try reflexivity;
  (destruct (logical_and _ _) as [insp|e]; cbn [rbind]; [|reflexivity];
   pose proof (sky_si insp q s S) as K;
   destruct (masked_sky_q insp q) as [sk|e], (masked_sky insp s) as [sk'|e']; cbn in K; try contradiction; cbn [rbind]; [|now subst];
   destruct (m_c s) as [mc|e]; cbn [rbind rmap]; [|reflexivity];
   rewrite (H _ _ _ _ _ _ _ _ (select insp mc) (newaxis (select insp (s_f_orb s))) (select insp (s_dist s)) sk'); [reflexivity| | | |exact K];
   [rewrite select_of_map; exact (in_reads mass_dim msun _ UnitsEvolFacts.unit_msun)
   |apply rel_newaxis, (some_reads frequency_dim), some_select, S
   |apply (some_reads length_dim), some_select, S]).
Qed.

(** *** SNRs *)
Lemma fill_si a b dq d : same_args a b -> same_params dq d -> same_args (fill_args_q a dq) (fill_args b d).
Proof.
  intros (A1 & A2 & A3 & A4 & A5 & A6) D. unfold same_args, fill_args_q, fill_args. cbn [aq_t_obs aq_instrument aq_custom aq_L aq_approximate_R aq_confusion
    a_t_obs a_instrument a_custom a_L a_approximate_R a_confusion].
  repeat match goal with |- _ /\ _ => split end; apply or_default_si; try assumption; now apply get_or_none_si.
Qed.
Lemma resolve_si a b : same_args a b -> same_args (resolve_args_q a) (resolve_args b).
Proof.
  intros (A1 & A2 & A3 & A4 & A5 & A6). unfold same_args, resolve_args_q, resolve_args. cbn [aq_t_obs aq_instrument aq_custom aq_L aq_approximate_R aq_confusion
    a_t_obs a_instrument a_custom a_L a_approximate_R a_confusion].
  repeat match goal with |- _ /\ _ => split end; try assumption. eapply resolve_t_obs_si; eassumption.
Qed.
Lemma args_dict_si a b : same_args a b -> same_params (args_dict_q a) (args_dict b).
Proof. intros (A1 & A2 & A3 & A4 & A5 & A6). repeat (constructor; [now split|]). constructor. Qed.
Lemma run_groups_ext r r' h e snr msh : (forall m u, r m u = r' m u) -> run_groups r h e snr msh = run_groups r' h e snr msh.
Proof.
  intros H. unfold run_groups. generalize (Ok (snr, msh) : res (list num * list Z)). induction harmonic_groups as [|g l IH]; intros acc; [reflexivity|].
  cbn [fold_left]. rewrite <- IH. f_equal. destruct acc as [st|er]; cbn [rbind]; [|reflexivity]. cbv zeta. now rewrite H.
Qed.
Lemma curve_same q s : same_source q s -> same_curve (q_sc q) (s_sc s).
Proof. intros S. rewrite (ss_sc _ _ S). destruct (s_sc s) as [g|]; [|exact Logic.I]. exact (source_curve_same g). Qed.
Lemma stationary_values_si X y a b insp q s : same_world X y -> same_args a b -> same_source q s ->
  stationary_values_q X a insp q = stationary_values y b insp s.
Proof.
  intros W A S. unfold stationary_values_q, stationary_values.
  rewrite (ecc_tol_si _ _ S), (ss_ecc _ _ S), (m_c_si _ _ S), (n_sources_si _ _ S), (ss_g _ _ S), (ss_harm _ _ S), (x_si_eq _ _ W).
  pose proof (time_of_si _ _ (proj1 A)) as T. destruct (time_of_q (aq_t_obs a)) as [v|e], (time_of (a_t_obs b)) as [t|e']; cbn in T; try contradiction;
    cbn [rbind]; [|now subst]. destruct (as_some _ _ _ time_not_none T) as (ut & UT & ->).
  destruct (ecc_tol s) as [tol|e]; cbn [rbind]; [|reflexivity].
  destruct (logical_and _ insp) as [em|e]; cbn [rbind]; [|reflexivity].
  destruct (logical_and _ insp) as [cm|e]; cbn [rbind]; [|reflexivity].
  pose proof (kw_si X y _ _ W (args_dict_si _ _ A)) as K.
  destruct (kw_of_q X (args_dict_q a)) as [kw|e], (kw_of y (args_dict b)) as [kw'|e']; cbn [res_rel] in K; try contradiction; cbn [rbind]; [|now subst].
  pose proof (sky_si cm q s S) as Sk.
  destruct (masked_sky_q cm q) as [sk|e], (masked_sky cm s) as [sk'|e']; cbn [res_rel] in Sk; try contradiction; cbn [rbind]; [|now subst].
  destruct (m_c s) as [mc|e]; cbn [rbind rmap]; [|reflexivity].
  destruct (ss_f_orb _ _ S) as (uf & UF & ->), (ss_dist _ _ S) as (ud & UD & ->).
  pose proof (curve_same q s S) as C. cbv zeta. rewrite !select_of_map.
  rewrite (circ_stationary_in _ _ _ _ _ _ t sk sk' _ _ kw kw' msun uf ud ut UnitsEvolFacts.unit_msun UF UD UT Sk C K).
  destruct (if any cm then _ else _) as [snr|e]; cbn [rbind]; [|reflexivity]. destruct (any em); [|reflexivity].
  apply run_groups_ext. intros m u. rewrite !select_of_map.
  apply (ecc_stationary_in _ _ _ _ _ _ _ t u _ _ true false kw kw' msun uf ud ut UnitsEvolFacts.unit_msun UF UD UT C K).
Qed.
Lemma evolving_values_si X y a b n insp q s : same_world X y -> same_args a b -> same_source q s ->
  evolving_values_q X a n insp q = evolving_values y b n insp s.
Proof.
  intros W A S. unfold evolving_values_q, evolving_values.
  rewrite (ecc_tol_si _ _ S), (ss_ecc _ _ S), (n_sources_si _ _ S), (ss_g _ _ S), (ss_harm _ _ S), (x_si_eq _ _ W), (ss_n_proc _ _ S), (ss_t_merge _ _ S).
  pose proof (time_of_si _ _ (proj1 A)) as T. destruct (time_of_q (aq_t_obs a)) as [v|e], (time_of (a_t_obs b)) as [t|e']; cbn in T; try contradiction;
    cbn [rbind]; [|now subst]. destruct (as_some _ _ _ time_not_none T) as (ut & UT & ->).
  destruct (ecc_tol s) as [tol|e]; cbn [rbind]; [|reflexivity].
  destruct (logical_and _ insp) as [em|e]; cbn [rbind]; [|reflexivity].
  destruct (logical_and _ insp) as [cm|e]; cbn [rbind]; [|reflexivity].
  pose proof (kw_si X y _ _ W (args_dict_si _ _ A)) as K.
  destruct (kw_of_q X (args_dict_q a)) as [kw|e], (kw_of y (args_dict b)) as [kw'|e']; cbn [res_rel] in K; try contradiction; cbn [rbind]; [|now subst].
  destruct (ss_f_orb _ _ S) as (uf & UF & ->), (ss_dist _ _ S) as (ud & UD & ->), (ss_m_1 _ _ S) as (u1 & U1 & ->), (ss_m_2 _ _ S) as (u2 & U2 & ->).
  pose proof (curve_same q s S) as C. cbv zeta. rewrite !select_of_map.
  assert (TM : take_opt cm (option_map (map (in_unit gigayear)) (s_t_merge s)) = rmap (list_in gigayear) (take_opt cm (s_t_merge s))).
  { destruct (s_t_merge s) as [l|]; [|reflexivity]. cbn. rewrite take_mask_of_map. destruct (take_mask cm l); reflexivity. }
  rewrite TM.
  assert (E : (tm <- rmap (list_in gigayear) (take_opt cm (s_t_merge s));;
               v <- snr_circ_evolving_q (x_psd y) (x_jv y) (s_g s) (x_quad y) (map (in_unit u1) (select cm (s_m_1 s))) (map (in_unit u2) (select cm (s_m_2 s)))
                      (map (in_unit uf) (select cm (s_f_orb s))) (map (in_unit ud) (select cm (s_dist s))) (in_unit ut t) n tm (q_sc q) kw;;
               Ok (scatter cm v (np_repeat (Fin 0) (n_sources s)))) =
              (tm <- take_opt cm (s_t_merge s);;
               v <- snr_circ_evolving (x_psd y) (x_jv y) (s_g s) (x_quad y) (select cm (s_m_1 s)) (select cm (s_m_2 s))
                      (select cm (s_f_orb s)) (select cm (s_dist s)) t n tm (s_sc s) kw';;
               Ok (scatter cm v (np_repeat (Fin 0) (n_sources s))))).
  { destruct (take_opt cm (s_t_merge s)) as [tm|e]; cbn [rmap rbind]; [|reflexivity].
    now rewrite (circ_evolving_si _ _ _ _ _ _ _ _ t n tm _ _ kw kw' u1 u2 uf ud ut gigayear U1 U2 UF UD UT UnitsEvolFacts.unit_gigayear C K). }
  rewrite E. destruct (if any cm then _ else _) as [snr|e]; cbn [rbind]; [|reflexivity]. destruct (any em); [|reflexivity].
  apply run_groups_ext. intros m u. rewrite !select_of_map.
  exact (ecc_evolving_si _ _ _ _ _ _ _ _ _ _ _ _ t n None _ _ _ _ _ kw kw' u1 u2 uf ud ut gigayear U1 U2 UF UD UT UnitsEvolFacts.unit_gigayear C K).
Qed.
Lemma record_si insp snr msh : agree eq (record_snr_q insp snr msh) (record_snr insp snr msh).
Proof.
  unfold record_snr_q, record_snr. eapply agree_bind.
  - apply agree_modify. intros q s S. rewrite (n_sources_si _ _ S), (ss_max_snr_harmonic _ _ S). now apply same_set_max.
  - intros _ _ _. apply agree_modify. intros q s S. rewrite (n_sources_si _ _ S), (ss_snr _ _ S). now apply same_set_snr.
Qed.
Lemma method_si X y vq v a b w : same_world X y -> same_args a b ->
  (forall a b i q s, same_args a b -> same_source q s -> vq a i q = v b i s) ->
  agree eq (snr_method_q X vq a w) (snr_method y v b w).
Proof.
  intros W A H. unfold snr_method_q, snr_method. eapply agree_bind; [exact agree_self|]. intros q s S. cbv zeta.
  rewrite (which_si _ _ _ S).
  assert (A2 : same_args (resolve_args_q (fill_args_q a (q_params q))) (resolve_args (fill_args b (s_params s)))).
  { apply resolve_si, fill_si; [exact A|apply S]. }
  eapply agree_bind; [apply update_si; [exact W|now apply args_dict_si]|]. intros _ _ _.
  eapply agree_bind; [exact agree_self|]. intros q2 s2 S2. rewrite (ss_merged _ _ S2).
  eapply agree_bind; [now apply agree_lift_eq|]. intros insp ? <-.
  eapply agree_bind; [apply agree_lift_eq, H; eassumption|]. intros r ? <-.
  eapply agree_bind; [apply record_si|]. intros _ _ _. now apply agree_lift_eq.
Qed.
Lemma snr_stationary_si X y a b w : same_world X y -> same_args a b -> agree eq (get_snr_stationary_q X a w) (get_snr_stationary y b w).
Proof. intros W A. apply method_si; auto. intros. now apply stationary_values_si. Qed.
Lemma snr_evolving_si X y a b n w : same_world X y -> same_args a b -> agree eq (get_snr_evolving_q X a n w) (get_snr_evolving y b n w).
Proof. intros W A. apply method_si; auto. intros. now apply evolving_values_si. Qed.
Lemma snr_source_si X y a b n w : same_world X y -> same_args a b -> agree eq (get_snr_source_q X a n w) (get_snr_source y b n w).
Proof.
  intros W A. unfold get_snr_source_q, get_snr_source. eapply agree_bind; [exact agree_self|]. intros q0 s0 S0. cbv zeta.
  set (a' := fill_args_q a (q_params q0)). set (b' := fill_args b (s_params s0)).
  assert (A2 : same_args a' b') by (apply fill_si; [exact A|apply S0]). clearbody a' b'.
  eapply agree_bind; [apply update_si; [exact W|now apply args_dict_si]|]. intros _ _ _.
  eapply agree_bind; [exact agree_self|]. intros q s S. rewrite (n_sources_si _ _ S), (which_si _ _ _ S), (ss_merged _ _ S).
  eapply agree_bind; [apply agree_lift_eq, source_mask_si; [exact S|apply A2]|]. intros st ? <-.
  eapply agree_bind; [now apply agree_lift_eq|]. intros stm ? <-.
  eapply agree_bind; [apply agree_lift_eq, source_mask_si; [exact S|apply A2]|]. intros ev ? <-.
  eapply agree_bind; [now apply agree_lift_eq|]. intros evm ? <-.
  apply (agree_bind eq).
  { apply agree_if; [|now apply agree_ret]. eapply agree_bind; [now apply snr_stationary_si|]. intros v ? <-. now apply agree_ret. }
  intros snr ? <-. apply (agree_bind eq).
  { apply agree_if; [|now apply agree_ret]. eapply agree_bind; [now apply snr_evolving_si|]. intros v ? <-. now apply agree_ret. }
  intros snr2 ? <-. eapply agree_bind; [apply agree_modify; intros; now apply same_set_snr|]. intros _ _ _. now apply agree_ret.
Qed.
Lemma snr_si X y a b n w : same_world X y -> same_args a b -> agree eq (get_snr_q X a n w) (get_snr y b n w).
Proof.
  intros W A. unfold get_snr_q, get_snr. eapply agree_bind; [exact agree_self|]. intros q s S. rewrite (ss_class _ _ S).
  assert (A2 : same_args (mkArgsQ (aq_t_obs a) (aq_instrument a) (aq_custom a) PNilQ PNilQ PNilQ)
                         (mkArgs (a_t_obs b) (a_instrument b) (a_custom b) PNil PNil PNil)).
  { destruct A as (A1 & A2 & A3 & _). repeat split; assumption. }
  destruct (s_class s); try (now apply snr_source_si).
  - eapply agree_bind; [now apply snr_stationary_si|]. intros v ? <-.
    eapply agree_bind; [apply agree_modify; intros; now apply same_set_snr|]. intros _ _ _. now apply agree_ret.
  - eapply agree_bind; [now apply snr_evolving_si|]. intros v ? <-.
    eapply agree_bind; [apply agree_modify; intros; now apply same_set_snr|]. intros _ _ _. now apply agree_ret.
Qed.
