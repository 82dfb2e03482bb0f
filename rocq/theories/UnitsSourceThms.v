(** UnitsSourceThms.v -- construction and histories of Source with quantities against SI values. *)
From Coq Require Import String Reals ZArith List Bool Lra Lia.
From Verif Require Import Num NumFacts Np NpFacts Utils Strain Psd Evol Snr Interp Harmonics ScParams Source History Units UnitsSpec UnitsFacts UnitsThms
  UnitsStrain UnitsEvol UnitsEvolSpec UnitsEvolFacts UnitsEvolThms UnitsEvolRuns UnitsEccRuns UnitsPsd UnitsPsdSpec UnitsPsdFacts UnitsPsdThms UnitsSnr
  UnitsSnrSpec UnitsSnrFacts UnitsSnrEvol UnitsSnrEcc UnitsSnrThms UnitsSource UnitsSourceSpec UnitsSourceParams UnitsSourceFacts UnitsSourceSnr UnitsSourceEvol.
Import ListNotations.
Open Scope list_scope.
Open Scope R_scope.
Open Scope res_scope.

(** *** Arguments *)
Lemma ensure_map {A U} (l : list (pyval A U)) : fst (ensure_array l) = map (fun v => fst (ensure_array_one v)) l.
Proof. induction l as [|v l IH]; [reflexivity|]. cbn. destruct (ensure_array_one v), (ensure_array l). cbn in *. now rewrite IH. Qed.
Lemma norm_items {A U} (v : pyval A U) : items (fst (ensure_array_one v)) = items v.
Proof. now destruct v. Qed.
Lemma norm_list {U} (v : pyval num U) : list_of (fst (ensure_array_one v)) = list_of v.
Proof. now destruct v. Qed.
Lemma arg_exists d v x : same_arg d v x -> py_exists v = py_exists x.
Proof. destruct v, x; cbn; try contradiction; auto. Qed.
Lemma arg_units d v x : same_arg d v x -> py_has_units v = py_has_units x.
Proof. destruct v, x; cbn; try contradiction; auto. Qed.
Lemma arg_single d v x : same_arg d v x -> is_single v = is_scalar x.
Proof. destruct v, x; cbn; try contradiction; auto. Qed.
Lemma arg_length d v x : same_arg d v x -> length (items v) = length (list_of x).
Proof.
  destruct v, x; cbn; try contradiction; auto; [intros H; eapply some_length, H|intros ->; apply map_length|intros ->; apply map_length].
Qed.
Lemma arg_count d v x : same_arg d v x -> count_of v = len_of x.
Proof. intros H. pose proof (arg_length _ _ _ H). destruct v, x; cbn in *; try contradiction; auto; now f_equal. Qed.
Lemma arg_some d v x : d <> dimensionless -> same_arg d v x -> py_has_units x = true -> in_some_unit d (items v) (list_of x).
Proof.
  intros N. destruct v, x; cbn; try contradiction; try discriminate; auto. intros H _. destruct (as_some _ _ _ N H) as (w & U & ->). now exists w.
Qed.
Lemma some_isv d v x : in_some_unit d v x -> Forall2 (isv d) v x.
Proof. intros (u & U & ->). now apply list_isv. Qed.
Lemma f_orb_from_a_si a m1 m2 a' m1' m2' : same_arg length_dim a a' -> same_arg mass_dim m1 m1' -> same_arg mass_dim m2 m2' ->
  res_rel (same_arg frequency_dim) (f_orb_from_a_q a m1 m2) (f_orb_from_a a' m1' m2').
Proof.
  intros A M1 M2. unfold f_orb_from_a_q, f_orb_from_a.
  rewrite (arg_units _ _ _ A), (arg_units _ _ _ M1), (arg_units _ _ _ M2), (arg_single _ _ _ A), (arg_single _ _ _ M1), (arg_single _ _ _ M2).
  destruct (py_has_units a') eqn:Ea; [|reflexivity]. destruct (py_has_units m1') eqn:E1; [|reflexivity]. destruct (py_has_units m2') eqn:E2; [|reflexivity].
  cbn [andb].
  rewrite (f_arr_si _ _ _ (list_of a') (list_of m1') (list_of m2') (some_isv _ _ _ (arg_some _ _ _ length_not_none A Ea))
    (arg_some _ _ _ mass_not_none M1 E1) (arg_some _ _ _ mass_not_none M2 E2)).
  destruct (get_f_arr _ _ _) as [f|e]; cbn [rmap rbind res_rel]; [|reflexivity].
  destruct (is_scalar a' && is_scalar m1' && is_scalar m2'), f as [|x f]; cbn [map same_arg];
    try (apply (some_in_unit frequency_dim hertz _ UnitsEvolFacts.unit_hertz)); try (exists hertz; split; [exact UnitsEvolFacts.unit_hertz|reflexivity]).
  exact (isv_in frequency_dim hertz x UnitsEvolFacts.unit_hertz).
Qed.

(** *** The constructor *)
Definition sky_rel (v : option (list (val * val)) * option (list val) * option (list val))
                   (x : option (list (num * num)) * option (list num) * option (list num)) : Prop :=
  sky_reads (mkSkyQ (fst (fst v)) (snd v) (snd (fst v))) (mkSky (fst (fst x)) (snd x) (snd (fst x))).
Lemma radians_angle l : Forall2 angle (map (fun v => Qy v radian) l) l.
Proof.
  induction l as [|x l IH]; constructor; [|exact IH]. split; [exact radian_pos|]. split; [reflexivity|]. unfold si. cbn. apply scale_one.
Qed.
Lemma existsb_lengths n a b c d e : existsb (fun k => negb (k =? n)%nat) [length (a : list num); length (b : list num); length (c : list num); length (d : list num); length (e : list num)] =
  existsb (fun l => negb (length l =? n)%nat) [a; b; c; d; e].
Proof. reflexivity. Qed.
Lemma init_si X y k i j : same_world X y -> same_init i j -> res_rel same_source (init_q X k i) (init y k j).
Proof.
  intros W I. destruct I as [IM1 IM2 IE ID INP IF IA IS IW IG IST IIG IIS IP]. unfold init_q, init.
  rewrite (arg_exists _ _ _ IF), (arg_exists _ _ _ IA), (x_si_eq _ _ W).
  destruct (negb _ && negb _); [reflexivity|].
  apply (rel_bind sky_rel).
  { destruct IS as (SP & SL & SI). cbn in SP, SL, SI.
    destruct (iq_position i) as [p|], (i_position j) as [p'|]; cbn in SP; try contradiction.
    - apply (rel_bind (Forall2 angle)).
      { destruct (iq_inclination i), (i_inclination j); cbn in SI; try contradiction; [exact SI|]. rewrite (arg_count _ _ _ IM1).
        destruct (len_of (i_m_1 j)); cbn; [apply radians_angle|reflexivity]. }
      intros inc inc' HI. apply (rel_bind (Forall2 angle)).
      { destruct (iq_polarisation i), (i_polarisation j); cbn in SL; try contradiction; [exact SL|]. rewrite (arg_count _ _ _ IM1).
        destruct (len_of (i_m_1 j)); cbn; [apply radians_angle|reflexivity]. }
      intros pol pol' HP. rewrite IE. destruct (existsb _ _); [reflexivity|].
      eapply rel_bind.
      { eapply (rel_bzip _ (fun _ _ => True)); [exact SP| |intros a b c d H _; exact H].
        pose proof (arg_length _ _ _ ID) as L. revert L. generalize (items (iq_dist i)), (list_of (i_dist j)). clear.
        induction l as [|v l IH]; intros [|x l'] L; try discriminate; constructor; auto. }
      intros q q' Q. cbn. unfold sky_rel. cbn. repeat split; assumption.
    - destruct (iq_inclination i), (i_inclination j); cbn in SI; try contradiction; [reflexivity|].
      destruct (iq_polarisation i), (i_polarisation j); cbn in SL; try contradiction; [reflexivity|]. cbn. unfold sky_rel. cbn. repeat split. }
  intros [[pos inc] pol] [[pos' inc'] pol'] SK.
  apply (rel_bind (same_arg frequency_dim)).
  { destruct (py_exists (i_f_orb j)); [exact IF|]. now apply f_orb_from_a_si. }
  intros f f' F.
  assert (U : forallb py_has_units [iq_m_1 i; iq_m_2 i; iq_dist i; f] = forallb py_has_units [i_m_1 j; i_m_2 j; i_dist j; f']).
  { cbn. now rewrite (arg_units _ _ _ IM1), (arg_units _ _ _ IM2), (arg_units _ _ _ ID), (arg_units _ _ _ F). }
  rewrite U. destruct (forallb py_has_units [i_m_1 j; i_m_2 j; i_dist j; f']) eqn:H; cbn [negb]; [|reflexivity].
  cbn in H. rewrite !andb_true_iff in H. destruct H as (H1 & H2 & H3 & H4 & _).
  rewrite !ensure_map. cbn [map]. rewrite !norm_items, !norm_list, IE, IW.
  rewrite (arg_length _ _ _ IM1), (arg_length _ _ _ IM2), (arg_length _ _ _ ID), (arg_length _ _ _ F).
  destruct (len_of _); cbn [rbind]; [|reflexivity]. cbv zeta. rewrite existsb_lengths. destruct (existsb _ _); [reflexivity|].
  set (sq := mkSrcQ _ _ _ _ _ _ _ _ _ _ _ _ _ _ _ _ _ _ _ _ _). set (s := mkSrc _ _ _ _ _ _ _ _ _ _ _ _ _ _ _ _ _ _ _ _ _).
  assert (S : same_source sq s).
  { constructor; cbn; auto; try (apply arg_some; auto with units; fail). constructor. }
  clearbody sq s. rewrite IG, IIG.
  assert (A : agree eq (mbind_q (assign_gw_lum_tol_q X (i_gw_lum_tol j)) (fun _ => mbind_q (assign_params_q X (iq_sc_params i) None) (fun _ => set_g_q X (i_interpolate_g j))))
                       (mbind (assign_gw_lum_tol y (i_gw_lum_tol j)) (fun _ => mbind (assign_params y (i_sc_params j) None) (fun _ => set_g y (i_interpolate_g j))))).
  { eapply agree_bind; [now apply tolerance_si|]. intros _ _ _. eapply agree_bind; [apply assign_si; [exact W|exact IP|exact Logic.I]|]. intros _ _ _. now apply set_g_si. }
  destruct (A sq s S) as (A1 & A2).
  destruct (mbind_q _ _ sq) as [sq2 [r|e]], (mbind _ _ s) as [s2 [r'|e']]; cbn in A1, A2; try contradiction; [exact A1|exact A2].
Qed.
Lemma evolve_new_si X y t t' : same_world X y -> same_time t t' -> agree same_source (evolve_new_q X t) (evolve_new y t').
Proof.
  intros W T. unfold evolve_new_q, evolve_new. eapply agree_bind; [now apply ensure_si|]. intros v tm ->.
  eapply agree_bind; [exact agree_self|]. intros q s S.
  eapply agree_bind; [apply agree_lift; now apply evolved_si|]. intros v [[mg ec] f] ->. cbn [fst snd]. rewrite (ss_harm _ _ S).
  apply (agree_bind same_source).
  { apply agree_lift. destruct (h_gw_lum_tol (s_harm s)) as [tol|]; [|reflexivity]. apply init_si; [exact W|].
    constructor; cbn; auto; try (apply S). exact (some_in_unit frequency_dim hertz f UnitsEvolFacts.unit_hertz). }
  intros qn sn N. destruct (as_time _ _ T) as (u & U & ->). rewrite (n_sources_si _ _ S), times_si.
  eapply agree_bind; [now apply agree_lift_map|]. intros v ts ->. rewrite (remaining_si u tm ts U).
  eapply agree_bind; [now apply agree_lift_map|]. intros v l ->. apply agree_ret.
  rewrite (ss_ecc _ _ N). apply same_set_orbit; [apply N|]. apply same_set_t_merge; [reflexivity|].
  destruct N; constructor; cbn; auto; apply S.
Qed.

(** *** Histories *)
Lemma discard_si {A B} (R : A -> B -> Prop) m n : agree R m n -> agree eq (discard_q m) (discard n).
Proof. intros H. eapply agree_bind; [exact H|]. intros. now apply agree_ret. Qed.
Theorem step_si X y o p : same_world X y -> same_op o p -> agree eq (step_q X o) (step y p).
Proof.
  intros W O. destruct o, p; cbn in O; try contradiction; cbn [step_q step];
    repeat match goal with H : _ /\ _ |- _ => destruct H end; subst.
  - now apply setitem_si.
  - now apply update_si.
  - eapply agree_bind; [exact agree_self|]. intros q s S. apply assign_si; [exact W|exact O|cbn; apply S].
  - now apply ior_si.
  - now apply setdefault_si.
  - apply agree_raise.
  - apply agree_modify. intros. now apply same_interpolate.
  - now apply set_sc_si.
  - now apply set_g_si.
  - now apply tolerance_si.
  - now apply a_setter_si.
  - eapply discard_si. now apply snr_si.
  - eapply discard_si. now apply snr_stationary_si.
  - eapply discard_si. now apply snr_evolving_si.
  - eapply discard_si. now apply merger_si.
  - now apply evolve_si.
Qed.
Lemma rel_unit (a b : res unit) : res_rel eq a b -> a = b.
Proof. destruct a, b; cbn; try contradiction; congruence. Qed.
Theorem run_si X y os ps : same_world X y -> Forall2 same_op os ps -> forall q s, same_source q s ->
  snd (run_q X os q) = snd (run y ps s) /\ same_source (fst (run_q X os q)) (fst (run y ps s)).
Proof.
  intros W F. induction F as [|o p os ps O F IH]; intros q s S; [now split|]. cbn [run_q run].
  destruct (step_si X y o p W O q s S) as (S1 & R). apply rel_unit in R.
  destruct (step_q X o q) as [q1 r], (step y p s) as [s1 r']. cbn in S1, R. subst r'. destruct (IH q1 s1 S1) as (E & S2).
  destruct (run_q X os q1), (run y ps s1). cbn in *. split; [now rewrite E|exact S2].
Qed.
