(** UnitsSourceWrong.v -- quantities of the wrong dimension handed to a Source. *)
From Coq Require Import String Reals ZArith List Bool Lra Lia.
From Verif Require Import Num NumFacts Np NpFacts Utils Strain Psd Evol Snr Interp InterpFacts Harmonics ScParams Source History Toy Units UnitsSpec UnitsFacts
  UnitsThms UnitsWrong UnitsStrain UnitsEvol UnitsEvolSpec UnitsEvolFacts UnitsPsd UnitsPsdSpec UnitsPsdFacts UnitsPsdWrong UnitsPsdThms UnitsSnr UnitsSnrSpec UnitsSnrFacts UnitsSnrEvol UnitsSource
  UnitsSourceSpec UnitsSourceParams UnitsSourceFacts UnitsSourceSnr UnitsSourceEvol UnitsSourceThms UnitsSourceKeep UnitsSourceToy.
Import ListNotations.
Open Scope list_scope.
Open Scope R_scope.
Open Scope res_scope.

Lemma bzipM_head {A B C} (f : A -> B -> res C) a b l m e : length l = length m -> f a b = Err e -> bzipM f (a :: l) (b :: m) = Err e.
Proof. intros L E. unfold bzipM. cbn [length]. rewrite L, Nat.eqb_refl. cbn. now rewrite E. Qed.
Lemma vge_wrong v w x u : wrong time_dim v -> w = Qy x u -> unit_for time_dim u -> vge v w = Err UnitError.
Proof.
  intros (P & D & A) -> (_ & U). unfold vge. destruct v as [y|y z]; cbn [vcompare]; unfold dim_of in D; cbn in D.
  - rewrite dim_eqb_neq by (rewrite U; exact (not_eq_sym D)). cbn in A. now rewrite A.
  - rewrite dim_eqb_neq by (rewrite U; exact (not_eq_sym D)). reflexivity.
Qed.

(** *** Evolution *)
Lemma ensure_cases X q : exists tm, fst (ensure_t_merge_q X q) = setq_t_merge tm q /\
  forall l, snd (ensure_t_merge_q X q) = Ok l -> q_t_merge q = Some l \/ length l = n_sources_q q.
Proof.
  assert (Same : q = setq_t_merge (q_t_merge q) q) by (destruct q; reflexivity).
  unfold ensure_t_merge_q, mbind_q, self_q. destruct (q_t_merge q) as [t|] eqn:E.
  - exists (Some t). split; [exact Same|]. cbn. intros l H. injection H as <-. now left.
  - unfold get_merger_time_q, mbind_q, self_q, lift_q, modify_q, ret_q, raise_q. cbv zeta.
    destruct (logical_and _ _) as [insp|]; [|exists None; split; [exact Same|discriminate]].
    destruct (take_mask insp (q_ecc q)) as [ec|]; [|exists None; split; [exact Same|discriminate]].
    destruct (get_t_merge_ecc_q _ _ _ _ _ _ _ _ _ _) as [t|]; [|exists None; split; [exact Same|discriminate]].
    destruct (mapM _ t) as [t'|]; [|exists None; split; [exact Same|discriminate]].
    eexists. match goal with |- context [take_mask ?a ?b] => destruct (take_mask a b) as [z|] end; cbn; (split; [reflexivity|]); [|discriminate].
    intros l H. injection H as <-. right. rewrite NpFacts.scatter_length. unfold np_repeat. now rewrite !repeat_length.
Qed.
Theorem evolve_wrong X y q s t : same_world X y -> same_source q s -> (0 < n_sources_q q)%nat ->
  (forall l, q_t_merge q = Some l -> length l = n_sources_q q) -> wrong_times (n_sources_q q) t ->
  exists tm e, evolve_sources_q X t q = (setq_t_merge tm q, Err e) /\
    ((exists l, q_t_merge q = Some l) \/ (exists l, snd (get_merger_time_q X true None true q) = Ok l) -> e = UnitError).
Proof.
  intros W S P LT WT. destruct (ensure_cases X q) as (tm & F & L). unfold evolve_sources_q, mbind_q at 1.
  destruct (ensure_si X y W q s S) as (S1 & R). destruct (ensure_t_merge_q X q) as [q1 [l|e]] eqn:E; cbn [fst snd] in *.
  - subst q1. exists tm, UnitError. split; [|reflexivity]. unfold mbind_q, self_q, lift_q.
    assert (N : length l = n_sources_q q) by (destruct (L l eq_refl) as [H|H]; [now apply LT|exact H]).
    assert (NQ : n_sources_q (setq_t_merge tm q) = n_sources_q q) by reflexivity.
    assert (G : exists x, l = map gyr x) by (destruct (snd (ensure_t_merge y s)) as [x|]; cbn in R; [now exists x|contradiction]).
    destruct G as (x & ->). rewrite map_length in N. destruct x as [|x0 x]; [cbn in N; lia|].
    assert (B : forall ts, length ts = n_sources_q q -> (exists v ts', ts = v :: ts' /\ wrong time_dim v) -> bzipM vge ts (map gyr (x0 :: x)) = Err UnitError).
    { intros ts HL (v & ts' & -> & WV). cbn [map]. apply bzipM_head; [rewrite map_length; cbn in HL, N; lia|].
      eapply vge_wrong; [exact WV|reflexivity|exact UnitsEvolFacts.unit_gigayear]. }
    assert (EV : evolved_q X t (map gyr (x0 :: x)) (setq_t_merge tm q) = Err UnitError).
    { unfold evolved_q. rewrite NQ. destruct t as [|v|[|v ts]]; cbn [wrong_times] in WT; try contradiction; cbn [times_of_q rbind].
      - rewrite B; [reflexivity|unfold np_repeat; apply repeat_length|]. destruct (n_sources_q q) as [|n]; [lia|]. now exists v, (repeat v n).
      - destruct WT as (WV & HL). rewrite B; [reflexivity|exact HL|]. now exists v, ts. }
    now rewrite EV.
  - subst q1. exists tm, e. split; [reflexivity|]. intros [(l & H)|(l & H)].
    + exfalso. unfold ensure_t_merge_q, mbind_q, self_q in E. rewrite H in E. discriminate.
    + exfalso. unfold ensure_t_merge_q, mbind_q, self_q in E. destruct (q_t_merge q); [discriminate|].
      destruct (get_merger_time_q X true None true q) as [q2 [l2|e2]] eqn:G; cbn in H; [|discriminate].
      destruct (q_t_merge q2) eqn:T; [discriminate|].
      revert G. unfold get_merger_time_q, mbind_q, self_q, lift_q, modify_q, ret_q. cbv zeta.
      destruct (logical_and _ _) as [insp|]; [|discriminate]. destruct (take_mask insp (q_ecc q)) as [ec|]; [|discriminate].
      destruct (get_t_merge_ecc_q _ _ _ _ _ _ _ _ _ _) as [t0|]; [|discriminate]. destruct (mapM _ t0) as [t'|]; [|discriminate].
      intros G. injection G as <- _. discriminate.
Qed.

(** Times without a unit, also 0 and infinity, which astropy compares with anything. *)
Theorem evolve_plain X q t : without_unit t -> exists tm e, evolve_sources_q X t q = (setq_t_merge tm q, Err e).
Proof.
  intros P. assert (TK : forall m, exists e, take_times_q m t = Err e).
  { intros m. destruct t as [|[x|x u]|l]; cbn in P; try contradiction; [now exists AttributeError|]. destruct P as (x & P). exists AttributeError. cbn [take_times_q].
    destruct (forallb is_quantity l) eqn:F; [|reflexivity]. rewrite forallb_forall in F. now apply F in P. }
  destruct (ensure_cases X q) as (tm & F & _). unfold evolve_sources_q, mbind_q at 1.
  destruct (ensure_t_merge_q X q) as [q1 [l|e]]; cbn [fst] in F; subst q1; [|now exists tm, e]. exists tm. unfold mbind_q, self_q, lift_q.
  assert (EV : exists e, evolved_q X t l (setq_t_merge tm q) = Err e).
  { unfold evolved_q. destruct (times_of_q t _) as [ts|e]; cbn [rbind]; [|now exists e]. destruct (bzipM vge ts l) as [mg|e]; cbn [rbind]; [|now exists e].
    destruct (logical_and (map (fun e => neqb e _) _) _) as [cm|e]; cbn [rbind]; [|now exists e]. destruct (logical_and _ _) as [em|e]; cbn [rbind]; [|now exists e].
    destruct (TK cm) as (e & ->). now exists e. }
  destruct EV as (e & EV). exists e. now rewrite EV.
Qed.

(** *** Separations *)
Lemma f_arr_wrong m1 m2 m1' m2' v l : in_some_unit mass_dim m1 m1' -> in_some_unit mass_dim m2 m2' -> length m1 = length (v :: l) -> length m2 = length (v :: l) ->
  dim_of v <> length_dim -> get_f_arr_q (v :: l) m1 m2 = Err UnitError.
Proof.
  intros (u1 & U1 & ->) (u2 & U2 & ->) N N2 D. unfold get_f_arr_q. rewrite map_length in *.
  destruct m1' as [|x1 m1], m2' as [|x2 m2]; try discriminate. cbn [map]. rewrite bzip_eq by (cbn in *; rewrite !map_length; lia).
  cbn [rbind map2]. apply bzipM_head.
  - rewrite map2_length; rewrite ?map_length; cbn in *; lia.
  - cbn [fst snd]. eapply f_from_a_wrong_a; [exact D|now apply isv_in|now apply isv_in].
Qed.
Theorem setter_wrong q s v l : same_source q s -> n_sources_q q = length (v :: l) -> length (q_m_2 q) = length (v :: l) -> dim_of v <> length_dim ->
  a_setter_q (PQArr (v :: l) tt) q = (q, Err UnitError).
Proof.
  intros S N N2 D. cbn [a_setter_q]. unfold mbind_q, self_q, lift_q.
  now rewrite (f_arr_wrong _ _ _ _ v l (ss_m_1 _ _ S) (ss_m_2 _ _ S) N N2 D).
Qed.
Theorem init_wrong_a X k m1 m2 e d np v l w tol st ig isc p u1 u2 : unit_for mass_dim u1 -> unit_for mass_dim u2 ->
  length m1 = length (v :: l) -> length m2 = length (v :: l) -> dim_of v <> length_dim ->
  init_q X k (mkInitQ (PQArr (map (in_unit u1) m1) tt) (PQArr (map (in_unit u2) m2) tt) e d np PNone (PQArr (v :: l) tt) None None None w tol st ig isc p)
  = Err UnitError.
Proof.
  intros U1 U2 N N2 D. unfold init_q, f_orb_from_a_q. cbn [py_exists iq_f_orb iq_a iq_position iq_inclination iq_polarisation negb andb rbind iq_m_1 iq_m_2 iq_dist
    py_has_units items].
  rewrite (f_arr_wrong _ _ m1 m2 v l (some_in_unit _ _ _ U1) (some_in_unit _ _ _ U2)); rewrite ?map_length; auto.
Qed.
(** *** Observation times *)
Lemma inner_wrong f m t e x y : isv frequency_dim f x -> isv mass_dim m y -> dim_of t <> time_dim -> inner_part_q f m t e = Err UnitError.
Proof.
  intros F M D. unfold inner_part_q.
  destruct (peters_f_si (Pl e) e) as (p & -> & P & DP & _). { repeat split. unfold proper. cbn. lra. unfold si. cbn. apply scale_one. }
  cbn [rbind]. unfold vsub. apply sum_wrong.
  - destruct F as (_ & DF & _), M as (_ & DM & _). dims. rewrite DF, DM, DP. intros E. apply D. injection E. intros. dim_eq.
  - rewrite quantity_pow. rewrite (not_plain _ _ _ frequency_not_none F). discriminate.
  - isq. discriminate.
Qed.
Lemma stationarity_wrong f mc t ts ecc tol f' mc' : in_some_unit frequency_dim f f' -> in_some_unit mass_dim mc mc' ->
  length mc = length f -> length (t :: ts) = length f -> length ecc = length f -> dim_of t <> time_dim ->
  determine_stationarity_q f (t :: ts) ecc None None (Some mc) tol = Err UnitError.
Proof.
  intros (uf & UF & ->) (um & UM & ->) L1 L2 L3 D. rewrite !map_length in *. unfold determine_stationarity_q. cbn [rbind]. unfold evolve_f_orb_circ_q. cbv zeta.
  destruct f' as [|f0 f'], mc' as [|m0 mc'], ecc as [|e0 ecc]; try discriminate. cbn [map]. cbn in L1, L2, L3.
  rewrite bzip_eq by (cbn; lia). cbn [rbind map2].
  assert (LM : length (map2 (fun (t1 : val) (e : num) => (t1, e)) ts ecc) = length ts) by (rewrite map2_length; lia).
  rewrite bzip_eq by (cbn; rewrite map_length; lia). cbn [rbind map2].
  rewrite (bzipM_head _ _ _ _ _ UnitError); [reflexivity| |].
  - rewrite map2_length; rewrite ?map_length; lia.
  - cbn [fst snd]. eapply inner_wrong; [now apply isv_in|now apply isv_in|exact D].
Qed.
Theorem mask_wrong q s q' st v : same_source q s -> sized q -> same_but_curve q q' -> dim_of v <> time_dim -> st = TriTrue \/ st = TriFalse ->
  get_source_mask_q TriNone st (PValQ v) q' = Err UnitError.
Proof.
  intros S (P & L2 & L3 & L4) (isc & sc & d & ->) D ST. unfold get_source_mask_q. cbn [rbind].
  assert (M : m_c_q (setq_curve isc sc d q) = m_c_q q) by reflexivity.
  pose proof (m_c_si q s S) as MC. unfold m_c in MC. rewrite bzip_eq in MC.
  2:{ rewrite <- (some_length _ _ _ (ss_m_1 _ _ S)), <- (some_length _ _ _ (ss_m_2 _ _ S)). symmetry. exact L2. }
  cbn [rmap] in MC. rewrite M, MC.
  assert (LM : length (map2 chirp_mass (s_m_1 s) (s_m_2 s)) = n_sources_q q).
  { rewrite map2_length, <- (some_length _ _ _ (ss_m_1 _ _ S)), <- (some_length _ _ _ (ss_m_2 _ _ S)), L2. apply Nat.min_id. }
  set (mc := map2 chirp_mass _ _) in *. clearbody mc.
  assert (DS : determine_stationarity_q (q_f_orb (setq_curve isc sc d q)) (np_repeat v (n_sources_q (setq_curve isc sc d q))) (q_ecc (setq_curve isc sc d q)) None None
             (Some (map (in_unit msun) mc)) (q_stat_tol (setq_curve isc sc d q)) = Err UnitError).
  { change (n_sources_q (setq_curve isc sc d q)) with (n_sources_q q). cbn [setq_curve q_f_orb q_ecc q_stat_tol].
    destruct (n_sources_q q) as [|n] eqn:N; [lia|]. unfold np_repeat. cbn [repeat].
    eapply stationarity_wrong; [apply (ss_f_orb _ _ S)|exact (some_in_unit mass_dim msun mc UnitsEvolFacts.unit_msun)| | | |exact D].
    - rewrite map_length. lia.
    - cbn. rewrite repeat_length. lia.
    - lia. }
  destruct ST as [->| ->]; cbn [or_default_q resolve_t_obs_q peqb_q time_of_q rbind]; rewrite DS; reflexivity.
Qed.
Lemma curve_refl q : same_but_curve q q.
Proof. exists (q_interpolate_sc q), (q_sc q), (q_params q). now destruct q. Qed.
Lemma update_curve X d q : same_but_curve q (fst (params_update_q X d q)).
Proof.
  unfold params_update_q, mbind_q, lift_q, self_q, modify_q, ret_q. destruct (check_keys _); [|apply curve_refl]. cbv zeta.
  destruct (existsb _ _); [|now eexists _, _, _]. unfold set_sc_q. destruct (q_interpolate_sc _); [destruct (curve_of_q _ _)|]; now eexists _, _, _.
Qed.
Theorem snr_wrong X q s v a n w : same_source q s -> sized q -> dim_of v <> time_dim -> aq_t_obs a = PValQ v ->
  q_class q <> KStationary -> q_class q <> KEvolving ->
  exists e q', get_snr_q X a n w q = (q', Err e) /\ same_but_curve q q'.
Proof.
  intros S Z D T K1 K2. unfold get_snr_q, mbind_q at 1, self_q. assert (E : exists e q', get_snr_source_q X a n w q = (q', Err e) /\ same_but_curve q q').
  { unfold get_snr_source_q. unfold mbind_q at 1, self_q at 1. cbv zeta. unfold mbind_q at 1.
    pose proof (update_curve X (args_dict_q (fill_args_q a (q_params q))) q) as U.
    destruct (params_update_q X (args_dict_q (fill_args_q a (q_params q))) q) as [q1 [r|e]]; cbn [fst] in U; [|now exists e, q1].
    unfold mbind_q at 1, self_q at 1. unfold mbind_q at 1, lift_q at 1.
    assert (F : aq_t_obs (fill_args_q a (q_params q)) = PValQ v) by (cbn; now rewrite T). rewrite F.
    rewrite (mask_wrong q s q1 TriTrue v S Z U D (or_introl eq_refl)). now exists UnitError, q1. }
  destruct (q_class q); try contradiction; exact E.
Qed.

(** *** Construction *)
Theorem init_any_unit X k m1 m2 d f e np a w tol st ig isc p q m1' m2' d' f' :
  init_q X k (mkInitQ (PQArr m1 tt) (PQArr m2 tt) e (PQArr d tt) np (PQArr f tt) a None None None w tol st ig isc p) = Ok q ->
  length m1' = length m1 -> length m2' = length m2 -> length d' = length d -> length f' = length f ->
  init_q X k (mkInitQ (PQArr m1' tt) (PQArr m2' tt) e (PQArr d' tt) np (PQArr f' tt) a None None None w tol st ig isc p)
  = Ok (with_arrays m1' m2' d' f' q).
Proof.
  intros H L1 L2 L3 L4. revert H. unfold init_q. cbn [py_exists iq_f_orb iq_a iq_position iq_inclination iq_polarisation negb andb rbind iq_m_1 iq_m_2 iq_dist
    forallb py_has_units]. rewrite !ensure_map. cbn [map ensure_array_one fst iq_ecc iq_weights].
  destruct (len_of _); cbn [rbind]; [|discriminate]. cbv zeta. rewrite !norm_items. cbn [items]. rewrite L1, L2, L3, L4. destruct (existsb _ _); [discriminate|].
  unfold assign_gw_lum_tol_q, assign_params_q, set_g_q, mbind_q, lift_q, modify_q, ret_q. cbn [q_harm iq_gw_lum_tol iq_sc_params iq_interpolate_g].
  destruct (set_gw_lum_tol _ _ _ _) as [h [r|er]]; [|discriminate]. destruct (make_params_q p) as [pp|]; [|discriminate]. cbv zeta.
  unfold set_sc_q. cbn [q_interpolate_sc putq_params setq_curve setq_harm iq_interpolate_sc q_params].
  destruct isc; [destruct (curve_of_q X pp); [|discriminate]|]; intros E; injection E as <-; reflexivity.
Qed.
(** Such masses are noticed as soon as a chirp mass is needed. *)
Theorem late_masses q x l u u2 m2 : q_m_1 q = map (fun y => Qy y u) (x :: l) -> q_m_2 q = map (in_unit u2) m2 -> length m2 = length (x :: l) ->
  unit_for mass_dim u2 -> u_dim u <> mass_dim -> m_c_q q = Err UnitError.
Proof.
  intros E1 E2 L U D. unfold m_c_q. rewrite E1, E2. destruct m2 as [|y m2]; [discriminate|]. cbn [map]. apply bzipM_head.
  - rewrite !map_length. cbn in L. lia.
  - apply chirp_mass_wrong; [reflexivity|discriminate|discriminate|left; exact D].
Qed.

(** *** Distances *)
Lemma strain_dist fq f X h w q s d d' dl :
  (forall jv gi m f0 e n d sk m' f' d' sk', Forall2 reads m m' -> Forall2 (Forall2 reads) f0 f' -> Forall2 reads d d' -> sky_reads sk sk' ->
     fq jv gi m f0 e n d sk = f jv gi m' f' e n d' sk') ->
  same_source q s -> Forall2 reads d dl -> Forall2 reads d' dl -> get_strain_q fq X h w (with_dist d q) = get_strain_q fq X h w (with_dist d' q).
Proof.
  intros H S D D'. unfold get_strain_q. cbv zeta.
  change (m_c_q (with_dist d q)) with (m_c_q q). change (m_c_q (with_dist d' q)) with (m_c_q q).
  change (which_or_all_q w (with_dist d q)) with (which_or_all_q w q). change (which_or_all_q w (with_dist d' q)) with (which_or_all_q w q).
  rewrite (m_c_si _ _ S). cbn [with_dist with_arrays q_merged q_ecc q_g q_f_orb q_dist].
  destruct h as [n|n|n]; cbn [rbind]; try reflexivity;
  (destruct (logical_and _ _) as [insp|e]; cbn [rbind]; [|reflexivity];
   change (masked_sky_q insp (with_dist d q)) with (masked_sky_q insp q); change (masked_sky_q insp (with_dist d' q)) with (masked_sky_q insp q);
   pose proof (sky_si insp q s S) as K;
   destruct (masked_sky_q insp q) as [sk|e], (masked_sky insp s) as [sk'|e']; cbn in K; try contradiction; cbn [rbind]; [|reflexivity];
   destruct (m_c s) as [mc|e]; cbn [rbind rmap]; [|reflexivity];
   assert (E : forall dd, Forall2 reads dd dl -> forall jv gi e ns, fq jv gi (select insp (map (in_unit msun) mc)) (newaxis (select insp (q_f_orb q))) e ns (select insp dd) sk
      = f jv gi (select insp mc) (newaxis (select insp (s_f_orb s))) e ns (select insp dl) sk') by
     (intros dd DD jv gi e ns; apply H; [rewrite select_of_map; exact (in_reads mass_dim msun _ UnitsEvolFacts.unit_msun)
      |apply rel_newaxis, (some_reads frequency_dim), some_select, S|now apply rel_select|exact K]);
   rewrite (E d D), (E d' D'); reflexivity).
Qed.
Lemma plain_reads u l : 0 < u_size u -> Forall2 reads (map (fun x => Qy x u) l) (map (fun x => x * Fin (u_size u))%num l).
Proof. intros P. induction l; constructor; auto. split; [exact P|reflexivity]. Qed.
Theorem distance_unit X h w q s l : same_source q s ->
  get_h_0_n_q X h w (with_dist (map (fun x => Qy x second) l) q) = get_h_0_n_q X h w (with_dist (map (fun x => Qy x meter) l) q) /\
  get_h_c_n_q X h w (with_dist (map (fun x => Qy x second) l) q) = get_h_c_n_q X h w (with_dist (map (fun x => Qy x meter) l) q).
Proof.
  intros S.
  assert (A : Forall2 reads (map (fun x => Qy x second) l) (map (fun x => x * Fin 1)%num l)) by (apply (plain_reads second); cbn; lra).
  assert (B : Forall2 reads (map (fun x => Qy x meter) l) (map (fun x => x * Fin 1)%num l)) by (apply (plain_reads meter); cbn; lra).
  split; [eapply strain_dist with (2 := S); [exact h_0_n_si|exact A|exact B]|eapply strain_dist with (2 := S); [exact h_c_n_si|exact A|exact B]].
Qed.

(** *** Custom curves *)
Theorem curve_unit y x u u' i :
  (forall f, psd_of_q (constant_curve y x u) (custom_q i) f = Ok (map (fun _ => Qy (Fin x) u) f)) /\
  curve_of_q (constant_curve y x u) (custom_q i) = curve_of_q (constant_curve y x u') (custom_q i) /\
  exists c, curve_of_q (constant_curve y x u) (custom_q i) = Ok c.
Proof.
  assert (P : forall u f, psd_of_q (constant_curve y x u) (custom_q i) f = Ok (map (fun _ => Qy (Fin x) u) f)) by reflexivity.
  split; [apply P|]. unfold curve_of_q, times_hertz. rewrite !P. cbn [rbind]. rewrite !map_length, Nat.eqb_refl, !map_map. cbn [mag]. split; [reflexivity|]. eauto.
Qed.

Lemma in_qy u x : exists y, in_unit u x = Qy y u.
Proof. eexists. reflexivity. Qed.
Lemma wrong_example : exists q s,
  same_world x_toy_q x_toy /\ same_source q s /\ sized q /\ n_sources_q q = 2%nat /\ q_t_merge q = None /\ q_class q = KSource /\
  init_q x_toy_q KSource (pair_in msun kilometer millihertz) = Ok q /\
  wrong_times 2 (TScalarQ (Qy (Fin 3) kilometer)) /\ wrong_times 2 (TScalarQ (Pl (Fin 3))) /\ dim_of (Qy (Fin 3) kilometer) <> time_dim /\
  dim_of (Qy (Fin 3) second) <> length_dim /\
  exists q', init_q x_toy_q KSource (toy_in kilometer msun kilometer millihertz [Fin 2e30; Fin 3e30] [Fin 1e30; Fin 1e30] [Fin 0; Fin (1/10)]
               [Fin 1e20; Fin 2e20] [Fin 1e-3; Fin 2e-3] false []) = Ok q' /\ m_c_q q' = Err UnitError.
Proof.
  assert (UK : unit_for length_dim kilometer) by (split; [cbn; lra|reflexivity]).
  assert (UH : unit_for frequency_dim millihertz) by (split; [cbn; lra|reflexivity]).
  assert (N1 : dim_of (Qy (Fin 3) kilometer) <> time_dim) by (unfold dim_of; cbn; intros E; injection E; lra).
  assert (N2 : dim_of (Qy (Fin 3) second) <> length_dim) by (unfold dim_of; cbn; intros E; injection E; lra).
  assert (N3 : u_dim kilometer <> mass_dim) by (cbn; intros E; injection E; lra).
  assert (HS : init x_toy KSource pair_si = Ok (toy_src KSource [Fin 2e30; Fin 3e30] [Fin 1e30; Fin 1e30] [Fin 0; Fin (1/10)] [Fin 1e20; Fin 2e20]
    [Fin 1e-3; Fin 2e-3] false None default_params)) by (apply toy_init; reflexivity).
  pose proof (pair_same msun kilometer millihertz UnitsEvolFacts.unit_msun UK UH) as I1.
  pose proof (init_si _ _ KSource _ _ toy_world I1) as R1. rewrite HS in R1.
  destruct (init_q x_toy_q KSource (pair_in msun kilometer millihertz)) as [q|e] eqn:E1; [|contradiction]. cbn [res_rel] in R1.
  exists q, (toy_src KSource [Fin 2e30; Fin 3e30] [Fin 1e30; Fin 1e30] [Fin 0; Fin (1/10)] [Fin 1e20; Fin 2e20] [Fin 1e-3; Fin 2e-3] false None default_params).
  assert (NQ : n_sources_q q = 2%nat) by (rewrite (n_sources_si _ _ R1); reflexivity).
  split; [exact toy_world|]. split; [exact R1|]. split.
  { unfold sized. rewrite NQ, (some_length _ _ _ (ss_m_2 _ _ R1)), (some_length _ _ _ (ss_f_orb _ _ R1)), (ss_ecc _ _ R1). repeat split. lia. }
  split; [exact NQ|]. split; [rewrite (ss_t_merge _ _ R1); reflexivity|]. split; [rewrite (ss_class _ _ R1); reflexivity|]. split; [reflexivity|].
  split; [split; [unfold proper; cbn; lra|split; [exact N1|discriminate]]|]. split.
  { split; [unfold proper; cbn; lra|]. split; [unfold dim_of; cbn; intros E; injection E; lra|]. intros _. cbn. unfold Reqb. destruct (Req_EM_T 3 0); [lra|reflexivity]. }
  split; [exact N1|]. split; [exact N2|]. unfold pair_in, toy_in in *.
  eexists. split.
  - eapply init_any_unit; [exact E1|reflexivity|reflexivity|reflexivity|reflexivity].
  - destruct (in_qy kilometer (Fin 2e30)) as (x & Ex). destruct (in_qy kilometer (Fin 3e30)) as (z & Ez).
    apply (late_masses _ x [z] kilometer msun [Fin 1e30; Fin 1e30]); [|reflexivity|reflexivity|exact UnitsEvolFacts.unit_msun|exact N3].
    unfold with_arrays. cbn [q_m_1 map]. now rewrite Ex, Ez.
Qed.
