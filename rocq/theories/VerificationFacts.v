(** VerificationFacts.v -- what VerificationBinaries() makes, and what no call on it changes (C99). *)
From Coq Require Import String Reals ZArith List Bool Lra Lia.
From Verif Require Import Num NumFacts Np NpFacts Utils Strain Psd Snr Evol Harmonics HarmSpec HarmThms ScParams Source Index SourceSpec IndexSpec History CurveSpec CurveFacts CurveThms
  InitSpec InitFacts IndexFacts IndexThms SourceFacts MethodSpec FileIO Verification VerificationSpec FileSpec ReachFacts.
Import ListNotations.
Open Scope list_scope.
Open Scope R_scope.

(** ** Small facts *)
Lemma grid_ecc_nonneg j : 0 <= grid_ecc j.
Proof.
  destruct j as [|j]; [unfold grid_ecc; cbn [INR]; lra|]. apply Rlt_le, Rle_lt_trans with (grid_ecc 0); [unfold grid_ecc; cbn [INR]; lra|]. apply grid_ecc_lt. lia.
Qed.
Lemma scatter_same {A} (a : A) : forall mask vals n, (forall v, In v vals -> v = a) -> scatter mask vals (np_repeat a n) = np_repeat a n.
Proof.
  unfold np_repeat. induction mask as [|[] mask IH]; intros vals [|n] H; cbn; auto.
  - destruct vals as [|v vals]; [now rewrite IH|]. rewrite (H v) by now left. rewrite IH; auto. intros w Hw. apply H. now right.
  - now rewrite IH.
Qed.
Lemma select_in {A} : forall mask (l : list A) v, In v (select mask l) -> In v l.
Proof. induction mask as [|[] mask IH]; intros [|a l] v; cbn; try easy; [intros [->|H]; auto|]; auto. Qed.
Lemma twos_only mask (l : list Z) k : (forall v, In v l -> v = 2%Z) -> scatter mask (select mask l) (np_repeat 2%Z k) = np_repeat 2%Z k.
Proof. intros H. apply scatter_same. intros v Hv. apply H. eapply select_in; eauto. Qed.
Lemma none_eccentric tol l insp r : (forall e, In e l -> e = Fin 0) -> ngt (Fin 0) tol = false -> logical_and (map (fun e => ngt e tol) l) insp = Ok r -> any r = false.
Proof.
  intros Z T H. apply (and_false l insp). rewrite <- H. f_equal. apply map_ext_in. intros e He. now rewrite (Z e He).
Qed.
Lemma values_twos (b : bool) (r : res (list num * list Z)) (snr : list num) n v : b = false -> (if b then r else Ok (snr, np_repeat 2%Z n)) = Ok v -> forall z, In z (snd v) -> z = 2%Z.
Proof. intros -> H. injection H as <-. cbn. intros z Hz. now apply repeat_spec in Hz. Qed.

Section Fixed.
  Variables (x : ext) (s0 : src) (k : nat).
  (** What the object was built with; circular orbits, treated as such; the loudest harmonic is 2. *)
  Record fixed (s : src) : Prop := {
    fx_binaries : same_binaries s0 s;
    fx_ecc : forall e, In e (s_ecc s) -> e = Fin 0;
    fx_tol : forall t, h_ecc_tol (s_harm s) = Some t -> ngt (Fin 0) t = false;
    fx_msh : s_max_snr_harmonic s = Some (np_repeat 2%Z k) }.
  Notation I := fixed.
  Ltac keep := intros; match goal with H : I _ |- _ => destruct H as [[] ? ? ?]; constructor; [constructor|..]; auto end.
  Lemma b_curve b c p s : I s -> I (set_curve b c p s). Proof. keep. Qed.
  Lemma b_snr v s : I s -> I (set_snr v s). Proof. keep. Qed.
  Lemma b_tm v s : I s -> I (set_t_merge v s). Proof. keep. Qed.
  Lemma b_g g s : I s -> I (set_g_attr g s). Proof. keep. Qed.
  Lemma b_orbit e f m s : (forall y, In y e -> y = Fin 0) -> I s -> I (set_orbit e f m s). Proof. keep. Qed.
  Lemma b_harm h s : (forall t, h_ecc_tol h = Some t -> ngt (Fin 0) t = false) -> I s -> I (set_harm h s). Proof. keep. Qed.
  Lemma b_sc : hoare I (set_sc x) (fun _ => True).
  Proof. intros s S. split; auto. unfold set_sc. destruct (s_interpolate_sc s); [destruct (curve_of x (s_params s))|]; cbn [fst]; auto; apply b_curve; auto. Qed.
  Lemma b_put p : hoare I (modify (put_params p)) (fun _ => True).
  Proof. apply h_modify. intros s S. now apply b_curve. Qed.
  Lemma b_update new : hoare I (params_update x new) (fun _ => True).
  Proof.
    unfold params_update. eapply h_bind; [apply h_lift|]. intros [] C. apply h_self. intros s1 S1. cbn zeta.
    eapply h_bind; [apply b_put|]. intros _ _. apply h_if; [apply b_sc|now apply h_ret].
  Qed.
  Lemma b_setitem n v : hoare I (params_setitem x n v) (fun _ => True).
  Proof.
    unfold params_setitem. eapply h_bind; [apply h_lift|]. intros [] C. apply h_self. intros s1 S1. cbn zeta.
    eapply h_bind; [apply b_put|]. intros _ _. apply h_if; [apply b_sc|now apply h_ret].
  Qed.
  Lemma b_assign new cur : hoare I (assign_params x new cur) (fun _ => True).
  Proof. unfold assign_params. eapply h_bind; [apply h_lift|]. intros p C. cbn zeta. eapply h_bind; [apply b_put|]. intros _ _. apply h_if; [apply b_sc|now apply h_ret]. Qed.
  Lemma b_record insp v h : (forall z, In z h -> z = 2%Z) -> hoare I (record_snr insp v h) (fun _ => True).
  Proof.
    intros H. unfold record_snr. eapply h_bind; [apply h_modify; intros s S|intros _ _; apply h_modify; intros s S; now apply b_snr].
    pose proof (fx_msh _ S) as E. unfold store. rewrite E, (twos_only insp h k H). destruct S as [[] ? ? ?]. constructor; [constructor|..]; auto.
  Qed.
  Lemma b_method values a which : (forall a insp s v, I s -> values a insp s = Ok v -> forall z, In z (snd v) -> z = 2%Z) -> hoare I (snr_method x values a which) (fun _ => True).
  Proof.
    intros HV. unfold snr_method. apply h_self. intros s1 S1. eapply h_bind; [apply b_update|]. intros _ _. apply h_self. intros s2 S2. cbn zeta.
    eapply h_bind; [apply h_lift|]. intros insp _. eapply h_bind; [apply h_lift|]. intros v Hv.
    eapply h_bind; [apply b_record; exact (HV _ _ _ _ S2 Hv)|]. intros _ _. eapply h_weaken; [apply h_lift|auto].
  Qed.
  Lemma b_stationary a which : hoare I (get_snr_stationary x a which) (fun _ => True).
  Proof.
    apply b_method. intros a0 insp s v S. unfold stationary_values.
    repeat (match goal with |- rbind ?r _ = Ok _ -> _ => destruct r as [?|?] eqn:?; cbn [rbind]; [|discriminate] end; cbn zeta).
    apply values_twos. match goal with H : ecc_tol s = Ok ?t, K : logical_and (map (fun e => ngt e ?t) _) _ = Ok _ |- _ => apply (none_eccentric t _ _ _ (fx_ecc _ S)) in K; auto; apply (fx_tol _ S); unfold ecc_tol in H; destruct (h_ecc_tol _); congruence end.
  Qed.
  Lemma b_evolving a n which : hoare I (get_snr_evolving x a n which) (fun _ => True).
  Proof.
    apply b_method. intros a0 insp s v S. unfold evolving_values.
    repeat (match goal with |- rbind ?r _ = Ok _ -> _ => destruct r as [?|?] eqn:?; cbn [rbind]; [|discriminate] end; cbn zeta).
    apply values_twos. match goal with H : ecc_tol s = Ok ?t, K : logical_and (map (fun e => ngt e ?t) _) _ = Ok _ |- _ => apply (none_eccentric t _ _ _ (fx_ecc _ S)) in K; auto; apply (fx_tol _ S); unfold ecc_tol in H; destruct (h_ecc_tol _); congruence end.
  Qed.
  Lemma b_snr_source a n which : hoare I (get_snr_source x a n which) (fun _ => True).
  Proof.
    unfold get_snr_source. apply h_self. intros s1 S1. cbn zeta. eapply h_bind; [apply b_update|]. intros _ _. apply h_self. intros s2 S2.
    do 4 (eapply h_bind; [apply h_lift|intros ? _]).
    eapply h_bind with (P := fun _ => True); [apply h_if; [|now apply h_ret]; eapply h_bind; [apply b_stationary|]; intros v _; now apply h_ret|].
    intros v1 _. eapply h_bind with (P := fun _ => True); [apply h_if; [|now apply h_ret]; eapply h_bind; [apply b_evolving|]; intros v _; now apply h_ret|].
    intros v2 _. eapply h_bind; [apply h_modify; intros s S; now apply b_snr|]. intros _ _. now apply h_ret.
  Qed.
  Lemma b_get_snr a n which : hoare I (get_snr x a n which) (fun _ => True).
  Proof.
    unfold get_snr. apply h_self. intros s1 S1. destruct (s_class s1); try apply b_snr_source.
    - eapply h_bind; [apply b_stationary|]. intros v _. eapply h_bind; [apply h_modify; intros s S; now apply b_snr|]. intros _ _. now apply h_ret.
    - eapply h_bind; [apply b_evolving|]. intros v _. eapply h_bind; [apply h_modify; intros s S; now apply b_snr|]. intros _ _. now apply h_ret.
  Qed.
  Lemma b_merger (sv : bool) which ex : hoare I (get_merger_time x sv which ex) (fun _ => True).
  Proof.
    unfold get_merger_time. apply h_self. intros s1 S1. cbn zeta. do 3 (eapply h_bind; [apply h_lift|intros ? _]).
    eapply h_bind with (P := fun _ => True); [|intros _ _; eapply h_weaken; [apply h_lift|auto]].
    destruct sv; [|now apply h_ret]. apply h_modify. intros s S. now apply b_tm.
  Qed.
  Lemma b_ensure : hoare I (ensure_t_merge x) (fun _ => True).
  Proof.
    unfold ensure_t_merge. apply h_self. intros s1 S1. destruct (s_t_merge s1); [now apply h_ret|]. eapply h_bind; [apply b_merger|]. intros _ _. apply h_self. intros s2 S2.
    destruct (s_t_merge s2); [now apply h_ret|apply h_raise].
  Qed.
  Lemma b_evolve t : hoare I (evolve_sources x t) (fun _ => True).
  Proof.
    unfold evolve_sources. eapply h_bind; [apply b_ensure|]. intros tm _. apply h_self. intros s1 S1. eapply h_bind; [apply h_lift|]. intros [[mg ec] f] E.
    eapply h_bind; [apply h_modify; intros s S; apply b_orbit; auto; exact (evolved_circular _ _ _ _ _ (fx_ecc _ S1) E)|]. intros _ _.
    do 2 (eapply h_bind; [apply h_lift|intros ? _]). apply h_modify. intros s S. now apply b_tm.
  Qed.
  Lemma b_set_a a : hoare I (a_setter a) (fun _ => True).
  Proof.
    assert (G : forall l, hoare I (mbind self (fun s => mbind (lift (get_f_arr l (s_m_1 s) (s_m_2 s))) (fun f => modify (set_f_orb f)))) (fun _ => True)).
    { intros l. apply h_self. intros s1 S1. eapply h_bind; [apply h_lift|]. intros f _. apply h_modify. intros s S. unfold set_f_orb. apply b_orbit; auto. apply S. }
    destruct a as [|l []|v []|l|l|v]; cbn [a_setter]; try apply h_raise; apply G.
  Qed.
  Lemma tolerance_nonneg tol h h1 r : (forall t, h_ecc_tol h = Some t -> ngt (Fin 0) t = false) -> set_gw_lum_tol (x_jv x) (x_lum x) tol h = (h1, r) -> forall t, h_ecc_tol h1 = Some t -> ngt (Fin 0) t = false.
  Proof.
    intros H. unfold set_gw_lum_tol. destruct (match h_gw_lum_tol h with Some t => neqb tol t | None => false end); [intros E; injection E as <- _; auto|].
    unfold create_harmonics_functions. cbn [h_gw_lum_tol]. destruct (harmonics_needed tol (x_lum x)); [|intros E; injection E as <- _; auto].
    unfold find_eccentric_transition. cbn [h_gw_lum_tol h_required h_max_strain h_ecc_tol]. destruct (eccentric_transition (x_jv x) tol) as [e|] eqn:T; [|intros E; injection E as <- _; auto].
    intros E. injection E as <- _. cbn. intros t Ht. injection Ht as <-. apply transition_spec in T. destruct T as (j & _ & -> & _). unfold ngt. apply nlt_fin_f. pose proof (grid_ecc_nonneg j). lra.
  Qed.
  Lemma b_tolerance tol : hoare I (assign_gw_lum_tol x tol) (fun _ => True).
  Proof.
    intros s S. split; auto. unfold assign_gw_lum_tol. destruct (set_gw_lum_tol (x_jv x) (x_lum x) tol (s_harm s)) as [h r] eqn:E. cbn [fst]. apply b_harm; auto.
    exact (tolerance_nonneg _ _ _ _ (fx_tol _ S) E).
  Qed.
  Lemma b_discard {A} (m : M A) Q : hoare I m Q -> hoare I (discard m) (fun _ => True).
  Proof. intros H. unfold discard. eapply h_bind; [exact H|]. intros a _. now apply h_ret. Qed.
  Lemma b_step o : hoare I (step x o) (fun _ => True).
  Proof.
    destruct o; cbn [step].
    - apply b_setitem. - apply b_update.
    - apply h_self. intros s1 S1. apply b_assign.
    - unfold params_ior. eapply h_bind; [apply h_modify; intros s S; now apply b_curve|]. intros _ _. apply h_self. intros s1 S1. apply b_assign.
    - apply h_modify. intros s S. destruct (lookup k0 (s_params s)); auto. now apply b_curve.
    - apply h_raise.
    - apply h_modify. intros s S. now apply b_curve.
    - apply b_sc.
    - apply h_modify. intros s S. now apply b_g.
    - apply b_tolerance.
    - apply b_set_a.
    - eapply b_discard, b_get_snr.
    - eapply b_discard, b_stationary.
    - eapply b_discard, b_evolving.
    - eapply b_discard, b_merger.
    - apply b_evolve.
  Qed.
  Lemma b_run : forall ops s, I s -> I (fst (run x ops s)).
  Proof.
    induction ops as [|o ops IH]; intros s S; cbn [run]; auto. destruct (b_step o s S) as [S1 _]. destruct (step x o s) as [s1 r]. cbn [fst] in S1. specialize (IH s1 S1).
    destruct (run x ops s1) as [s2 rs]. exact IH.
  Qed.
End Fixed.

(** ** The object built *)
Lemma bzip_map2 {A B C} (f : A -> B -> C) l1 l2 : length l1 = length l2 -> bzip f l1 l2 = Ok (map2 f l1 l2).
Proof. intros L. unfold bzip, bzipM. rewrite L, Nat.eqb_refl. apply map2M_ok. Qed.
(** LISA's default curve can be computed as soon as the response file is there. *)
Lemma default_curve x : r_file (x_psd x) <> None -> exists c, curve_of x default_params = Ok c.
Proof.
  intros HR. unfold curve_of. assert (E : exists l, psd_of x default_params curve_grid = Ok l /\ length l = length curve_grid).
  { generalize curve_grid. intros fs. unfold psd_of. cbn. unfold lisa_psd. cbn zeta. unfold load_response_function, np_load_R. destruct (r_file (x_psd x)) as [[fR R]|]; [|congruence]. cbn [rbind].
    unfold confusion_of, get_confusion_noise. cbn. unfold get_confusion_noise_karnesis21. set (f' := map _ fs). assert (LF : length f' = length fs) by apply map_length.
    rewrite bzip_map2 by now rewrite map_length. cbn [rbind]. rewrite bzip_map2 by (rewrite NpFacts.map2_length, !map_length; lia). cbn [rbind].
    rewrite bzip_map2 by (rewrite !NpFacts.map2_length, !map_length; lia). eexists. split; [reflexivity|]. rewrite !NpFacts.map2_length, !map_length. lia. }
  destruct E as (l & -> & L). cbn [rbind]. rewrite L, Nat.eqb_refl. eauto.
Qed.
Lemma finish_params x i s0 s : finish x i s0 = (s, Ok tt) -> make_params (i_sc_params i) = Ok (s_params s).
Proof.
  intros F. apply finish_cases in F. destruct F as (h & d & s1 & Hh & Hd & Hs & ->). rewrite Hd. f_equal. unfold set_sc in Hs.
  destruct (s_interpolate_sc _); [destruct (curve_of _ _); [|discriminate]|]; injection Hs as <-; reflexivity.
Qed.
Lemma built_thm x ecl t n : full_table t n -> world_ready x -> exists b, verification_binaries x ecl t = Ok b /\ holds_table x ecl t n b.
Proof.
  intros [L1 L2 L3 L4 L5 L6 L7 L8 L9] [(h & Hh) HR]. destruct (default_curve x HR) as [c Hc]. unfold verification_binaries, vb_args. rewrite bzip_map2 by congruence. cbn [rbind].
  match goal with |- context [init x KVerification ?i] => set (ia := i) end.
  assert (LP : length (map2 ecl (vt_l_gal t) (vt_b_gal t)) = n) by (rewrite NpFacts.map2_length; lia).
  assert (Z : forall e, In e (entries (i_ecc ia)) -> e = Fin 0) by (cbn; intros e; apply repeat_spec).
  destruct (InitFacts.accepts_thm x KVerification ia) as [s Hs].
  - split; auto; cbn; try discriminate; try (now right); try (left; discriminate).
    + repeat split; left; eauto.
    + rewrite map_length. unfold np_repeat. rewrite repeat_length. repeat split; congruence.
  - split; cbn; try discriminate; [|intros _ _; left; eauto]. intros p E. injection E as <-. left. congruence.
  - split; [exists h; exact Hh|]. exists default_params. split; auto. intros _. exists c. exact Hc.
  - rewrite Hs. cbn [rbind]. eexists. split; [reflexivity|]. pose proof Hs as HI. apply init_fwd in Hs. destruct Hs as (f & pos & inc & pol & [C1 C2 (fv & C3 & -> & C3') C4 C5 C6] & F).
    destruct (finish_arrays _ _ _ _ F) as (E1 & E2 & E3 & E4 & E5 & E6 & E7 & E8 & E9 & E10 & E11 & E12 & E13 & E14 & E15 & _). cbn in E1, E2, E3, E4, E5, E6, E7, E8, E9, E10, E11, E12, E13, E14, E15.
    pose proof (finish_params _ _ _ _ F) as EP. cbn in C2, C3. injection C3 as <-. destruct C2 as (-> & (m & M & ->) & _ & p' & P & ->). cbn in M. injection M as <-. rewrite keep_pos in P by congruence. injection P as <-.
    assert (N : n_sources s = n) by (unfold n_sources; rewrite E1; exact L6).
    constructor; cbn; rewrite ?N, ?E1, ?E2, ?E3, ?E4, ?E5, ?E7, ?E8, ?E9, ?E10, ?E11, ?E13, ?E14, ?E15, ?L6; auto.
    symmetry. now injection EP.
Qed.
Lemma verification_fixed x ecl t b : verification_binaries x ecl t = Ok b -> fixed (vb_source b) (n_sources (vb_source b)) (vb_source b).
Proof.
  intros H. apply verification_fwd in H. destruct H as (p & s & i & P & A & Hp & Hi & Hq & Hw & Hm & HI & ->). cbn [vb_source].
  unfold vb_args in A. rewrite P in A. cbn [rbind] in A. injection A as <-. apply init_fwd in HI. destruct HI as (f & pos & inc & pol & C & F).
  destruct (finish_arrays _ _ _ _ F) as (_ & _ & _ & _ & E5 & _). apply finish_cases in F. destruct F as (h & d & s1 & Hh & Hd & Hs & ES).
  assert (SH : s_harm s = h).
  { rewrite ES. cbn. unfold set_sc in Hs. destruct (s_interpolate_sc _); [destruct (curve_of _ _); [|discriminate]|]; injection Hs as <-; reflexivity. }
  constructor; [constructor; reflexivity|..|reflexivity].
  - cbn. rewrite E5. cbn. intros e. apply repeat_spec.
  - cbn [s_harm set_max_snr_harmonic]. rewrite SH. cbn in Hh. apply (tolerance_nonneg x _ no_harm h _) with (2 := Hh). cbn. discriminate.
Qed.
Lemma histories_thm x ecl t b ops : verification_binaries x ecl t = Ok b -> let s := fst (run x ops (vb_source b)) in
  same_binaries (vb_source b) s /\ (forall e, In e (s_ecc s) -> e = Fin 0) /\ s_max_snr_harmonic s = Some (repeat 2%Z (n_sources (vb_source b))).
Proof. intros H s. destruct (b_run x _ _ ops _ (verification_fixed _ _ _ _ H)) as [A B _ D]. auto. Qed.
