(** ReachFacts.v -- what every history of a collection preserves: one entry per source, harmonics that belong to the
    tolerance, circular orbits where there is a position (C59, C61, C88). *)
From Coq Require Import String Reals ZArith List Bool Lra Lia.
From Verif Require Import Num NumFacts Np NpFacts Utils Strain Psd Snr Evol Harmonics ScParams Source Index SourceSpec IndexSpec History CurveSpec CurveFacts CurveThms InitSpec InitFacts
  IndexFacts IndexThms SourceFacts MethodSpec FileIO Verification FileSpec.
Import ListNotations.
Open Scope R_scope.

(** ** Lengths *)
Lemma scatter_length {A} : forall mask (vals l : list A), length (scatter mask vals l) = length l.
Proof. induction mask as [|[] mask IH]; intros vals [|a l]; cbn; auto. destruct vals; cbn; now rewrite IH. Qed.
Lemma np_repeat_length {A} (a : A) n : length (np_repeat a n) = n. Proof. apply repeat_length. Qed.
Lemma select_length_all {A} n (l : list A) : length l = n -> select (np_repeat true n) l = l.
Proof. intros <-. induction l as [|a l IH]; auto. cbn. f_equal. exact IH. Qed.
Lemma run_groups_length run req em snr msh v : run_groups run req em snr msh = Ok v -> length (fst v) = length snr /\ length (snd v) = length msh.
Proof.
  unfold run_groups. generalize harmonic_groups. intros l. revert snr msh. induction l as [|g l IH]; intros snr msh; cbn [fold_left].
  - intros H. injection H as <-. auto.
  - cbn [rbind fst snd]. match goal with |- context [if any ?m then _ else _] => destruct (any m) end.
    + match goal with |- fold_left _ _ (rbind ?r _) = _ -> _ => destruct r as [[a|a b|a]|e] end; cbn [rbind];
        try (intros H; exfalso; clear - H; revert H; match goal with |- fold_left ?f _ (Err ?e) = _ -> _ => assert (E : fold_left f l (Err e) = Err e) by (clear; induction l; auto) end; rewrite E; discriminate).
      intros H. apply IH in H. now rewrite !scatter_length in H.
    + apply IH.
Qed.
Lemma stationary_length x a insp s v : stationary_values x a insp s = Ok v -> length (fst v) = n_sources s /\ length (snd v) = n_sources s.
Proof.
  unfold stationary_values. repeat (match goal with |- rbind ?r _ = Ok _ -> _ => destruct r as [?|?] eqn:?; cbn [rbind]; [|discriminate] end; cbn zeta).
  match goal with H : (if any _ then _ else Ok _) = Ok ?l |- _ => assert (L : length l = n_sources s) end.
  { match goal with H : (if any ?c then _ else Ok _) = Ok _ |- _ => destruct (any c); [destruct (snr_circ_stationary _ _ _ _ _ _ _ _ _ _) in H; cbn [rbind] in H; [|discriminate]|]; injection H as <- end;
      rewrite ?scatter_length; apply np_repeat_length. }
  match goal with |- (if any ?c then _ else _) = _ -> _ => destruct (any c) end; intros K.
  - apply run_groups_length in K. rewrite L, np_repeat_length in K. exact K.
  - injection K as <-. cbn [fst snd]. now rewrite np_repeat_length.
Qed.
Lemma evolving_length x a n insp s v : evolving_values x a n insp s = Ok v -> length (fst v) = n_sources s /\ length (snd v) = n_sources s.
Proof.
  unfold evolving_values. repeat (match goal with |- rbind ?r _ = Ok _ -> _ => destruct r as [?|?] eqn:?; cbn [rbind]; [|discriminate] end; cbn zeta).
  match goal with H : (if any _ then _ else Ok _) = Ok ?l |- _ => assert (L : length l = n_sources s) end.
  { match goal with H : (if any ?c then _ else Ok _) = Ok _ |- _ => destruct (any c); [destruct (take_opt _ _) in H; cbn [rbind] in H; [|discriminate]; destruct (snr_circ_evolving _ _ _ _ _ _ _ _ _ _ _ _ _) in H; cbn [rbind] in H; [|discriminate]|]; injection H as <- end;
      rewrite ?scatter_length; apply np_repeat_length. }
  match goal with |- (if any ?c then _ else _) = _ -> _ => destruct (any c) end; intros K.
  - apply run_groups_length in K. rewrite L, np_repeat_length in K. exact K.
  - injection K as <-. cbn [fst snd]. now rewrite np_repeat_length.
Qed.
Lemma evolved_length x t tm s v : evolved x t tm s = Ok v -> length (fst (fst v)) = n_sources s /\ length (snd (fst v)) = n_sources s /\ length (snd v) = n_sources s.
Proof.
  unfold evolved. repeat (match goal with |- rbind ?r _ = Ok _ -> _ => destruct r as [?|?] eqn:?; cbn [rbind]; [|discriminate] end; cbn zeta).
  intros H. injection H as <-. cbn [fst snd].
  repeat match goal with
  | H : (if any ?c then _ else _) = Ok _ |- _ => destruct (any c)
  | H : rbind ?r _ = Ok _ |- _ => destruct r; cbn [rbind] in H; [|discriminate]
  | H : (match ?o with Single _ => _ | Many _ => _ end) = Ok _ |- _ => destruct o; try discriminate
  | H : (match ?o with E1 _ => _ | E2 _ => _ end) = Ok _ |- _ => destruct o; try discriminate
  | H : (match ?o with [] => _ | _ :: _ => _ end) = Ok _ |- _ => destruct o; try discriminate
  | H : Ok _ = Ok _ |- _ => injection H as <-
  end; cbn [fst snd]; rewrite ?scatter_length, ?np_repeat_length.
  all: match goal with H : take_mask ?m _ = Ok _ |- _ => unfold take_mask in H; rewrite np_repeat_length in H; destruct (Nat.eqb_spec (length m) (n_sources s)); [auto|discriminate] end.
Qed.

(** ** Methods with an invariant and a fact about the result *)
Definition hoare (I : src -> Prop) {A} (m : M A) (Q : A -> Prop) : Prop :=
  forall s, I s -> I (fst (m s)) /\ forall a, snd (m s) = Ok a -> Q a.
Section Hoare.
  Variable I : src -> Prop.
  Lemma h_bind {A B} (m : M A) (f : A -> M B) P Q : hoare I m P -> (forall a, P a -> hoare I (f a) Q) -> hoare I (mbind m f) Q.
  Proof.
    intros H K s Hs. unfold mbind. destruct (H s Hs) as [H1 H2]. destruct (m s) as [s1 [a|e]]; cbn [fst snd] in *.
    - exact (K a (H2 a eq_refl) s1 H1). - split; auto. intros a C. discriminate C.
  Qed.
  Lemma h_self {B} (f : src -> M B) Q : (forall s0, I s0 -> hoare I (f s0) Q) -> hoare I (mbind self f) Q.
  Proof. intros H s Hs. exact (H s Hs s Hs). Qed.
  Lemma h_lift {A} (r : res A) : hoare I (lift r) (fun a => r = Ok a).
  Proof. intros s Hs. split; auto. Qed.
  Lemma h_ret {A} (a : A) (Q : A -> Prop) : Q a -> hoare I (ret a) Q.
  Proof. intros H s Hs. split; auto. cbn. intros b E. injection E as <-. exact H. Qed.
  Lemma h_raise {A} e (Q : A -> Prop) : hoare I (raise e) Q.
  Proof. intros s Hs. split; auto. cbn. discriminate. Qed.
  Lemma h_modify f : (forall s, I s -> I (f s)) -> hoare I (modify f) (fun _ => True).
  Proof. intros H s Hs. split; auto. cbn. auto. Qed.
  Lemma h_weaken {A} (m : M A) (P Q : A -> Prop) : hoare I m P -> (forall a, P a -> Q a) -> hoare I m Q.
  Proof. intros H K s Hs. destruct (H s Hs). split; auto. Qed.
  Lemma h_if {A} (b : bool) (m1 m2 : M A) Q : hoare I m1 Q -> hoare I m2 Q -> hoare I (if b then m1 else m2) Q.
  Proof. destruct b; auto. Qed.
End Hoare.

Lemma and_false {A} (l : list A) m r : logical_and (map (fun _ => false) l) m = Ok r -> any r = false.
Proof.
  intros H. unfold any. apply not_true_is_false. intros C. apply existsb_exists in C. destruct C as (b & Hb & ->). unfold logical_and in H.
  apply Bool.diff_true_false. symmetry. revert H Hb. unfold bzip, bzipM. destruct (_ =? _)%nat.
  - rewrite map2M_ok. intros H. injection H as <-. revert m. induction l as [|a l IH]; intros [|b m]; cbn; try easy. intros [C|C]; [discriminate|]. now apply (IH m).
  - assert (G : forall (B : Type) (f : B -> bool) (k : list B) v, mapM (fun y => Ok (f y)) k = Ok v -> In true v -> exists y, In y k /\ f y = true).
    { intros B f k v H. rewrite NpFacts.mapM_ok in H. injection H as <-. intros C. apply in_map_iff in C. destruct C as (y & E & C). eauto. }
    destruct l as [|a [|a' l]]; cbn [map].
    + destruct m as [|b [|]]; try discriminate. intros H. injection H as <-. intros [].
    + intros H C. destruct (G _ _ _ _ H C) as (y & _ & E). discriminate.
    + destruct m as [|b [|]]; try discriminate. intros H C. destruct (G _ _ _ _ H C) as (y & Hy & E). change (In y (map (fun _ => false) (a :: a' :: l))) in Hy.
      apply in_map_iff in Hy. destruct Hy as (? & <- & _). discriminate.
Qed.
Lemma evolved_circular x t tm s v : (forall e, In e (s_ecc s) -> e = Fin 0) -> evolved x t tm s = Ok v -> forall e, In e (snd (fst v)) -> e = Fin 0.
Proof.
  intros Z. unfold evolved.
  assert (E : map (fun e => negb (neqb e (Fin 0))) (s_ecc s) = map (fun _ => false) (s_ecc s)).
  { apply map_ext_in. intros e He. rewrite (Z e He), neqb_t by reflexivity. reflexivity. }
  rewrite E. repeat (match goal with |- rbind ?r _ = Ok _ -> _ => destruct r as [?|?] eqn:?; cbn [rbind]; [|discriminate] end; cbn zeta).
  intros H. injection H as <-. cbn [fst snd].
  match goal with H : logical_and (map (fun _ => false) _) _ = Ok ?r |- _ => pose proof (and_false _ _ _ H) as A end.
  match goal with H : (if any ?r then _ else Ok (np_repeat _ _, _)) = Ok _ |- _ => rewrite A in H; injection H as <- end. cbn [fst]. intros e He. now apply repeat_spec in He.
Qed.

(** ** Every method *)
Section Sound.
  Variables (strict : bool) (x : ext) (n : nat).
  Notation I := (fun s => kept strict x s n).
  Lemma sound_curve b c d s : I s -> keys d = documented -> I (set_curve b c d s).
  Proof. intros [[? ? ? ? ? ? ? ? ? ? ? ? ?] K H G S] D. constructor; auto. constructor; auto. Qed.
  Lemma sound_sc : hoare I (set_sc x) (fun _ => True).
  Proof.
    intros s S. split; auto. unfold set_sc. pose proof (so_keys _ _ _ _ S) as K.
    destruct (s_interpolate_sc s); [destruct (curve_of x (s_params s))|]; cbn [fst]; auto; apply sound_curve; auto.
  Qed.
  Lemma sound_put d : keys d = documented -> hoare I (modify (put_params d)) (fun _ => True).
  Proof. intros K. apply h_modify. intros s S. apply sound_curve; auto. Qed.
  Lemma put_keys_doc new d : check_keys (keys new) = Ok tt -> keys d = documented -> keys (put_all new d) = documented.
  Proof. intros C K. rewrite put_all_keys; auto. rewrite K. intros k. now apply check_keys_ok. Qed.
  Lemma sound_update new : hoare I (params_update x new) (fun _ => True).
  Proof.
    unfold params_update. eapply h_bind; [apply h_lift|]. intros [] C. apply h_self. intros s0 S0. cbn zeta.
    eapply h_bind; [apply sound_put, put_keys_doc; [exact C|apply S0]|]. intros _ _. apply h_if; [apply sound_sc|now apply h_ret].
  Qed.
  Lemma sound_setitem k v : hoare I (params_setitem x k v) (fun _ => True).
  Proof.
    unfold params_setitem. eapply h_bind; [apply h_lift|]. intros [] C. apply h_self. intros s0 S0. cbn zeta.
    eapply h_bind; [apply sound_put; change (put k v (s_params s0)) with (put_all [(k, v)] (s_params s0)); apply put_keys_doc; [exact C|apply S0]|].
    intros _ _. apply h_if; [apply sound_sc|now apply h_ret].
  Qed.
  Lemma sound_assign new cur : hoare I (assign_params x new cur) (fun _ => True).
  Proof.
    unfold assign_params. eapply h_bind; [apply h_lift|]. intros d C. cbn zeta.
    eapply h_bind; [apply sound_put, (make_params_keys _ _ C)|]. intros _ _. apply h_if; [apply sound_sc|now apply h_ret].
  Qed.
  Lemma len_n s : I s -> n_sources s = n. Proof. intros S. apply S. Qed.
  Lemma sound_set_snr l s : length l = n -> I s -> I (set_snr (Some l) s).
  Proof. intros L [[? ? ? ? ? ? ? ? ? ? ? ? ?] K H G S]. constructor; auto. constructor; auto. Qed.
  Lemma sound_set_msh l s : length l = n -> I s -> I (set_max_snr_harmonic (Some l) s).
  Proof. intros L [[? ? ? ? ? ? ? ? ? ? ? ? ?] K H G S]. constructor; auto. constructor; auto. Qed.
  Lemma sound_set_tm l s : length l = n -> I s -> I (set_t_merge (Some l) s).
  Proof. intros L [[? ? ? ? ? ? ? ? ? ? ? ? ?] K H G S]. constructor; auto. constructor; auto. Qed.
  Lemma store_length {A} (z : A) mask vals old : has_len n old -> length (store z n mask vals old) = n.
  Proof. unfold store. rewrite scatter_length. destruct old; cbn; auto. intros _. apply np_repeat_length. Qed.
  Lemma sound_record insp v h : hoare I (record_snr insp v h) (fun _ => True).
  Proof.
    unfold record_snr. eapply h_bind; [apply h_modify; intros s S|intros _ _; apply h_modify; intros s S].
    - apply sound_set_msh; auto. rewrite len_n by auto. apply store_length, S.
    - apply sound_set_snr; auto. rewrite len_n by auto. apply store_length, S.
  Qed.
  Lemma sound_method values a which : (forall a insp s v, values a insp s = Ok v -> length (fst v) = n_sources s) ->
    hoare I (snr_method x values a which) (fun v => which = None -> length v = n).
  Proof.
    intros HV. unfold snr_method. apply h_self. intros s0 S0. eapply h_bind; [apply sound_update|]. intros _ _. apply h_self. intros s1 S1. cbn zeta.
    eapply h_bind; [apply h_lift|]. intros insp _. eapply h_bind; [apply h_lift|]. intros v Hv. apply HV in Hv. rewrite len_n in Hv by auto.
    eapply h_bind; [apply sound_record|]. intros _ _. eapply h_weaken; [apply h_lift|]. intros l H ->. cbn [which_or_all] in H.
    rewrite len_n in H by auto. unfold take_mask in H. rewrite np_repeat_length, Hv, Nat.eqb_refl, select_length_all in H by auto. injection H as <-. exact Hv.
  Qed.
  Lemma sound_stationary a which : hoare I (get_snr_stationary x a which) (fun v => which = None -> length v = n).
  Proof. apply sound_method. intros a0 insp s v H. apply (stationary_length _ _ _ _ _ H). Qed.
  Lemma sound_evolving a k which : hoare I (get_snr_evolving x a k which) (fun v => which = None -> length v = n).
  Proof. apply sound_method. intros a0 insp s v H. apply (evolving_length _ _ _ _ _ _ H). Qed.
  Lemma sound_snr_source a k which : hoare I (get_snr_source x a k which) (fun _ => True).
  Proof.
    unfold get_snr_source. apply h_self. intros s0 S0. cbn zeta. eapply h_bind; [apply sound_update|]. intros _ _. apply h_self. intros s1 S1.
    rewrite len_n by auto. do 4 (eapply h_bind; [apply h_lift|intros ? _]).
    eapply h_bind with (P := fun v => length v = n).
    { apply h_if; [|apply h_ret, np_repeat_length]. eapply h_bind; [apply sound_stationary|]. intros v _. apply h_ret. rewrite scatter_length. apply np_repeat_length. }
    intros v1 L1. eapply h_bind with (P := fun v => length v = n).
    { apply h_if; [|now apply h_ret]. eapply h_bind; [apply sound_evolving|]. intros v _. apply h_ret. now rewrite scatter_length. }
    intros v2 L2. eapply h_bind; [apply h_modify; intros s S; now apply sound_set_snr|]. intros _ _. now apply h_ret.
  Qed.
  Lemma sound_snr a k which : hoare I (get_snr x a k which) (fun _ => True).
  Proof.
    unfold get_snr. apply h_self. intros s0 S0. destruct (s_class s0); try apply sound_snr_source.
    - eapply h_bind; [apply sound_stationary|]. intros v L. eapply h_bind; [apply h_modify; intros s S; apply sound_set_snr; auto|]. intros _ _. now apply h_ret.
    - eapply h_bind; [apply sound_evolving|]. intros v L. eapply h_bind; [apply h_modify; intros s S; apply sound_set_snr; auto|]. intros _ _. now apply h_ret.
  Qed.
  Lemma sound_merger (sv : bool) which ex : hoare I (get_merger_time x sv which ex) (fun _ => True).
  Proof.
    unfold get_merger_time. apply h_self. intros s0 S0. cbn zeta. do 3 (eapply h_bind; [apply h_lift|intros ? _]).
    eapply h_bind with (P := fun _ => True); [|intros _ _; eapply h_weaken; [apply h_lift|auto]].
    destruct sv; [|now apply h_ret]. apply h_modify. intros s S. apply sound_set_tm; auto. rewrite scatter_length, !np_repeat_length. now apply len_n.
  Qed.
  Lemma sound_ensure : hoare I (ensure_t_merge x) (fun t => length t = n).
  Proof.
    unfold ensure_t_merge. apply h_self. intros s0 S0. pose proof (al_t_merge _ _ (so_aligned _ _ _ _ S0)) as T.
    destruct (s_t_merge s0); [now apply h_ret|]. eapply h_bind; [apply sound_merger|]. intros _ _. apply h_self. intros s1 S1.
    pose proof (al_t_merge _ _ (so_aligned _ _ _ _ S1)) as T1. destruct (s_t_merge s1); [now apply h_ret|apply h_raise].
  Qed.
  Lemma sound_set_orbit e f m s : length e = n -> length f = n -> length m = n -> ((forall e, In e (s_ecc s) -> e = Fin 0) -> forall y, In y e -> y = Fin 0) -> I s -> I (set_orbit e f m s).
  Proof.
    intros L1 L2 L3 Z [[? ? ? ? ? ? ? ? ? ? ? ? ?] K H G S]. constructor; auto; [constructor; auto|]. cbn.
    destruct S as [S|(S1 & S2 & S3 & S4)]; [left; exact S|right; auto].
  Qed.
  Lemma sound_evolve t : hoare I (evolve_sources x t) (fun _ => True).
  Proof.
    intros s S. unfold evolve_sources. split; auto. destruct (sound_ensure s S) as [S1 T]. unfold mbind at 1. destruct (ensure_t_merge x s) as [s1 [tm|e]]; cbn [fst snd] in *; auto.
    specialize (T tm eq_refl). rewrite mbind_self, mbind_lift. destruct (evolved x t tm s1) as [[[mg ec] f]|e] eqn:E; [|exact S1].
    destruct (evolved_length _ _ _ _ _ E) as (L1 & L2 & L3). rewrite len_n in L1, L2, L3 by auto. cbn [fst snd] in L1, L2, L3.
    assert (S2 : I (set_orbit ec f mg s1)) by (apply sound_set_orbit; auto; intros Z; exact (evolved_circular _ _ _ _ _ Z E)).
    rewrite mbind_modify, mbind_lift. destruct (times_of t (n_sources s1)) as [ts|e] eqn:ET; [|exact S2].
    rewrite mbind_lift. destruct (remaining tm ts) as [lf|e] eqn:ER; [|exact S2]. unfold modify. cbn [fst]. apply sound_set_tm; auto.
    assert (LT : length ts = 1%nat \/ length ts = n).
    { unfold evolved in E. rewrite ET in E. cbn [rbind] in E. destruct (bzip nge ts tm) as [m0|e] eqn:B; cbn [rbind] in E; [|discriminate].
      repeat (match type of E with rbind ?r _ = Ok _ => destruct r as [?|?]; cbn [rbind] in E; [|discriminate] end).
      injection E as <- _ _. apply bzip_len in B. lia. }
    unfold remaining in ER. apply bzip_len in ER. lia.
  Qed.
  Lemma sound_set_a a : ordinary_op n (SetA a) = true -> hoare I (a_setter a) (fun _ => True).
  Proof.
    intros O. assert (G : forall l, length l = 1%nat \/ length l = n -> hoare I (mbind self (fun s => mbind (lift (get_f_arr l (s_m_1 s) (s_m_2 s))) (fun f => modify (set_f_orb f)))) (fun _ => True)).
    { intros l L. apply h_self. intros s0 S0. eapply h_bind; [apply h_lift|]. intros f F. apply h_modify. intros s S. unfold set_f_orb.
      assert (length f = n).
      { unfold get_f_arr in F. destruct (bzip _ (s_m_1 s0) (s_m_2 s0)) as [mm|e] eqn:B; cbn [rbind] in F; [|discriminate]. apply bzip_len in B, F.
        destruct S0 as [[L1 L2 ? ? ? ? ? ? ? ? ? ? ?] _ _ _ _]. rewrite L1, L2 in B. lia. }
      destruct S as [A' ? ? ? ?] eqn:ES. apply sound_set_orbit; auto; apply A'. }
    destruct a as [|l []|v []|l|l|v]; cbn [a_setter]; try apply h_raise; apply G; auto. right. cbn in O. now apply Nat.eqb_eq.
  Qed.
  Lemma sound_tolerance tol s s1 r : I s -> assign_gw_lum_tol x tol s = (s1, r) -> (strict = true -> r = Ok tt) -> I s1.
  Proof.
    intros S H HR. unfold assign_gw_lum_tol in H. destruct (set_gw_lum_tol (x_jv x) (x_lum x) tol (s_harm s)) as [h r0] eqn:E. injection H as <- ->.
    destruct S as [[? ? ? ? ? ? ? ? ? ? ? ? ?] K KH G S]. constructor; auto; [constructor; auto|]. cbn [s_harm set_harm]. intros ST. destruct (KH ST) as (t & T & TH). rewrite (HR ST) in E.
    destruct (match h_gw_lum_tol (s_harm s) with Some t => neqb tol t | None => false end) eqn:Q.
    - assert (h = s_harm s) as -> by (unfold set_gw_lum_tol in E; rewrite Q in E; now injection E). eauto.
    - exists tol. assert (E' : set_gw_lum_tol (x_jv x) (x_lum x) tol no_harm = (h, Ok tt)).
      { revert E. unfold set_gw_lum_tol. rewrite Q. cbn [no_harm h_gw_lum_tol]. unfold create_harmonics_functions. cbn [h_gw_lum_tol].
        destruct (harmonics_needed tol (x_lum x)) as [needed|e]; [|discriminate].
        unfold find_eccentric_transition. cbn [h_gw_lum_tol h_required h_max_strain h_ecc_tol]. destruct (eccentric_transition (x_jv x) tol); [auto|discriminate]. }
      split; auto. revert E'. unfold set_gw_lum_tol. cbn [no_harm h_gw_lum_tol]. unfold create_harmonics_functions. cbn [h_gw_lum_tol].
      destruct (harmonics_needed tol (x_lum x)) as [needed|e]; [|discriminate].
      unfold find_eccentric_transition. cbn [h_gw_lum_tol h_required h_max_strain h_ecc_tol]. destruct (eccentric_transition (x_jv x) tol); [|discriminate].
      intros H. now injection H as <-.
  Qed.
  Lemma sound_discard {A} (m : M A) Q : hoare I m Q -> hoare I (discard m) (fun _ => True).
  Proof. intros H. unfold discard. eapply h_bind; [exact H|]. intros a _. now apply h_ret. Qed.
  Lemma sound_step o s : ordinary_op n o = true -> (forall tol, o = Tolerance tol -> strict = true -> snd (step x o s) = Ok tt) -> I s -> I (fst (step x o s)).
  Proof.
    intros O T S. destruct o; try discriminate O; cbn [step].
    - apply (sound_setitem k v s S).
    - apply (sound_update new s S).
    - exact (proj1 (sound_assign new (Some (s_params s)) s S)).
    - exact S.
    - unfold modify. cbn [fst]. apply sound_curve; auto. apply S.
    - apply (sound_sc s S).
    - unfold set_g, modify. cbn [fst]. destruct S as [[? ? ? ? ? ? ? ? ? ? ? ? ?] K H G S]. constructor; auto; [constructor; auto|]. cbn. destruct b; auto.
    - specialize (T tol eq_refl). cbn [step] in T. destruct (assign_gw_lum_tol x tol s) as [s1 r] eqn:E. cbn [fst snd] in *. exact (sound_tolerance tol s s1 r S E T).
    - apply (sound_set_a a O s S).
    - exact (proj1 (sound_discard _ _ (sound_snr a n_step which) s S)).
    - exact (proj1 (sound_discard _ _ (sound_stationary a which) s S)).
    - exact (proj1 (sound_discard _ _ (sound_evolving a n_step which) s S)).
    - exact (proj1 (sound_discard _ _ (sound_merger save which exact) s S)).
    - apply (sound_evolve t s S).
  Qed.
End Sound.
Lemma init_sound strict x k i s : init x k i = Ok s -> one_per_source x i -> kept strict x s (length (entries (i_m_1 i))).
Proof.
  intros H [EW EP]. pose proof (init_in_step _ _ _ _ H) as [K _]. apply init_fwd in H. destruct H as (f & pos & inc0 & pol & [C1 C2 C3 (C4 & C5 & C6) C7 (L1 & L2 & L3 & L4)] & F).
  destruct (finish_arrays _ _ _ _ F) as (E1 & E2 & E3 & E4 & E5 & E6 & E7 & E8 & E9 & E10 & E11 & E12 & E13 & _). cbn in E1, E2, E3, E4, E5, E6, E7, E8, E9, E10, E11, E12, E13.
  set (n := length (entries (i_m_1 i))) in *.
  assert (EN : forall (y : num) m, len_of (i_m_1 i) = Ok m -> m = n) by (intros _ m; apply is_array_entries).
  assert (SK : (pos = None /\ inc0 = None /\ pol = None) \/ exists p a b, pos = Some p /\ inc0 = Some a /\ pol = Some b /\ length p = n /\ length a = n /\ length b = n /\ forall e, In e (entries (i_ecc i)) -> e = Fin 0).
  { destruct (i_position i) as [p|]; [right|left; tauto]. destruct (EP p eq_refl) as (P1 & P2 & P3). destruct C2 as (I1 & I2 & I3 & p' & I4 & ->).
    rewrite keep_pos in I4 by congruence. injection I4 as <-.
    assert (A : inc0 = Some (match i_inclination i with Some l => l | None => x_inc x n end)) by (destruct (i_inclination i); auto; destruct I1 as (m & M & ->); now rewrite (EN NaN m M)).
    assert (B : pol = Some (match i_polarisation i with Some l => l | None => x_pol x n end)) by (destruct (i_polarisation i); auto; destruct I2 as (m & M & ->); now rewrite (EN NaN m M)).
    exists p. do 2 eexists. rewrite A, B. repeat (split; [reflexivity|]). auto. }
  apply finish_cases in F. destruct F as (h & d & s1 & Hh & Hd & Hs & ES).
  constructor; auto.
  - constructor; rewrite ?E1, ?E2, ?E3, ?E4, ?E5, ?E6, ?E7, ?E8, ?E9, ?E10, ?E11, ?E12, ?E13; auto; try exact I.
    + apply np_repeat_length.
    + unfold weights_of. destruct (py_exists (i_weights i)) eqn:W; cbn; auto. apply EW. intros C. now rewrite C in W.
    + destruct SK as [(-> & _)|(p & a & b & -> & _ & _ & L & _)]; cbn; auto.
    + destruct SK as [(_ & -> & _)|(p & a & b & _ & -> & _ & _ & L & _)]; cbn; auto.
    + destruct SK as [(_ & _ & ->)|(p & a & b & _ & _ & -> & _ & _ & L & _)]; cbn; auto.
  - assert (SH : s_harm s = h).
    { rewrite ES. cbn. unfold set_sc in Hs. destruct (s_interpolate_sc _); [destruct (curve_of _ _); [|discriminate]|]; injection Hs as <-; reflexivity. }
    intros _. rewrite SH. cbn in Hh. exists (i_gw_lum_tol i). split; auto. revert Hh. unfold set_gw_lum_tol. cbn [no_harm h_gw_lum_tol]. unfold create_harmonics_functions. cbn [h_gw_lum_tol].
    destruct (harmonics_needed (i_gw_lum_tol i) (x_lum x)) as [needed|e]; [|discriminate].
    unfold find_eccentric_transition. cbn [h_gw_lum_tol h_required h_max_strain h_ecc_tol]. destruct (eccentric_transition (x_jv x) (i_gw_lum_tol i)); [|discriminate].
    intros H. now injection H as <-.
  - rewrite ES. cbn. destruct (i_interpolate_g i); auto.
  - rewrite E5, E7, E8, E9. destruct SK as [S|(p & a & b & -> & -> & -> & _ & _ & _ & Z)]; [left; tauto|right]. repeat (split; [discriminate|]). exact Z.
Qed.

(** ** Subsets and evolved collections *)
Lemma picked_in {A} js (l l2 : list A) a : picked js l l2 -> In a l2 -> In a l.
Proof. induction 1; intros []; subst; auto. eapply nth_error_In; eauto. Qed.
Lemma sound_index strict x ind s n s2 : kept strict x s n -> getitem ind s = Ok s2 -> kept strict x s2 (n_sources s2).
Proof.
  intros S H. destruct (index_thm ind s s2 n (so_aligned _ _ _ _ S) (so_keys _ _ _ _ S) H) as (js & _ & R & SS).
  pose proof (getitem_settings _ _ _ H) as (_ & _ & _ & EH & EG & _ & _ & MP). destruct S as [AL K HH HG SK].
  assert (N : n_sources s2 = length js) by (unfold n_sources; pose proof (rows_aligned _ _ _ R) as A; apply A).
  constructor.
  - rewrite N. now apply (rows_aligned js s).
  - exact (make_params_keys _ _ MP).
  - now rewrite EH.
  - now rewrite EG.
  - destruct R as [? ? ? ? RE ? ? RP RI RO ? ? ?]. unfold picked_opt in *.
    destruct SK as [(P & I & O)|(P & I & O & Z)]; [left|right].
    + rewrite P, I, O in *. destruct (s_position s2), (s_inclination s2), (s_polarisation s2); easy.
    + destruct (s_position s), (s_inclination s), (s_polarisation s); try easy. destruct (s_position s2), (s_inclination s2), (s_polarisation s2); try easy.
      repeat (split; [discriminate|]). intros e He. apply Z. eapply picked_in; eauto.
Qed.
Lemma sound_new strict x n t s s2 : kept strict x s n -> snd (evolve_new x t s) = Ok s2 -> kept strict x s2 n.
Proof.
  intros S. unfold evolve_new. destruct (sound_ensure strict x n s S) as [S1 T]. unfold mbind at 1. destruct (ensure_t_merge x s) as [s1 [tm|e]]; cbn [fst snd] in *; [|discriminate].
  specialize (T tm eq_refl). rewrite mbind_self, mbind_lift. destruct (evolved x t tm s1) as [[[mg ec] f]|e] eqn:E; [|discriminate].
  destruct (evolved_length _ _ _ _ _ E) as (L1 & L2 & L3). rewrite (len_n strict x n) in L1, L2, L3 by auto. cbn [fst snd] in L1, L2, L3.
  rewrite mbind_lift. destruct (h_gw_lum_tol (s_harm s1)) as [tol|]; [|discriminate].
  match goal with |- context [init x KSource ?i] => set (ia := i) end. destruct (init x KSource ia) as [new|e] eqn:EI; [|discriminate].
  rewrite mbind_lift. destruct (times_of t (n_sources s1)) as [ts|e] eqn:ET; [|discriminate].
  rewrite mbind_lift. destruct (remaining tm ts) as [lf|e] eqn:ER; [|discriminate]. unfold ret. cbn [snd]. intros H. apply ok_inj in H. subst s2.
  assert (LT : length ts = 1%nat \/ length ts = n).
  { unfold evolved in E. rewrite ET in E. cbn [rbind] in E. destruct (bzip nge ts tm) as [m0|e] eqn:B; cbn [rbind] in E; [|discriminate].
    repeat (match type of E with rbind ?r _ = Ok _ => destruct r as [?|?]; cbn [rbind] in E; [|discriminate] end).
    injection E as <- _ _. apply bzip_len in B. lia. }
  assert (LF : length lf = n) by (unfold remaining in ER; apply bzip_len in ER; lia).
  destruct S1 as [AL K HH HG SK].
  assert (SN : kept strict x new (length (entries (i_m_1 ia)))).
  { apply (init_sound strict x KSource ia); auto. split; [intros C; now elim C|]. cbn. intros p Hp. destruct SK as [(C & _)|(_ & P2 & P3 & _)]; [congruence|].
    pose proof (al_m_1 _ _ AL). pose proof (al_position _ _ AL) as AP. pose proof (al_inclination _ _ AL) as AI. pose proof (al_polarisation _ _ AL) as AO.
    rewrite Hp in AP. destruct (s_inclination s1), (s_polarisation s1); try congruence. cbn in *. repeat split; congruence. }
  change (entries (i_m_1 ia)) with (s_m_1 s1) in SN. rewrite (al_m_1 _ _ AL) in SN.
  destruct SN as [[? ? ? ? ? ? ? ? ? ? ? ? ?] NK NH NG NS]. constructor; auto. constructor; auto.
Qed.
Lemma sound_evolved strict x n t s : kept strict x s n -> kept strict x (fst (evolve_new x t s)) n.
Proof.
  intros S. unfold evolve_new. destruct (sound_ensure strict x n s S) as [S1 _]. unfold mbind at 1. destruct (ensure_t_merge x s) as [s1 [tm|e]]; cbn [fst snd] in *; [|exact S1].
  rewrite mbind_self, mbind_lift. destruct (evolved x t tm s1) as [[[mg ec] f]|e]; [|exact S1].
  rewrite mbind_lift. match goal with |- context [match ?r with Ok _ => _ | Err _ => _ end] => destruct r end; [|exact S1].
  rewrite mbind_lift. destruct (times_of t (n_sources s1)); [|exact S1]. rewrite mbind_lift. destruct (remaining tm _); exact S1.
Qed.
Lemma so_harm x s n : sound x s n -> exists tol, h_gw_lum_tol (s_harm s) = Some tol /\ set_gw_lum_tol (x_jv x) (x_lum x) tol no_harm = (s_harm s, Ok tt).
Proof. intros S. exact (kept_harm _ _ _ _ S eq_refl). Qed.
Lemma verification_fwd x ecl t b : verification_binaries x ecl t = Ok b -> exists p s i, bzip ecl (vt_l_gal t) (vt_b_gal t) = Ok p /\ vb_args ecl t = Ok i /\
  i_position i = Some p /\ i_inclination i = Some (vt_i t) /\ i_polarisation i = None /\ i_weights i = PNone /\ i_m_1 i = PQArr (vt_m_1 t) tt /\ init x KVerification i = Ok s /\
  b = mkVB (set_max_snr_harmonic (Some (np_repeat 2%Z (n_sources s))) s) (vt_label t) (vt_snr t).
Proof.
  unfold verification_binaries, vb_args. destruct (bzip ecl _ _) as [p|e]; cbn [rbind]; [|discriminate].
  match goal with |- context [init x KVerification ?i] => destruct (init x KVerification i) as [s|e] eqn:E end; cbn [rbind]; [|discriminate].
  intros H. injection H as <-. exists p, s. eexists. repeat (split; [reflexivity|]). split; [exact E|reflexivity].
Qed.
Lemma verification_sound strict x ecl t b n : verification_binaries x ecl t = Ok b -> whole_table x t n -> kept strict x (vb_source b) n.
Proof.
  intros H (L1 & L2 & L3 & L4 & L5). apply verification_fwd in H. destruct H as (p & s & i & P & _ & Hp & Hi & Hq & Hw & Hm & I & ->). cbn [vb_source].
  assert (LP : length p = n) by (apply bzip_len in P; lia).
  assert (K : kept strict x s n).
  { subst n. replace (length (vt_m_1 t)) with (length (entries (i_m_1 i))) by now rewrite Hm. apply (init_sound strict x KVerification i s I).
    unfold one_per_source. rewrite Hw, Hp, Hi, Hq, Hm. cbn [entries]. split; [congruence|]. intros q E. injection E as <-. auto. }
  assert (N : n_sources s = n) by (apply K). destruct K as [[? ? ? ? ? ? ? ? ? ? ? ? ?] KK H G S]. constructor; auto. constructor; auto. cbn. rewrite N. apply np_repeat_length.
Qed.
(** Every reachable collection is sound. *)
Lemma reachable_kept strict x s n : reachable strict x s n -> kept strict x s n.
Proof.
  induction 1.
  - eapply init_sound; eauto.
  - now apply (verification_sound strict x ecl t b n).
  - now apply sound_step.
  - eapply sound_index; eauto.
  - eapply sound_new; eauto.
  - now apply sound_evolved.
Qed.
Lemma reachable_thm x s n : reachable true x s n -> sound x s n. Proof. apply reachable_kept. Qed.
(** One entry per source, always. *)
Lemma aligned_thm x s n : reachable false x s n -> aligned s n /\ n_sources s = n.
Proof. intros R. apply reachable_kept in R. split; apply R. Qed.
