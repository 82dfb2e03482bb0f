(** MethodFacts.v -- the SNR methods of a Source, source by source. *)
From Coq Require Import String Reals ZArith List Bool Lra Lia.
From Verif Require Import Num NumFacts Np NpFacts Utils Spec UtilsFacts Strain Evol EvolSpec EvolFacts MergeFacts ArrEvolFacts StrainSpec StrainFacts Psd PsdSpec
  Snr SnrSpec SnrFacts SnrThms2 Interp Harmonics ScParams Source Index SourceSpec History CurveSpec CurveFacts CurveThms SourceFacts MethodSpec Toy.
Import ListNotations.
Open Scope R_scope.

(** ** Arguments *)
Lemma asked_fill a s : fill_args a (s_params s) = asked a s.
Proof. reflexivity. Qed.
Lemma used_resolve a s : resolve_args (fill_args a (s_params s)) = used a s.
Proof.
  rewrite asked_fill. unfold used, resolve_args, resolve_t_obs. rewrite mission_eq. destruct (asked a s) as [u1 u2 u3 u4 u5 u6].
  cbn [a_t_obs a_instrument a_custom a_L a_approximate_R a_confusion]. destruct u1 as [k| | | |]; cbn [peqb]; try reflexivity.
  destruct (String.eqb k "auto"); reflexivity.
Qed.
Lemma put_params_of u d : keys d = documented -> put_all (args_dict u) d = params_of u.
Proof.
  intros K. assert (KU : keys (put_all (args_dict u) d) = documented).
  { rewrite put_all_keys; auto. intros k. rewrite K. apply (proj1 (check_keys_ok _) (args_known u)). }
  apply same_keys_eq; [rewrite KU; apply documented_nodup|exact KU|]. intros k. rewrite args_lookup.
  destruct (lookup k (args_dict u)) as [v|] eqn:L.
  - cbn in L. cbn. repeat match goal with |- context [String.eqb k ?c] => destruct (String.eqb_spec k c) as [->|]; [cbn in L|] end; try congruence.
  - assert (N : ~ In k documented).
    { intros H. assert (I : In k (keys (args_dict u))) by (cbn in *; tauto). apply lookup_in in I. destruct I; congruence. }
    destruct (lookup k d) as [v|] eqn:M; [exfalso; apply N; rewrite <- K; apply lookup_in; eauto|].
    symmetry. destruct (lookup k (params_of u)) eqn:M2; auto. exfalso. apply N. change documented with (keys (params_of u)). apply lookup_in; eauto.
Qed.
Lemma kw_same x u : kw_of x (params_of u) = kw_of x (args_dict u).
Proof. reflexivity. Qed.
Lemma refill_params u s : s_params s = params_of u -> asked u s = u.
Proof.
  intros E. unfold asked, given, current. rewrite E. destruct u as [u1 u2 u3 u4 u5 u6]. cbn.
  f_equal; [destruct u1|destruct u2|destruct u3|destruct u4|destruct u5|destruct u6]; reflexivity.
Qed.
Lemma update_ok x u s p : good x s -> exact_curve x (params_of u) p ->
  exists sc, params_update x (args_dict u) s = (set_curve (s_interpolate_sc s) sc (params_of u) s, Ok tt) /\
             good x (set_curve (s_interpolate_sc s) sc (params_of u) s).
Proof.
  intros G E. pose proof G as [H6 S].
  assert (R : exists sc, params_update x (args_dict u) s = (set_curve (s_interpolate_sc s) sc (params_of u) s, Ok tt)).
  { rewrite update_cases, args_known. cbv zeta. rewrite (put_params_of u _ H6). destruct (existsb _ _).
    - unfold set_sc. cbn [s_interpolate_sc put_params set_curve s_params]. destruct (s_interpolate_sc s) eqn:F.
      + destruct (Toy.curve_exists x _ p E) as [c C]. rewrite C. exists (Some c). unfold put_sc, put_params. cbn. now rewrite F.
      + exists None. unfold put_sc, put_params. cbn. now rewrite F.
    - exists (s_sc s). reflexivity. }
  destruct R as [sc R]. exists sc. split; auto. pose proof (good_update x (args_dict u) s G) as K. rewrite R in K. exact K.
Qed.
Lemma noise_known x u s p t : good x s -> s_params s = params_of u -> a_t_obs u = PVal (Fin t) -> exact_curve x (params_of u) p ->
  exists kw q, kw_of x (params_of u) = Ok kw /\ noise_curve (x_psd x) kw (s_sc s) t q.
Proof.
  intros [_ S] E T P. pose proof (P []) as P0. unfold psd_of in P0. destruct (negb _) eqn:KN; [discriminate|].
  change (param "t_obs" (params_of u)) with (a_t_obs u) in P0. rewrite T in P0. cbn [quantity_of rbind] in P0.
  destruct (kw_of x (params_of u)) as [kw|] eqn:K; [|discriminate]. exists kw.
  unfold in_step in S. rewrite E in S. destruct (s_interpolate_sc s).
  - destruct S as (c & _ & ->). exists c. split; auto. intros fs. reflexivity.
  - rewrite S. exists p. split; auto. intros fs. rewrite <- (P fs). unfold psd_of. rewrite KN.
    change (param "t_obs" (params_of u)) with (a_t_obs u). rewrite T, K. reflexivity.
Qed.

(** ** The frame of get_snr_stationary and get_snr_evolving *)
Definition old_snr (s : src) (r : row) : num := if s_snr s then r_snr r else Fin 0.
Definition old_msh (s : src) (r : row) : Z := if s_max_snr_harmonic s then r_msh r else 0%Z.
Definition with_snr (v : num) (h : Z) (r : row) : row :=
  mkRow (r_m1 r) (r_m2 r) (r_d r) (r_f r) (r_e r) (r_sky r) (r_w r) (r_tm r) v h (r_merged r).
Lemma old_snr_of s xs : collection s xs -> match s_snr s with Some l => l | None => np_repeat (Fin 0) (n_sources s) end = map (old_snr s) xs.
Proof. intros C. unfold old_snr. rewrite (n_sources_map _ _ C). destruct (col_snr _ _ C) as [->| ->]; auto. apply np_repeat_map. Qed.
Lemma old_msh_of s xs : collection s xs -> match s_max_snr_harmonic s with Some l => l | None => np_repeat 0%Z (n_sources s) end = map (old_msh s) xs.
Proof. intros C. unfold old_msh. rewrite (n_sources_map _ _ C). destruct (col_msh _ _ C) as [->| ->]; auto. apply np_repeat_map. Qed.
Lemma which_fits {Y} (g : Y -> row) which s ys (q : Y -> bool) : collection s (map g ys) -> 
  match which with None => forall y, q y = true | Some w => w = map q ys end -> which_or_all which s = map q ys.
Proof.
  intros C. destruct which; cbn; auto. intros H. rewrite (n_sources_map _ _ C), map_length, np_repeat_map. apply map_ext. auto.
Qed.
Lemma collection_curve f sc d s xs : collection s xs -> collection (set_curve f sc d s) xs.
Proof. intros []. now split. Qed.

Section Frame.
  Context {Y : Type} (g : Y -> row).
  Variables (x : ext) (values : snr_args -> list bool -> src -> res (list num * list Z)) (u : snr_args).
  Lemma snr_method_map a which s ys q s1 (v : row -> num) (h : row -> Z) :
    collection s (map g ys) -> which_or_all which s = map q ys -> used a s = u ->
    params_update x (args_dict u) s = (s1, Ok tt) ->
    let insp := fun y => q y && negb (r_merged (g y)) in
    values u (map insp ys) s1 = Ok (map (fun y => if insp y then v (g y) else Fin 0) ys, map (fun y => if insp y then h (g y) else 2%Z) ys) ->
    snr_method x values a which s =
      (set_snr (Some (map (fun y => if insp y then v (g y) else old_snr s (g y)) ys))
         (set_max_snr_harmonic (Some (map (fun y => if insp y then h (g y) else old_msh s (g y)) ys)) s1),
       Ok (map (fun y => if r_merged (g y) then Fin 0 else v (g y)) (filter q ys))).
  Proof.
    intros C W U P insp V. unfold snr_method. rewrite mbind_self, W, used_resolve, U. cbv zeta. unfold mbind at 1. rewrite P.
    rewrite mbind_self. destruct (update_frame _ _ _ _ _ P) as (sc & d & E).
    assert (C1 : collection s1 (map g ys)) by (rewrite E; now apply collection_curve).
    destruct (col_map g s1 ys C1) as (_ & _ & _ & _ & _ & M). rewrite M, map_map, logical_and_map. rewrite mbind_lift. fold insp.
    change (map (fun y : Y => q y && negb (r_merged (g y))) ys) with (map insp ys). rewrite V. rewrite mbind_lift. cbn [fst snd].
    unfold record_snr. unfold mbind, modify, lift. cbn [set_max_snr_harmonic s_snr s_max_snr_harmonic]. unfold store.
    change (n_sources (set_max_snr_harmonic ?v s1)) with (n_sources s1).
    rewrite (old_msh_of _ _ C1). 
    match goal with |- context [set_snr (Some (scatter _ _ ?o))] => replace o with (map (old_snr s1) (map g ys)) end.
    2:{ symmetry. exact (old_snr_of _ _ C1). }
    rewrite !map_map, !select_map, !scatter_map, take_mask_map.
    assert (O : forall r, old_snr s1 r = old_snr s r /\ old_msh s1 r = old_msh s r) by (intros r; rewrite E; split; reflexivity).
    f_equal; [|f_equal].
    - f_equal; [|f_equal]; f_equal; apply map_ext; intros y; rewrite ?(proj1 (O (g y))), ?(proj2 (O (g y))); destruct (insp y); reflexivity.
    - apply map_ext_in. intros y Hy. apply filter_In in Hy. destruct Hy as [_ Hq]. unfold insp. rewrite Hq. cbn [andb]. now destruct (r_merged (g y)).
  Qed.
  (** The collection afterwards. *)
  Lemma collection_after s1 ys (v : Y -> num) (h : Y -> Z) : collection s1 (map g ys) ->
    collection (set_snr (Some (map v ys)) (set_max_snr_harmonic (Some (map h ys)) s1)) (map (fun y => with_snr (v y) (h y) (g y)) ys).
  Proof.
    intros C. destruct (col_map g s1 ys C) as (C1 & C2 & C3 & C4 & C5 & C6). pose proof (col_w _ _ C) as W. pose proof (col_tm _ _ C) as T. pose proof (col_sky _ _ C) as K.
    split; cbn [set_snr set_max_snr_harmonic s_m_1 s_m_2 s_dist s_f_orb s_ecc s_merged s_weights s_t_merge s_snr s_max_snr_harmonic s_position s_polarisation s_inclination];
      try (rewrite map_map; cbn; auto; fail).
    - destruct W as [W|W]; [now left|right]. rewrite W, !map_map. reflexivity.
    - destruct T as [W2|W2]; [now left|right]. rewrite W2, !map_map. reflexivity.
    - right. now rewrite map_map.
    - right. now rewrite map_map.
    - destruct K as [K|K]; [now left|right]. rewrite K. unfold pop_sky. rewrite !map_map. reflexivity.
  Qed.
End Frame.

(** ** Values of single sources *)
Lemma filter_single {Y} (f : Y -> bool) y : f y = true -> filter f [y] = [y]. Proof. cbn. now intros ->. Qed.
Lemma group_of_spec hr u : group_of hr = Some u <-> harmonic_group hr u.
Proof.
  unfold group_of, in_group. cbn [fst snd]. split.
  - repeat match goal with |- context [if ?c then _ else _] => destruct c eqn:?E end; intros H; inversion H; subst;
      rewrite ?andb_true_iff, ?andb_false_iff, ?Z.ltb_lt, ?Z.leb_le in *; constructor; lia.
  - intros H. inversion H; subst; 
      repeat match goal with |- context [(?a <? ?b)%Z] => destruct (Z.ltb_spec a b) | |- context [(?a <=? ?b)%Z] => destruct (Z.leb_spec a b) end; cbn [andb]; try reflexivity; lia.
Qed.
Lemma group_of_some hr : (1 < hr <= 10000)%Z -> exists u, group_of hr = Some u /\ harmonic_group hr u.
Proof.
  intros H. destruct (group_of hr) as [u|] eqn:E; [exists u; split; auto; now apply group_of_spec|]. exfalso. revert E. unfold group_of, in_group. cbn [fst snd].
  repeat match goal with |- context [(?a <? ?b)%Z] => destruct (Z.ltb_spec a b) | |- context [(?a <=? ?b)%Z] => destruct (Z.leb_spec a b) end; cbn [andb]; try discriminate; lia.
Qed.
Lemma group_pos hr u : harmonic_group hr u -> (1 <= u)%nat.
Proof. intros []; lia. Qed.
Lemma st_val_spec x s sc t p tol kw r e : noise_curve (x_psd x) kw sc t p -> h_ecc_tol (s_harm s) = Some (Fin tol) ->
  r_e r = Fin e -> (1 < h_required (s_harm s) (Fin e) <= 10000)%Z ->
  stationary_snr x s sc kw t r (st_val x s t p (Fin tol) r) (st_msh x s t p (Fin tol) r).
Proof.
  intros P T E H. unfold st_val, st_msh, by_class. rewrite E. destruct (Rle_dec e tol) as [L|L].
  - assert (G : ngt (Fin e) (Fin tol) = false) by (unfold ngt; apply nlt_f; lra). assert (G2 : nle (Fin e) (Fin tol) = true) by (apply nle_t; lra).
    rewrite G, G2. apply circular_stationary.
    + exists (Fin tol). rewrite E. auto.
    + change [chirp_mass (r_m1 r) (r_m2 r)] with (map row_mc [r]). change [r_f r] with (map r_f [r]). change [r_d r] with (map r_d [r]).
      unfold sky_of_row. replace (if s_position s then Some r_sky else None) with (sky_opt s) by (unfold sky_opt; destruct (s_position s); reflexivity).
      rewrite (circ_stationary_map (x_psd x) (x_jv x) (s_g s) row_mc r_f r_d [r] t _ _ kw p P). reflexivity.
  - assert (G : ngt (Fin e) (Fin tol) = true) by (unfold ngt; apply nlt_t; lra). rewrite G.
    destruct (group_of_some _ H) as (u & U & HU). rewrite U. apply (eccentric_stationary _ _ _ _ _ _ _ u).
    + exists (Fin tol). rewrite E. auto.
    + now rewrite E.
    + change [chirp_mass (r_m1 r) (r_m2 r)] with (map row_mc [r]). change [r_f r] with (map r_f [r]). change [r_d r] with (map r_d [r]). change [r_e r] with (map r_e [r]).
      rewrite (ecc_stationary_map (x_psd x) (x_jv x) (s_g s) row_mc r_f r_e r_d [r] t u _ _ _ kw p P).
      apply (returned_local true false (st_row x s t p u) [r]); auto. intros y. apply map_ne, arange1_ne, (group_pos _ _ HU).
Qed.
Lemma ev_val_spec x s sc t p tol kw n r e : noise_curve (x_psd x) kw sc t p -> h_ecc_tol (s_harm s) = Some (Fin tol) ->
  r_e r = Fin e -> 0 <= e <= 1 -> (1 < h_required (s_harm s) (Fin e) <= 10000)%Z -> (1 <= n)%nat -> odeint_shape (x_odeint x) -> (forall k, complete_schedule k (x_sched x k)) ->
  evolving_snr x s sc kw t n r (ev_val x s t p (Fin tol) n r) (ev_msh x s t p (Fin tol) n r).
Proof.
  intros P T E E01 H Hn Ho Hs. unfold ev_val, ev_msh, by_class. rewrite E. destruct (Rle_dec e tol) as [L|L].
  - assert (G : ngt (Fin e) (Fin tol) = false) by (unfold ngt; apply nlt_f; lra). assert (G2 : nle (Fin e) (Fin tol) = true) by (apply nle_t; lra).
    rewrite G, G2. apply circular_evolving.
    + exists (Fin tol). rewrite E. auto.
    + replace (t_merge_of_row s r) with (otm [r] (tm_opt s)) by (unfold t_merge_of_row, otm, tm_opt; destruct (s_t_merge s); reflexivity).
      change [r_m1 r] with (map r_m1 [r]). change [r_m2 r] with (map r_m2 [r]). change [r_f r] with (map r_f [r]). change [r_d r] with (map r_d [r]).
      rewrite (circ_evolving_map (x_psd x) (x_jv x) (s_g s) (x_quad x) r_m1 r_m2 r_f r_d [r] t n _ _ kw p P Hn). reflexivity.
  - assert (G : ngt (Fin e) (Fin tol) = true) by (unfold ngt; apply nlt_t; lra). rewrite G.
    destruct (group_of_some _ H) as (u & U & HU). rewrite U. apply (eccentric_evolving _ _ _ _ _ _ _ _ u).
    + exists (Fin tol). rewrite E. auto.
    + now rewrite E.
    + change [r_m1 r] with (map r_m1 [r]). change [r_m2 r] with (map r_m2 [r]). change [r_f r] with (map r_f [r]). change [r_d r] with (map r_d [r]). change [r_e r] with (map r_e [r]).
      rewrite (ecc_evolving_map (x_psd x) (x_jv x) (s_g s) (x_quad x) (x_odeint x) _ (s_n_proc s) r_m1 r_m2 r_f r_d r_e [r] u t n None _ _ _ kw p P Hn Ho).
      * apply (returned_local true false (ev_row x s t p n u) [r]); auto. intros y. apply map_ne, arange1_ne, (group_pos _ _ HU).
      * intros _. apply Hs.
      * intros y [<-|[]]. eauto.
Qed.
