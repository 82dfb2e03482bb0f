(** MethodThms.v -- masks, strains and SNRs of a Source: theorem-level statements. *)
From Coq Require Import String Reals ZArith List Bool Lra Lia.
From Verif Require Import Num NumFacts Np NpFacts Utils Spec UtilsFacts Strain Evol EvolSpec EvolFacts MergeFacts ArrEvolFacts StrainSpec StrainFacts Psd PsdSpec
  Snr SnrSpec SnrFacts SnrThms2 Interp Harmonics ScParams Source Index SourceSpec History CurveSpec CurveFacts CurveThms SourceFacts MethodSpec MethodFacts.
Import ListNotations.
Open Scope R_scope.

(** ** Masks *)
Definition stat_of (s : src) (t : R) (r : row) : bool :=
  nle ((circ_f_elem (r_f r) (row_mc r) (Fin t) (r_e r) merge_f_default - r_f r) / r_f r)%num (s_stat_tol s).
Lemma stat_of_spec s t r : is_stationary s t r (stat_of s t r).
Proof.
  unfold is_stationary. rewrite (determine_stationarity_masses r_f (fun _ => Fin t) r_e r_m1 r_m2 _ [r]).
  rewrite determine_stationarity_map. reflexivity.
Qed.
(** The observing time a mask is computed for. *)
Definition time_resolved (s : src) (t_obs : pval) (t : R) : Prop :=
  resolve_t_obs (or_default t_obs (get_or_none "t_obs" (s_params s))) (get_or_none "instrument" (s_params s)) = PVal (Fin t).
Definition circ_test (c : tri) (tol e : num) : bool := match c with TriTrue => nle e tol | TriFalse => ngt e tol | _ => true end.
Definition stat_test (c : tri) (b : bool) : bool := match c with TriTrue => b | TriFalse => negb b | _ => true end.
Lemma source_mask_map {Y} (g : Y -> row) s ys c st t_obs t tol : collection s (map g ys) -> c <> TriOther -> st <> TriOther ->
  h_ecc_tol (s_harm s) = Some tol -> (st <> TriNone -> time_resolved s t_obs t) ->
  get_source_mask c st t_obs s = Ok (map (fun y => circ_test c tol (r_e (g y)) && stat_test st (stat_of s t (g y))) ys).
Proof.
  intros C Hc Hs T MT. destruct (col_map g s ys C) as (C1 & C2 & C3 & C4 & C5 & C6).
  assert (N : n_sources s = length ys) by (rewrite (n_sources_map _ _ C); apply map_length).
  unfold get_source_mask, ecc_tol. rewrite T.
  assert (EC : match c with
     | TriNone => Ok (np_repeat true (n_sources s))
     | TriTrue => (tol0 <- Ok tol ;; Ok (map (fun e => nle e tol0) (s_ecc s)))%res
     | TriFalse => (tol0 <- Ok tol ;; Ok (map (fun e => ngt e tol0) (s_ecc s)))%res
     | TriOther => Err ValueError end = Ok (map (fun y => circ_test c tol (r_e (g y))) ys)).
  { destruct c; cbn [rbind circ_test]; rewrite ?(repeat_g _ ys _ N), ?C5, ?map_map; try reflexivity. congruence. }
  rewrite EC. cbn [rbind].
  assert (ES : st <> TriNone -> (t0 <- time_of (resolve_t_obs (or_default t_obs (get_or_none "t_obs" (s_params s))) (get_or_none "instrument" (s_params s))) ;;
      mc <- m_c s ;; mask <- determine_stationarity (s_f_orb s) (np_repeat t0 (n_sources s)) (s_ecc s) None None (Some mc) (s_stat_tol s) ;;
      Ok (match st with TriFalse => map negb mask | _ => mask end))%res = Ok (map (fun y => stat_test st (stat_of s t (g y))) ys)).
  { intros HN. rewrite (MT HN). cbn [time_of rbind]. rewrite (m_c_map g s ys C). cbn [rbind]. rewrite (repeat_g _ ys _ N), C4, C5.
    rewrite (determine_stationarity_map (fun y => r_f (g y)) (fun y => row_mc (g y)) (fun _ => Fin t) (fun y => r_e (g y))). cbn [rbind].
    destruct st; try congruence; rewrite ?map_map; reflexivity. }
  destruct st; try congruence; cbv zeta.
  - rewrite (repeat_g _ ys _ N). cbn [rbind]. rewrite logical_and_map. reflexivity.
  - rewrite ES by discriminate. cbn [rbind]. now rewrite logical_and_map.
  - rewrite ES by discriminate. cbn [rbind]. now rewrite logical_and_map.
Qed.

(** ** get_snr *)
Lemma used_from u a s s2 : u = used a s -> s_params s2 = params_of u -> used (asked a s) s2 = u.
Proof.
  intros -> E. assert (H : asked (asked a s) s2 = asked a s).
  { unfold asked at 1. unfold given at 1 2 3 4 5 6. unfold current. rewrite E. unfold used. destruct (asked a s) as [u1 u2 u3 u4 u5 u6].
    cbn [a_t_obs a_instrument a_custom a_L a_approximate_R a_confusion].
    destruct u1 as [k| | | |]; try (destruct (String.eqb k "auto")); cbn;
    f_equal; try (destruct u2; reflexivity); try (destruct u3; reflexivity); try (destruct u4; reflexivity); try (destruct u5; reflexivity); try (destruct u6; reflexivity). }
  unfold used. now rewrite H.
Qed.
Lemma used_after a s s1 : s_params s1 = params_of (asked a s) -> used (asked a s) s1 = used a s.
Proof. intros E. unfold used. now rewrite (refill_params _ _ E). Qed.
Lemma time_after a s s1 t : s_params s1 = params_of (asked a s) -> a_t_obs (used a s) = PVal (Fin t) -> time_resolved s1 (a_t_obs (asked a s)) t.
Proof.
  intros E T. unfold time_resolved. rewrite E. change (get_or_none "t_obs" (params_of (asked a s))) with (a_t_obs (asked a s)).
  change (get_or_none "instrument" (params_of (asked a s))) with (a_instrument (asked a s)).
  rewrite <- T, <- used_resolve. unfold resolve_args. rewrite asked_fill. cbn [a_t_obs]. f_equal. now destruct (a_t_obs (asked a s)).
Qed.

Definition src_val x s t p tol n (r : row) : num := if stat_of s t r then st_val x s t p tol r else ev_val x s t p tol n r.
Definition src_msh x s t p tol n (r : row) : Z := if stat_of s t r then st_msh x s t p tol r else ev_msh x s t p tol n r.

Section GetSnr.
  Context {Y : Type} (g : Y -> row).
  Variables (x : ext) (a : snr_args) (n : nat) (s : src) (ys : list Y) (t : R).
  Hypothesis HC : computable x s (map g ys) a t n.
  Let u := used a s.
  Lemma good_s : good x s. Proof. split; [exact (ok_keys _ _ _ _ _ _ HC)|exact (ok_curve _ _ _ _ _ _ HC)]. Qed.
  (** The settings under which everything is computed. *)
  Lemma settings : exists sc kw p tol, curve_in_use x s u sc /\ kw_of x (params_of u) = Ok kw /\ noise_curve (x_psd x) kw sc t p /\
    h_ecc_tol (s_harm s) = Some (Fin tol) /\
    forall s1, good x s1 -> s_interpolate_sc s1 = s_interpolate_sc s ->
      params_update x (args_dict u) s1 = (set_curve (s_interpolate_sc s) sc (params_of u) s1, Ok tt) /\ good x (set_curve (s_interpolate_sc s) sc (params_of u) s1).
  Proof.
    destruct (ok_noise _ _ _ _ _ _ HC) as [p0 P0]. destruct (ok_tol _ _ _ _ _ _ HC) as [tol T]. fold u in P0.
    destruct (update_ok x u s p0 good_s P0) as (sc & U & G).
    destruct (noise_known x u _ p0 t G eq_refl (ok_time _ _ _ _ _ _ HC) P0) as (kw & p & K & P).
    exists sc, kw, p, tol. cbn [set_curve s_sc] in P. split; [|split; [|split; [|split]]]; auto.
    - destruct G as [_ G]. unfold in_step in G. cbn in G. exact G.
    - intros s1 G1 F. destruct (update_ok x u s1 p0 G1 P0) as (sc1 & U1 & G1'). rewrite F in *.
      assert (sc1 = sc).
      { destruct G1' as [_ A], G as [_ B]. unfold in_step in *. cbn [set_curve s_interpolate_sc s_params s_sc] in *. destruct (s_interpolate_sc s); [|congruence].
        destruct A as (c & A1 & A2), B as (c' & B1 & B2). rewrite A1 in B1. apply ok_inj in B1. congruence. }
      subst sc1. auto.
  Qed.
  Variables (sc : option (num -> num)) (kw : psd_kwargs) (p : num -> num) (tol : R).
  Hypotheses (K : kw_of x (params_of u) = Ok kw) (P : noise_curve (x_psd x) kw sc t p) (T : h_ecc_tol (s_harm s) = Some (Fin tol)).
  Hypothesis U : forall s1, good x s1 -> s_interpolate_sc s1 = s_interpolate_sc s ->
      params_update x (args_dict u) s1 = (set_curve (s_interpolate_sc s) sc (params_of u) s1, Ok tt) /\ good x (set_curve (s_interpolate_sc s) sc (params_of u) s1).
  (** A state that differs from [s] in stored SNRs, curve and parameters only. *)
  Definition related (s1 : src) : Prop := s_class s1 = s_class s /\ s_harm s1 = s_harm s /\ s_g s1 = s_g s /\ s_position s1 = s_position s /\
    s_t_merge s1 = s_t_merge s /\ s_n_proc s1 = s_n_proc s /\ s_interpolate_sc s1 = s_interpolate_sc s /\ s_stat_tol s1 = s_stat_tol s.
  Definition near (r r' : row) : Prop := exists v h, r' = with_snr v h r.
  Lemma same_values s1 r r' : related s1 -> near r r' ->
    (forall sc' d f, stat_of (set_curve f sc' d s1) t r' = stat_of s t r) /\ stat_of s1 t r' = stat_of s t r /\
    (forall sc' d f, st_val x (set_curve f sc' d s1) t p (Fin tol) r' = st_val x s t p (Fin tol) r) /\
    (forall sc' d f, st_msh x (set_curve f sc' d s1) t p (Fin tol) r' = st_msh x s t p (Fin tol) r) /\
    (forall sc' d f, ev_val x (set_curve f sc' d s1) t p (Fin tol) n r' = ev_val x s t p (Fin tol) n r) /\
    (forall sc' d f, ev_msh x (set_curve f sc' d s1) t p (Fin tol) n r' = ev_msh x s t p (Fin tol) n r).
  Proof.
    intros (_ & R1 & R2 & R3 & R4 & R5 & R6 & R7) (v & h & ->).
    unfold stat_of, st_val, st_msh, ev_val, ev_msh, by_class, st_circ, st_row, ev_circ, ev_row, sky_opt, tm_opt, row_mc. cbn [set_curve s_harm s_g s_position s_t_merge s_stat_tol].
    rewrite R1, R2, R3, R4, R7.
    cbn [with_snr r_e r_m1 r_m2 r_f r_d r_tm]. split; [|split; [|split; [|split; [|split]]]]; intros; try reflexivity; 
      try (destruct (s_position s); reflexivity); destruct (s_t_merge s); reflexivity.
  Qed.
  Lemma stationary_run a' which s1 (g1 : Y -> row) q : good x s1 -> related s1 -> collection s1 (map g1 ys) -> (forall y, near (g y) (g1 y)) -> used a' s1 = u ->
    which_or_all which s1 = map q ys ->
    get_snr_stationary x a' which s1 =
      (set_snr (Some (map (fun y => if q y && negb (r_merged (g y)) then st_val x s t p (Fin tol) (g y) else old_snr s1 (g1 y)) ys))
         (set_max_snr_harmonic (Some (map (fun y => if q y && negb (r_merged (g y)) then st_msh x s t p (Fin tol) (g y) else old_msh s1 (g1 y)) ys))
            (set_curve (s_interpolate_sc s) sc (params_of u) s1)),
       Ok (map (fun y => if r_merged (g y) then Fin 0 else st_val x s t p (Fin tol) (g y)) (filter q ys))).
  Proof.
    intros G R C Nr Ua W. destruct (U s1 G) as [U1 G1]; [apply R|]. set (s2 := set_curve (s_interpolate_sc s) sc (params_of u) s1) in *.
    assert (C2 : collection s2 (map g1 ys)) by now apply collection_curve.
    assert (T2 : h_ecc_tol (s_harm s2) = Some (Fin tol)) by (cbn; destruct R as (_ & -> & _); exact T).
    assert (V := stationary_values_map g1 x u s2 ys (fun y => q y && negb (r_merged (g1 y))) t kw p (Fin tol) C2 (ok_time _ _ _ _ _ _ HC) K T2 P).
    assert (M := snr_method_map g1 x (stationary_values x) u a' which s1 ys q s2 (st_val x s2 t p (Fin tol)) (st_msh x s2 t p (Fin tol)) C W Ua U1 V).
    assert (SV : forall y, st_val x s2 t p (Fin tol) (g1 y) = st_val x s t p (Fin tol) (g y) /\ st_msh x s2 t p (Fin tol) (g1 y) = st_msh x s t p (Fin tol) (g y) /\ r_merged (g1 y) = r_merged (g y)).
    { intros y. destruct (same_values s1 (g y) (g1 y) R (Nr y)) as (_ & _ & A & B & _). split; [apply A|split; [apply B|]]. destruct (Nr y) as (? & ? & ->). reflexivity. }
    unfold get_snr_stationary. rewrite M. f_equal; [f_equal; [|f_equal]|]; f_equal; apply map_ext; intros y; destruct (SV y) as (A1 & A2 & A3); rewrite ?A1, ?A2, ?A3; reflexivity.
  Qed.
  Lemma evolving_run a' which s1 (g1 : Y -> row) q : good x s1 -> related s1 -> collection s1 (map g1 ys) -> (forall y, near (g y) (g1 y)) -> used a' s1 = u ->
    which_or_all which s1 = map q ys ->
    get_snr_evolving x a' n which s1 =
      (set_snr (Some (map (fun y => if q y && negb (r_merged (g y)) then ev_val x s t p (Fin tol) n (g y) else old_snr s1 (g1 y)) ys))
         (set_max_snr_harmonic (Some (map (fun y => if q y && negb (r_merged (g y)) then ev_msh x s t p (Fin tol) n (g y) else old_msh s1 (g1 y)) ys))
            (set_curve (s_interpolate_sc s) sc (params_of u) s1)),
       Ok (map (fun y => if r_merged (g y) then Fin 0 else ev_val x s t p (Fin tol) n (g y)) (filter q ys))).
  Proof.
    intros G R C Nr Ua W. destruct (U s1 G) as [U1 G1]; [apply R|]. set (s2 := set_curve (s_interpolate_sc s) sc (params_of u) s1) in *.
    assert (C2 : collection s2 (map g1 ys)) by now apply collection_curve.
    assert (T2 : h_ecc_tol (s_harm s2) = Some (Fin tol)) by (cbn; destruct R as (_ & -> & _); exact T).
    assert (E : forall y, In y ys -> exists r, r_e (g1 y) = Fin r /\ 0 <= r <= 1).
    { intros y Hy. destruct (ok_ecc _ _ _ _ _ _ HC (g y)) as (e & A & B & _); [now apply in_map|]. exists e. destruct (Nr y) as (? & ? & ->). auto. }
    assert (V := evolving_values_map g1 x u n s2 ys (fun y => q y && negb (r_merged (g1 y))) t kw p (Fin tol) C2 (ok_time _ _ _ _ _ _ HC) K T2 P
      (ok_steps _ _ _ _ _ _ HC) (ok_odeint _ _ _ _ _ _ HC) (ok_pool _ _ _ _ _ _ HC) E).
    assert (M := snr_method_map g1 x (fun a => evolving_values x a n) u a' which s1 ys q s2 (ev_val x s2 t p (Fin tol) n) (ev_msh x s2 t p (Fin tol) n) C W Ua U1 V).
    assert (SV : forall y, ev_val x s2 t p (Fin tol) n (g1 y) = ev_val x s t p (Fin tol) n (g y) /\ ev_msh x s2 t p (Fin tol) n (g1 y) = ev_msh x s t p (Fin tol) n (g y) /\ r_merged (g1 y) = r_merged (g y)).
    { intros y. destruct (same_values s1 (g y) (g1 y) R (Nr y)) as (_ & _ & _ & _ & A & B). split; [apply A|split; [apply B|]]. destruct (Nr y) as (? & ? & ->). reflexivity. }
    unfold get_snr_evolving. rewrite M. f_equal; [f_equal; [|f_equal]|]; f_equal; apply map_ext; intros y; destruct (SV y) as (A1 & A2 & A3); rewrite ?A1, ?A2, ?A3; reflexivity.
  Qed.
  Lemma near_refl r : near r r. Proof. exists (r_snr r), (r_msh r). now destruct r. Qed.

  (** The object after a successful call. *)
  Definition after (v : list num) (m : option (list Z)) (s' : src) : Prop :=
    exists sc' d, s' = set_snr (Some v) (set_max_snr_harmonic m (set_curve (s_interpolate_sc s) sc' d s)).
  Lemma source_run which q : which_or_all which s = map q ys ->
    let insp := fun y => q y && negb (r_merged (g y)) in
    exists s' v m, get_snr_source x a n which s = (s', Ok v) /\ after v m s' /\
      v = map (fun y => if insp y then src_val x s t p (Fin tol) n (g y) else Fin 0) ys /\
      (m = Some (map (fun y => if insp y then src_msh x s t p (Fin tol) n (g y) else old_msh s (g y)) ys) \/
       m = s_max_snr_harmonic s /\ forall y, In y ys -> insp y = false).
  Proof.
    intros W insp. unfold get_snr_source. rewrite mbind_self, asked_fill. cbv zeta.
    destruct (ok_asked _ _ _ _ _ _ HC) as [p1 P1]. destruct (update_ok x (asked a s) s p1 good_s P1) as (sc1 & U1 & G1).
    unfold mbind at 1. rewrite U1. set (s1 := set_curve (s_interpolate_sc s) sc1 (params_of (asked a s)) s) in *.
    rewrite mbind_self. assert (C1 : collection s1 (map g ys)) by (apply collection_curve, (ok_rows _ _ _ _ _ _ HC)).
    assert (R1 : related s1) by (repeat split).
    assert (W1 : which_or_all which s1 = map q ys) by exact W. rewrite W1.
    assert (MT : time_resolved s1 (a_t_obs (asked a s)) t) by (apply time_after; [reflexivity|exact (ok_time _ _ _ _ _ _ HC)]).
    destruct (col_map g s1 ys C1) as (_ & _ & _ & _ & _ & M1). rewrite M1, map_map.
    rewrite (source_mask_map g s1 ys TriNone TriTrue _ t (Fin tol) C1) by (auto; discriminate). rewrite mbind_lift. cbn [circ_test stat_test andb].
    rewrite logical_and3_map, mbind_lift.
    rewrite (source_mask_map g s1 ys TriNone TriFalse _ t (Fin tol) C1) by (auto; discriminate). rewrite mbind_lift. cbn [circ_test stat_test andb].
    rewrite logical_and3_map, mbind_lift.
    assert (N : n_sources s1 = length ys) by (rewrite (n_sources_map _ _ C1); apply map_length). rewrite (repeat_g _ ys _ N).
    set (qs := fun y => stat_of s1 t (g y) && negb (r_merged (g y)) && q y). set (qe := fun y => negb (stat_of s1 t (g y)) && negb (r_merged (g y)) && q y).
    assert (Q : forall y, stat_of s1 t (g y) = stat_of s t (g y)) by reflexivity.
    (* the stationary sources *)
    set (v1 := fun y => if qs y then st_val x s t p (Fin tol) (g y) else Fin 0).
    set (h1 := fun y => if qs y then st_msh x s t p (Fin tol) (g y) else old_msh s (g y)).
    assert (S2 : exists s2 (g2 : Y -> row), (if any (map qs ys) then mbind (get_snr_stationary x (asked a s) (Some (map qs ys))) (fun v => ret (scatter (map qs ys) v (map (fun _ => Fin 0) ys)))
        else ret (map (fun _ => Fin 0) ys)) s1 = (s2, Ok (map v1 ys)) /\ good x s2 /\ collection s2 (map g2 ys) /\ (forall y, near (g y) (g2 y)) /\
        (s_params s2 = params_of (asked a s) \/ s_params s2 = params_of u) /\
        (exists sn sc' d m, s2 = set_snr sn (set_max_snr_harmonic m (set_curve (s_interpolate_sc s) sc' d s)) /\
        (m = Some (map h1 ys) /\ (forall y, In y ys -> old_msh s2 (g2 y) = h1 y) \/ m = s_max_snr_harmonic s /\ (forall y, In y ys -> qs y = false) /\ (forall y, old_msh s2 (g2 y) = old_msh s (g y))))).
    { destruct (any (map qs ys)) eqn:E.
      - unfold mbind at 1. rewrite (stationary_run (asked a s) (Some (map qs ys)) s1 g qs G1 R1 C1 (fun y => near_refl _) (used_after a s s1 eq_refl) eq_refl).
        unfold ret. match goal with |- context [(?a1, Ok (scatter _ _ _)) = _] => set (s2 := a1) end.
        assert (IM : forall y, qs y && negb (r_merged (g y)) = qs y) by (intros y; unfold qs; destruct (r_merged (g y)); rewrite ?andb_false_r, ?andb_true_r; reflexivity).
        exists s2, (fun y => with_snr (if qs y && negb (r_merged (g y)) then st_val x s t p (Fin tol) (g y) else old_snr s1 (g y))
                               (if qs y && negb (r_merged (g y)) then st_msh x s t p (Fin tol) (g y) else old_msh s1 (g y)) (g y)).
        split; [|split; [|split; [|split; [|split]]]].
        + rewrite scatter_map. f_equal. f_equal. apply map_ext. intros y. unfold v1. destruct (qs y) eqn:Eq; auto. unfold qs in Eq.
          destruct (r_merged (g y)); auto. now rewrite andb_false_r in Eq.
        + apply (U s1); auto.
        + unfold s2. apply (collection_after g), collection_curve, C1.
        + intros y. eexists _, _. reflexivity.
        + right. reflexivity.
        + unfold s2. eexists _, _, _, _. split; [reflexivity|]. left. split; [f_equal; apply map_ext; intros y; unfold h1; now rewrite IM|].
          intros y _. unfold h1. rewrite IM. reflexivity.
      - exists s1, g. assert (A := any_map qs ys E). split; [|split; [|split; [|split; [|split]]]]; auto using near_refl.
        + unfold ret. f_equal. f_equal. apply map_ext_in. intros y Hy. unfold v1. now rewrite (A y Hy).
        + exists (s_snr s), sc1, (params_of (asked a s)), (s_max_snr_harmonic s). split; [now destruct s|]. right. auto. }
    destruct S2 as (s2 & g2 & E2 & G2 & C2 & N2 & P2 & sn & sc' & d' & m & S2 & M2). unfold mbind at 1. rewrite E2. clear E2.
    assert (R2 : related s2) by (rewrite S2; repeat split).
    assert (UA : used (asked a s) s2 = u) by (destruct P2 as [P2|P2]; [now apply used_after|now apply used_from]).
    set (v2 := fun y => if qe y then ev_val x s t p (Fin tol) n (g y) else v1 y).
    assert (FIN : forall y, v2 y = if insp y then src_val x s t p (Fin tol) n (g y) else Fin 0).
    { intros y. unfold v2, v1, qs, qe, insp, src_val. rewrite !Q. destruct (stat_of s t (g y)), (r_merged (g y)), (q y); reflexivity. }
    destruct (any (map qe ys)) eqn:E.
    - unfold mbind at 1 2. rewrite (evolving_run (asked a s) (Some (map qe ys)) s2 g2 qe G2 R2 C2 N2 UA eq_refl).
      assert (IM : forall y, qe y && negb (r_merged (g y)) = qe y) by (intros y; unfold qe; destruct (r_merged (g y)); rewrite ?andb_false_r, ?andb_true_r; reflexivity).
      unfold ret, mbind, modify. rewrite scatter_map.
      match goal with |- context [set_max_snr_harmonic (Some ?l) _] => set (mm := l) end.
      eexists _, _, (Some mm). split; [reflexivity|]. split; [|split; [|left]].
      + rewrite S2. exists sc, (params_of u). reflexivity.
      + apply map_ext. intros y. rewrite <- FIN. unfold v2. destruct (qe y) eqn:Eq; auto. unfold qe in Eq. destruct (r_merged (g y)); auto. now rewrite andb_false_r in Eq.
      + f_equal. apply map_ext_in. intros y Hy. rewrite IM.
        assert (O : old_msh s2 (g2 y) = h1 y) by (destruct M2 as [[_ O]|(_ & O1 & O2)]; [auto|rewrite O2; unfold h1; now rewrite O1]).
        rewrite O. unfold h1, qs, qe, insp, src_msh. rewrite !Q. destruct (stat_of s t (g y)), (r_merged (g y)), (q y); reflexivity.
    - assert (A := any_map qe ys E). unfold mbind, ret, modify. exists (set_snr (Some (map v1 ys)) s2), (map v1 ys), m. split; [reflexivity|]. split; [|split].
      + rewrite S2. exists sc', d'. reflexivity.
      + apply map_ext_in. intros y Hy. rewrite <- FIN. unfold v2. now rewrite (A y Hy).
      + destruct M2 as [[-> _]|(-> & O & _)].
        * left. f_equal. apply map_ext_in. intros y Hy. pose proof (A y Hy) as Ay. revert Ay. unfold h1, qs, qe, insp, src_msh. rewrite !Q.
          destruct (stat_of s t (g y)), (r_merged (g y)), (q y); cbn; auto; discriminate.
        * right. split; auto. intros y Hy. pose proof (A y Hy) as Ay. pose proof (O y Hy) as Oy. revert Ay Oy. unfold qs, qe, insp.
          destruct (stat_of s1 t (g y)), (r_merged (g y)), (q y); cbn; auto.
  Qed.
End GetSnr.
