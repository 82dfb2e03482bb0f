(** UnitsEccRuns.v -- evol_ecc, evolve_f_orb_circ and determine_stationarity with quantities. *)
From Coq Require Import String Reals ZArith List Bool Lra Lia.
From Verif Require Import Num NumFacts Np NpFacts Utils UtilsFacts Strain Evol EvolFacts Units UnitsSpec UnitsFacts UnitsThms UnitsStrain UnitsEvol UnitsEvolSpec UnitsEvolFacts UnitsEvolThms UnitsEvolRuns.
Import ListNotations.
Open Scope list_scope.
Open Scope R_scope.
Open Scope res_scope.

Lemma isz_eq d u v x : unit_for d u -> d <> dimensionless -> isz d (u_size u) v x -> v = in_unit u x.
Proof.
  intros (P & D) N (I & S). pose proof (not_plain _ _ _ N I) as Q. destruct v as [|y w]; [discriminate|].
  destruct I as (_ & Dw & X). unfold dim_of in Dw. cbn [unit_of] in *. unfold si in X. cbn [mag unit_of] in X.
  assert (w = u) as -> by (destruct w, u; cbn in *; congruence).
  unfold in_unit. f_equal. rewrite <- X, scale_div by exact P. replace (u_size u / u_size u) with 1 by (field; lra).
  symmetry. apply scale_one.
Qed.
Lemma rows_eq d u l l' : unit_for d u -> d <> dimensionless -> Forall2 (Forall2 (isz d (u_size u))) l l' -> l = map (map (in_unit u)) l'.
Proof.
  intros U N H. induction H as [|r x l l' R H IH]; [reflexivity|]. cbn [map]. rewrite <- IH. f_equal.
  clear H IH. induction R as [|v y r x V R IH]; [reflexivity|]. cbn [map]. rewrite <- IH. f_equal. now apply (isz_eq d).
Qed.

Lemma meters_isz x : isz length_dim 1 (Qy x meter) x.
Proof.
  split; [|reflexivity]. split; [unfold proper; cbn; lra|]. split; [reflexivity|]. unfold si. cbn [mag unit_of meter u_size]. apply scale_one.
Qed.
Lemma a_ecc_rel ecc c0 :
  res_rel (Forall2 (Forall2 (isz length_dim AU)))
    (bzip2M (fun e c => get_a_from_ecc_q (Pl e) (Qy c meter)) ecc (newaxis c0)) (bzip2 get_a_from_ecc ecc (newaxis c0)).
Proof.
  unfold bzip2. eapply rel_bzip2M; [apply forall2_refl; intros; apply eq_forall2|apply forall2_refl; intros; apply eq_forall2|].
  intros e e' c c' <- <-. rewrite (a_from_ecc_si (Qy c meter) (Pl e) c e); [|apply is_pl|split; [reflexivity|apply meters_isz]].
  cbn. apply (isz_in length_dim au). auto with units.
Qed.

Theorem evol_ecc_si quad odeint sched ecc te n ts b m1 m2 a f vars n_proc am ex tb tm ut us ub u1 u2 ua uf utb um :
  unit_for time_dim ut -> unit_for time_dim us ->
  unit_for beta_dim ub -> unit_for mass_dim u1 -> unit_for mass_dim u2 -> unit_for length_dim ua -> unit_for frequency_dim uf ->
  unit_for time_dim utb -> unit_for time_dim um ->
  evol_ecc_q quad odeint sched ecc (t_evol_in ut te) n (timesteps_in us ts) (arg_in ub b) (arg_in u1 m1) (arg_in u2 m2)
    (arg_in ua a) (arg_in uf f) vars n_proc am ex (in_unit utb tb) (list_in um tm)
  = rmap (fun r => (dress (ecc_units vars) (fst r), timesteps_in us (snd r)))
      (evol_ecc quad odeint sched ecc te n ts (si_arg b) (si_arg m1) (si_arg m2) (si_arg a) (si_arg f) vars n_proc am ex tb tm).
Proof.
  intros UT US UB U1 U2 UA UF UTB UM. unfold evol_ecc_q, evol_ecc.
  rewrite !ensure_array_map. cbn [map]. set (single_q := existsb _ _). set (single_e := existsb _ _). set (single := existsb _ _).
  assert (SS : single_q || single_e = single).
  { unfold single_q, single_e, single. cbn [existsb]. rewrite (proj2 (arg_arrays _ _ m1 U1)), (proj2 (arg_arrays _ _ m2 U2)),
      (proj2 (arg_arrays _ _ b UB)), (proj2 (arg_arrays _ _ a UA)), (proj2 (arg_arrays _ _ f UF)).
    rewrite <- !orb_assoc. reflexivity. }
  rewrite SS. clearbody single. clear single_q single_e SS.
  rewrite (proj1 (arg_arrays _ _ m1 U1)), (proj1 (arg_arrays _ _ m2 U2)),
      (proj1 (arg_arrays _ _ b UB)), (proj1 (arg_arrays _ _ a UA)), (proj1 (arg_arrays _ _ f UF)).
  set (xb := arr_of (fst (ensure_array_one (si_arg b)))) in *.
  set (x1 := arr_of (fst (ensure_array_one (si_arg m1)))) in *.
  set (x2 := arr_of (fst (ensure_array_one (si_arg m2)))) in *.
  set (xa := arr_of (fst (ensure_array_one (si_arg a)))) in *.
  set (xf := arr_of (fst (ensure_array_one (si_arg f)))) in *.
  pose proof (check_rel (u_size ua) _ _ _ _ _ _ _ _ _ _ (opt_list_isv _ _ xb UB) (opt_list_isv _ _ x1 U1) (opt_list_isv _ _ x2 U2)
               (opt_list_isz _ _ xa UA) (opt_list_isv _ _ xf UF)) as R.
  destruct (check_arr_q _ _ _ _ _) as [q|e], (check_arr _ _ _ _ _) as [x|e']; cbn in R; try contradiction; [|cbn; congruence].
  destruct R as (B & A). cbn [rbind]. set (s := match xa with Some _ => u_size ua | None => AU end) in *.
  replace (match list_in u1 x1 with Some _ => match list_in u2 x2 with Some _ => true | None => false end | None => false end)
    with (match x1 with Some _ => match x2 with Some _ => true | None => false end | None => false end)
    by (destruct x1, x2; reflexivity).
  destruct (any_in ["f_orb"%string; "f_GW"%string] vars && _) eqn:EM; [reflexivity|].
  destruct (arr_of (fst (ensure_array_one ecc))) as [xe|]; [|reflexivity].
  assert (RC : res_rel (Forall2 (isv length_dim)) (bzipM (fun a e => c_0_q a (Pl e)) (snd q) xe) (bzip c_0 (snd x) xe)).
  { unfold bzip. eapply rel_bzipM; [eapply all_isv; exact A|apply eq_forall2|]. intros v y e e' I <-. rewrite (c_0_isv _ _ _ I).
    cbn. apply isv_in. auto with units. }
  destruct (bzipM _ (snd q) xe) as [cq|e], (bzip c_0 (snd x) xe) as [cx|e']; cbn in RC; try contradiction; [|cbn; congruence].
  cbn [rbind].
  pose proof (timesteps_rel quad s (snd q) (snd x) (fst q) (fst x) xe te n ts ut us A B UT US) as R.
  destruct (create_timesteps_array_q _ _ _ _ _ _ _) as [t0|e], (create_timesteps_array _ _ _ _ _ _ _) as [x0|e']; cbn in R;
    try contradiction; [|cbn; congruence].
  cbn [rbind].
  set (st := steps_size us ts) in *.
  assert (RT : res_rel (Forall2 (Forall2 (isz time_dim st)))
     (if am then
        tm0 <- match list_in um tm with
               | Some tm0 => Ok tm0
               | None => tm0 <- get_t_merge_ecc_q quad xe (Some (snd q)) None (Some (fst q)) None None small_e_tol_default large_e_tol_default ex ;;
                         mapM (fun v => to v gigayear) tm0
               end ;; avoid_merger_clamp_q tm0 (in_unit utb tb) t0
      else Ok t0)
     (if am then
        tm0 <- match tm with
               | Some tm0 => Ok tm0
               | None => get_t_merge_ecc quad xe (Some (snd x)) None (Some (fst x)) None None small_e_tol_default large_e_tol_default ex
               end ;; avoid_merger_clamp tm0 tb x0
      else Ok x0)).
  { destruct am; [|exact R]. apply (rel_bind (Forall2 (isv time_dim))).
    - destruct tm as [l|]; cbn [list_in option_map]; [cbn; now apply list_isv|].
      rewrite (t_merge_ecc_rel quad s xe (Some (fst q)) None None (Some (snd q)) None (Some (fst x)) None None (Some (snd x)) None);
        try exact Logic.I; try assumption.
      destruct (get_t_merge_ecc _ _ _ _ _ _ _ _ _ _) as [l|e]; [|reflexivity]. cbn [rmap rbind].
      rewrite (mapM_to (fun v => to v gigayear) (in_unit gigayear) (isv time_dim) _ l).
      + cbn. apply list_isv. auto with units.
      + apply list_isv. auto with units.
      + intros v y I. apply (to_in time_dim); auto with units.
    - intros tq tx T. apply clamp_rel; [exact T|now apply isv_in|exact R]. }
  match goal with |- rbind ?m _ = rmap _ (rbind ?m' _) => change (res_rel (Forall2 (Forall2 (isz time_dim st))) m m') in RT; destruct m as [tq|e], m' as [tx|e'] end;
    cbn in RT; try contradiction; [|cbn; congruence].
  cbn [rbind].
  rewrite (mapM_of (fun v => to_value v meter) (isv length_dim) cq cx RC);
    [|intros v y I; apply (to_value_si length_dim); auto with units].
  cbn [rbind].
  rewrite (mapM_of (fun v => to_value v m4_per_s) (isv beta_dim) (fst q) (fst x) B);
    [|intros v y I; apply (to_value_si beta_dim); auto with units; apply m4s_one].
  cbn [rbind].
  rewrite (mapM_rows (fun v => to_value v second) (isv time_dim) tq tx (rows_weaken _ _ _ _ RT));
    [|intros v y I; apply (to_value_si time_dim); auto with units].
  cbn [rbind].
  match goal with |- rbind ?m _ = rmap _ (rbind ?m' _) => change m' with m; destruct m as [ev|e]; [|reflexivity] end.
  cbn [rbind]. set (ecc_evol := map (map nan_to_num) ev).
  assert (RA : res_rel (Forall2 (Forall2 (isz length_dim AU)))
     (if any_in ["a"%string; "f_orb"%string; "f_GW"%string] vars then bzip2M (fun e c => get_a_from_ecc_q (Pl e) (Qy c meter)) ecc_evol (newaxis cx) else Ok [])
     (if any_in ["a"%string; "f_orb"%string; "f_GW"%string] vars then bzip2 get_a_from_ecc ecc_evol (newaxis cx) else Ok [])).
  { destruct (any_in ["a"%string; "f_orb"%string; "f_GW"%string] vars); [apply a_ecc_rel|constructor]. }
  match goal with |- rbind ?m _ = rmap _ (rbind ?m' _) => change (res_rel (Forall2 (Forall2 (isz length_dim AU))) m m') in RA; destruct m as [aq|e], m' as [ax|e'] end;
    cbn in RA; try contradiction; [|cbn; congruence].
  cbn [rbind].
  assert (RF : res_rel (Forall2 (Forall2 (isv frequency_dim)))
      (if any_in ["f_orb"%string; "f_GW"%string] vars
       then match list_in u1 x1 with Some y1 => match list_in u2 x2 with Some y2 => freq_rows_q y1 y2 aq | None => Err ValueError end | None => Err ValueError end
       else Ok [])
      (if any_in ["f_orb"%string; "f_GW"%string] vars
       then match x1 with Some y1 => match x2 with Some y2 => freq_rows y1 y2 ax | None => Err ValueError end | None => Err ValueError end
       else Ok [])).
  { destruct (any_in ["f_orb"%string; "f_GW"%string] vars); [|constructor]. destruct x1 as [y1|]; cbn [list_in option_map]; [|reflexivity].
    destruct x2 as [y2|]; cbn [list_in option_map]; [|reflexivity].
    apply freq_rows_rel with AU; [now apply list_isv|now apply list_isv|exact RA|now left]. }
  match goal with |- rbind ?m _ = rmap _ (rbind ?m' _) => change (res_rel (Forall2 (Forall2 (isv frequency_dim))) m m') in RF; destruct m as [fq|e], m' as [fx|e'] end;
    cbn in RF; try contradiction; [|cbn; congruence].
  cbn [rbind].
  apply rows_weaken in RA.
  assert (R' : Forall2 (Forall2 (isv time_dim)) (map (map (fun t => Qy t second)) tx) tx).
  { clear. induction tx as [|r tx IH]; constructor; [|exact IH]. clear. induction r; constructor; auto using seconds_isv. }
  match goal with |- rbind (mapM ?gq vars) _ = rmap _ (rbind (pack (flat_map ?g vars)) _) =>
    destruct (collect_rel gq g (fun v => if String.eqb v "ecc" then [None] else var_unit v) vars) as (ps & E & C) end.
  { intros v. unfold var_unit. destruct (String.eqb_spec v "timesteps") as [->|_].
    - rewrite (convert_rel time_dim year _ _ unit_year time_not_none R'). cbn [rbind]. rewrite shape_dress. split; reflexivity.
    - destruct (String.eqb v "ecc").
      + rewrite shape_plain. split; reflexivity.
      + destruct (String.eqb v "a").
        * rewrite (convert_rel length_dim au _ _ unit_au length_not_none RA). cbn [rbind]. rewrite shape_dress. split; reflexivity.
        * destruct (String.eqb v "f_orb").
          -- rewrite (convert_rel frequency_dim hertz _ _ unit_hertz frequency_not_none RF). cbn [rbind]. rewrite shape_dress. split; reflexivity.
          -- destruct (String.eqb v "f_GW"); [|split; reflexivity].
             rewrite (convert_rel frequency_dim hertz _ _ unit_hertz frequency_not_none RF). cbn [rbind].
             replace (map (map (vmul (lit 2))) (map (map (in_unit hertz)) fx)) with (map (map (in_unit hertz)) (map (map (nmul (Fin 2))) fx)).
             ++ rewrite shape_dress. split; reflexivity.
             ++ rewrite !map_map. apply map_ext. intros r. rewrite !map_map. apply map_ext. intros y. symmetry. apply twice_hertz. }
  rewrite E. cbn [rbind]. rewrite C. rewrite pack_rel.
  - change (flat_map (fun v => if (v =? "ecc")%string then [None] else var_unit v) vars) with (ecc_units vars).
    destruct (pack _) as [o|e]; cbn [rmap rbind]; [|reflexivity]. cbn [fst snd]. f_equal. f_equal.
    destruct ts as [|l|l]; try reflexivity. cbn [timesteps_in]. f_equal. apply (rows_eq time_dim); [exact US|auto with units|exact RT].
  - apply flat_lengths. intros v. unfold var_unit. destruct (String.eqb_spec v "timesteps") as [->|_]; [reflexivity|].
    destruct (String.eqb v "ecc"); [reflexivity|].
    destruct (String.eqb v "a"), (String.eqb v "f_orb"), (String.eqb v "f_GW"); reflexivity.
Qed.

(** *** Approximate circular frequency evolution *)
Definition inner_dim : dim := dpow frequency_dim (-8/3).
Lemma inner_not_none : inner_dim <> dimensionless.
Proof. intros E. injection E. lra. Qed.
Lemma inner_isv f m t e x y z : isv frequency_dim f x -> isv mass_dim m y -> isv time_dim t z ->
  exists w, inner_part_q f m t e = Ok w /\ isv inner_dim w (inner_part x y z e).
Proof.
  intros If Im It. unfold inner_part_q. destruct (peters_f_si (Pl e) e (is_pl e)) as (p & -> & Ip). cbn [rbind].
  assert (I1 : is_ inner_dim (x ** (-8/3)) (vpow f (-8/3))) by (apply is_pow; exact If).
  match goal with |- context [vsub _ ?v] => assert (I2 : is_ inner_dim
    (Fin (Rpower 2 (32/3)) * Fin PI ** (8/3) * z / (Fin 5 * Fin clight ^^ 5) * (Fin Ggrav * y) ** (5/3) * peters_f e) v) end.
  { unfold isv in *.
    replace inner_dim with (dmul (dmul (ddiv (dmul (dmul dimensionless dimensionless) time_dim)
       (dmul dimensionless (dpow (mkDim 1 0 (-1) 0 0 0 0 0) (IZR 5)))) (dpow (dmul (mkDim 3 (-1) (-2) 0 0 0 0 0) mass_dim) (5/3))) dimensionless)
      by (unfold inner_dim; dim_eq).
    mean. }
  destruct (is_sub _ _ _ _ _ I1 I2) as (w & E & I & _). exists w. split; [exact E|exact I].
Qed.
Lemma ge0_isv d v x : isv d v x -> d <> dimensionless -> vge v (lit 0) = Ok (nge x (Fin 0)).
Proof.
  intros I N. pose proof (not_plain _ _ _ N I) as Q. destruct v as [|y u]; [discriminate|]. destruct I as (P & D & <-).
  unfold vge, lit. cbn [vcompare]. unfold dim_of in D. cbn [unit_of] in D. rewrite D, dim_eqb_neq by exact N.
  cbn [arbitrary_unit]. unfold Reqb. destruct (Req_EM_T 0 0); [|lra]. f_equal. unfold si. cbn [mag unit_of].
  replace (Fin 0) with (Fin 0 * Fin (u_size u))%num at 2 by (cbn; f_equal; ring). symmetry. apply ge_scale. exact P.
Qed.

Lemma evolve_f_rel f m t ecc mf xf xm xt um xmf : Forall2 (isv frequency_dim) f xf -> Forall2 (isv mass_dim) m xm ->
  Forall2 (isv time_dim) t xt -> unit_for frequency_dim um -> mf = in_unit um xmf ->
  res_rel (Forall2 (isz frequency_dim (u_size um))) (evolve_f_orb_circ_q f m t ecc mf) (evolve_f_orb_circ xf xm xt ecc xmf).
Proof.
  intros HF HM HT U ->. unfold evolve_f_orb_circ_q, evolve_f_orb_circ.
  apply (rel_bind (Forall2 (fun p y => isv time_dim (fst p) (fst y) /\ snd p = snd y))).
  { eapply rel_bzip; [exact HT|apply eq_forall2|]. intros. split; assumption. }
  intros te te' HTE.
  apply (rel_bind (Forall2 (fun p y => isv mass_dim (fst p) (fst y) /\ isv time_dim (fst (snd p)) (fst (snd y)) /\ snd (snd p) = snd (snd y)))).
  { eapply rel_bzip; [exact HM|exact HTE|]. intros ? ? ? ? ? (? & ?). cbn. auto. }
  intros mt mt' HMT.
  apply (rel_bind (Forall2 (isv inner_dim))).
  { unfold bzip. eapply rel_bzipM; [exact HF|exact HMT|]. intros v y p p' I (I1 & I2 & ->).
    destruct (inner_isv _ _ _ (snd (snd p')) _ _ _ I I1 I2) as (w & -> & W). exact W. }
  intros inner inner' HI.
  rewrite (mapM_to (fun x => vge x (lit 0)) (fun x => nge x (Fin 0)) (isv inner_dim) inner inner' HI)
    by (intros; eapply ge0_isv; [eassumption|exact inner_not_none]).
  cbn [rbind]. rewrite (rel_length _ _ _ HI), (rel_length _ _ _ HF).
  destruct (negb _); [reflexivity|].
  set (ins := map _ inner').
  destruct (rel_mapM_total (isv inner_dim) (isz frequency_dim (u_size um)) (fun x => store (in_unit um xmf) (vpow x (-3/8)))
              (fun x => x ** (-3/8))%num _ _ (rel_select _ ins _ _ HI)) as (vs & -> & V).
  { intros v y I. assert (J : isv frequency_dim (vpow v (-3/8)) (y ** (-3/8))).
    { unfold isv. replace frequency_dim with (dpow inner_dim (-3/8)) by (unfold inner_dim; dim_eq). now apply is_pow. }
    destruct (store_isv frequency_dim (in_unit um xmf) _ _ xmf (isv_in _ _ _ U) J frequency_not_none) as (w & E & Z).
    exists w. split; [exact E|exact Z]. }
  cbn [rbind res_rel]. apply rel_scatter; [|exact V]. apply rel_repeat. now apply isz_in.
Qed.

Lemma list_eq d u l l' : unit_for d u -> d <> dimensionless -> Forall2 (isz d (u_size u)) l l' -> l = map (in_unit u) l'.
Proof. intros U N H. induction H as [|v x l l' V H IH]; [reflexivity|]. cbn [map]. rewrite <- IH. f_equal. now apply (isz_eq d). Qed.

Theorem evolve_f_si f m t ecc mf uf um ut umf :
  unit_for frequency_dim uf -> unit_for mass_dim um -> unit_for time_dim ut -> unit_for frequency_dim umf ->
  evolve_f_orb_circ_q (map (in_unit uf) f) (map (in_unit um) m) (map (in_unit ut) t) ecc (in_unit umf mf)
  = rmap (map (in_unit umf)) (evolve_f_orb_circ f m t ecc mf).
Proof.
  intros UF UM UT UMF.
  pose proof (evolve_f_rel _ _ _ ecc _ _ _ _ umf mf (list_isv _ _ f UF) (list_isv _ _ m UM) (list_isv _ _ t UT) UMF eq_refl) as R.
  destruct (evolve_f_orb_circ_q _ _ _ _ _) as [l|e], (evolve_f_orb_circ _ _ _ _ _) as [l'|e']; cbn in R |- *; try contradiction;
    [|congruence]. f_equal. now apply (list_eq frequency_dim); [|auto with units|].
Qed.

Lemma le_plain v x tol : isv dimensionless v x -> is_quantity v = true -> vle v (Pl tol) = Ok (nle x tol).
Proof.
  intros (P & D & <-) Q. destruct v as [|y u]; [discriminate|]. unfold dim_of in D. cbn [unit_of] in D. unfold vle. cbn [vcompare].
  rewrite D, dim_eqb_refl. reflexivity.
Qed.

Theorem stationarity_si f t ecc m1 m2 mc tol uf ut u1 u2 uc :
  unit_for frequency_dim uf -> unit_for time_dim ut -> unit_for mass_dim u1 -> unit_for mass_dim u2 -> unit_for mass_dim uc ->
  determine_stationarity_q (map (in_unit uf) f) (map (in_unit ut) t) ecc (list_in u1 m1) (list_in u2 m2) (list_in uc mc) tol
  = determine_stationarity f t ecc m1 m2 mc tol.
Proof.
  intros UF UT U1 U2 UC. unfold determine_stationarity_q, determine_stationarity.
  assert (RM : res_rel (Forall2 (isv mass_dim))
    (match list_in uc mc with Some m => Ok m | None =>
       match list_in u1 m1 with Some x => match list_in u2 m2 with Some y => bzipM chirp_mass_q x y | None => Err ValueError end | None => Err ValueError end end)
    (match mc with Some m => Ok m | None =>
       match m1 with Some x => match m2 with Some y => bzip chirp_mass x y | None => Err ValueError end | None => Err ValueError end end)).
  { destruct mc as [m|]; cbn [list_in option_map]; [cbn; now apply list_isv|].
    destruct m1 as [x|]; cbn [list_in option_map]; [|reflexivity]. destruct m2 as [y|]; cbn [list_in option_map]; [|reflexivity].
    unfold bzip. eapply rel_bzipM; [apply (list_isv mass_dim u1); exact U1|apply (list_isv mass_dim u2); exact U2|].
    intros v p w r I J. rewrite (chirp_mass_si v w p r).
    - cbn. apply isv_in. auto with units.
    - split; [eapply not_plain; [|exact I]; auto with units|exact I].
    - split; [eapply not_plain; [|exact J]; auto with units|exact J]. }
  match goal with |- rbind ?m _ = rbind ?m' _ => change (res_rel (Forall2 (isv mass_dim)) m m') in RM; destruct m as [mq|e], m' as [mx|e'] end;
    cbn in RM; try contradiction; [|cbn; congruence].
  cbn [rbind].
  assert (EM : Qy (Fin 1000000000) hertz = in_unit hertz merge_f_default).
  { unfold in_unit, merge_f_default. f_equal. symmetry. apply over_one. }
  pose proof (evolve_f_rel _ mq _ ecc _ _ mx _ hertz merge_f_default (list_isv _ _ f UF) RM (list_isv _ _ t UT) unit_hertz EM) as R.
  destruct (evolve_f_orb_circ_q _ _ _ _ _) as [l|e], (evolve_f_orb_circ _ _ _ _ _) as [l'|e']; cbn in R; try contradiction;
    [|cbn; congruence].
  cbn [rbind].
  assert (K : res_rel (Forall2 eq)
     (bzipM (fun ff fi => d <- vsub ff fi ;; vle (vdiv d fi) (Pl tol)) l (map (in_unit uf) f))
     (bzip (fun ff fi => nle ((ff - fi) / fi) tol) l' f)).
  { unfold bzip. eapply rel_bzipM; [eapply all_isv; exact R|apply (list_isv frequency_dim uf); exact UF|]. intros v x w y I J.
    destruct (is_sub _ _ _ _ _ I J) as (d & E & K & Q). unfold vsub. rewrite E. cbn [rbind].
    pose proof (not_plain _ _ _ frequency_not_none J) as QJ.
    rewrite (le_plain _ ((x - y) / y) tol); [reflexivity| |].
    - unfold isv. replace dimensionless with (ddiv frequency_dim frequency_dim) by dim_eq. now apply is_div.
    - rewrite quantity_div, QJ. apply orb_true_r. }
  destruct (bzipM _ l _) as [a|e], (bzip _ l' f) as [b|e']; cbn in K; try contradiction; [|congruence].
  f_equal. clear -K. induction K; congruence.
Qed.
