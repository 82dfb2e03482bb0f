(** EvolveFacts.v -- merger times (C67) and evolution (C62-C64, C83) of a collection, row by row. *)
From Coq Require Import String Reals ZArith List Bool Lra Lia.
From Verif Require Import Num NumFacts Np NpFacts Utils Spec UtilsFacts Evol EvolSpec EvolFacts MergeFacts ArrEvolFacts EccEvolFacts Strain StrainSpec
  Snr SnrSpec SnrFacts Harmonics ScParams Source Index SourceSpec MethodSpec History CurveSpec CurveFacts SourceFacts MethodFacts MethodThms SourceThms SourceThms2 EvolveSpec.
Import ListNotations.
Open Scope R_scope.

(** ** C67 *)
Definition tm_val (x : ext) (exact : bool) (r : row) : num :=
  if r_merged r then Fin 0
  else get_t_merge_ecc_sc_core (x_quad x) (r_e r) (get_a_from_f_orb (r_f r) (r_m1 r) (r_m2 r)) (beta (r_m1 r) (r_m2 r)) small_e_tol_default large_e_tol_default exact.
Lemma tm_val_spec x exact r : merger_time x exact r (tm_val x exact r).
Proof. unfold merger_time, tm_val. destruct (r_merged r); reflexivity. Qed.
Lemma merger_map {Y} (g : Y -> row) x (save : bool) which exact s ys q : collection s (map g ys) -> bound (map g ys) ->
  (if save then np_repeat true (n_sources s) else which_or_all which s) = map q ys ->
  get_merger_time x save which exact s =
    (if save then set_t_merge (Some (map (fun y => if q y then tm_val x exact (g y) else Fin 0) ys)) s else s,
     Ok (map (fun y => tm_val x exact (g y)) (filter q ys))).
Proof.
  intros C B W. destruct (col_map g s ys C) as (C1 & C2 & C3 & C4 & C5 & C6). unfold get_merger_time. rewrite mbind_self. cbv zeta. rewrite W, C6, map_map, logical_and_map.
  rewrite mbind_lift. set (p := fun y => q y && negb (r_merged (g y))). rewrite C5, take_mask_map, mbind_lift. rewrite C1, C2, C4, !select_map.
  assert (E : get_t_merge_ecc (x_quad x) (map (fun y => r_e (g y)) (filter p ys)) None (Some (map (fun y => r_f (g y)) (filter p ys))) None
                (Some (map (fun y => r_m1 (g y)) (filter p ys))) (Some (map (fun y => r_m2 (g y)) (filter p ys))) small_e_tol_default large_e_tol_default exact
     = Ok (map (fun y => tm_val x exact (g y)) (filter p ys))).
  { unfold get_t_merge_ecc, check_arr, check_mass_freq_input, beta_arr. rewrite bzip_map, get_a_arr_map. cbn [rbind fst snd].
    unfold small_e_tol_default, large_e_tol_default. rewrite merge_core_map; [|lra|].
    - f_equal. apply map_ext_in. intros y Hy. apply filter_In in Hy. destruct Hy as [_ Hy]. unfold p in Hy. apply andb_true_iff in Hy. destruct Hy as [_ Hy].
      apply negb_true_iff in Hy. unfold tm_val. now rewrite Hy.
    - intros y Hy. apply filter_In in Hy. destruct Hy as [Hy P]. unfold p in P. apply andb_true_iff in P. destruct P as [_ P]. apply negb_true_iff in P.
      apply B; auto. now apply in_map. }
  rewrite E, mbind_lift. rewrite map_length, np_repeat_map, scatter_map.
  assert (X : map (fun y => if p y then tm_val x exact (g y) else Fin 0) ys = map (fun y => if q y then tm_val x exact (g y) else Fin 0) ys).
  { apply map_ext. intros y. unfold p. destruct (q y); auto. cbn [andb]. unfold tm_val. destruct (r_merged (g y)); auto. }
  rewrite X. assert (T : take_mask (map q ys) (map (fun y => if q y then tm_val x exact (g y) else Fin 0) ys) = Ok (map (fun y => tm_val x exact (g y)) (filter q ys))).
  { rewrite take_mask_map. f_equal. apply map_ext_in. intros y Hy. apply filter_In in Hy. now destruct Hy as [_ ->]. }
  unfold mbind, lift, modify, ret. destruct save; now rewrite T.
Qed.
Lemma merger_time_thm x s xs exact which : collection s xs -> bound xs -> fits which (length xs) ->
  exists v, get_merger_time x false which exact s = (s, Ok v) /\ Forall2 (merger_time x exact) (chosen which xs) v.
Proof.
  intros C B F. destruct (mask_rows which s xs C F) as (ys & Hys & W & CH & _). subst xs.
  rewrite (merger_map fst x false which exact s ys snd C B W). eexists. split; [reflexivity|].
  rewrite <- CH, <- (map_map fst). apply Forall2_map_l. intros r _. apply tm_val_spec.
Qed.
Lemma merger_time_saved_thm x s xs exact which : collection s xs -> bound xs ->
  exists v, get_merger_time x true which exact s = (set_t_merge (Some v) s, Ok v) /\ Forall2 (merger_time x exact) xs v.
Proof.
  intros C B. assert (C' : collection s (map (fun r => r) xs)) by now rewrite map_id.
  assert (W : np_repeat true (n_sources s) = map (fun _ => true) xs) by (rewrite (n_sources_map _ _ C); apply np_repeat_map).
  rewrite (merger_map (fun r => r) x true which exact s xs (fun _ => true) C'); [|now rewrite map_id|exact W].
  rewrite filter_true. eexists. split; [reflexivity|]. apply Forall2_map_l. intros r _. apply tm_val_spec.
Qed.

(** ** Evolution *)
Lemma last_linspace T : last (linspace0 (Fin T) 2) NaN = Fin T /\ linspace0 (Fin T) 2 = [Fin 0; Fin T].
Proof.
  assert (E : linspace0 (Fin T) 2 = [Fin 0; Fin T]).
  { pose proof (linspace0_length (Fin T) 2) as L. pose proof (linspace0_first T 2 ltac:(lia)) as A. pose proof (linspace0_last T 2 ltac:(lia)) as B.
    destruct (linspace0 (Fin T) 2) as [|u [|v [|w l]]]; try discriminate L. cbn in A, B. congruence. }
  rewrite E. auto.
Qed.
Definition sep (r : row) : num := get_a_from_f_orb (r_f r) (r_m1 r) (r_m2 r).
Definition bet (r : row) : num := beta (r_m1 r) (r_m2 r).
Definition circ_f (r : row) (t : num) : num := freq_of_a (r_m1 r) (r_m2 r) (circ_a_elem (sep r) (bet r) t).
Definition ecc_e (x : ext) (r : row) (T : R) : list num := ecc_row (x_odeint x) (r_e r) (sep r) (bet r) [Fin 0; Fin T].
Definition ecc_f (x : ext) (r : row) (T : R) : list num := freq_row (x_odeint x) (r_m1 r) (r_m2 r) (r_e r) (sep r) (bet r) [Fin 0; Fin T].
Definition is_circ (r : row) : bool := neqb (r_e r) (Fin 0).
Definition new_e (x : ext) (r : row) (T tm : R) : num :=
  if Rle_dec tm T then Fin 0 else if is_circ r then Fin 0 else last (ecc_e x r T) NaN.
Definition new_f (x : ext) (r : row) (T tm : R) : num :=
  if Rle_dec tm T then Fin 100 else if is_circ r then circ_f r (Fin T) else last (ecc_f x r T) NaN.
Definition new_m (T tm : R) : bool := if Rle_dec tm T then true else false.
Lemma check_f_map {Y} (m1 m2 f : Y -> num) ys :
  check_arr None (Some (map m1 ys)) (Some (map m2 ys)) None (Some (map f ys)) = Ok (map (fun y => beta (m1 y) (m2 y)) ys, map (fun y => get_a_from_f_orb (f y) (m1 y) (m2 y)) ys).
Proof. unfold check_arr, check_mass_freq_input, beta_arr. rewrite bzip_map, get_a_arr_map. reflexivity. Qed.
(** Time steps of the selected sources. *)
Definition steps_for {Y} (T : Y -> R) (ys : list Y) (te : tevol) : Prop :=
  forall quad (a b e : Y -> num), create_timesteps_array quad (map a ys) (map b ys) (map e ys) te 2 SNone = Ok (map (fun y => [Fin 0; Fin (T y)]) ys).
Lemma circ_arr {Y} (g : Y -> row) x (T : Y -> R) ys te : steps_for T ys te ->
  evol_circ (x_quad x) te 2 SNone PNone (PQArr (map (fun y => r_m1 (g y)) ys) tt) (PQArr (map (fun y => r_m2 (g y)) ys) tt) PNone (PQArr (map (fun y => r_f (g y)) ys) tt) ["f_orb"%string]
  = Ok (Single (E2 (map (fun y => [circ_f (g y) (Fin 0); circ_f (g y) (Fin (T y))]) ys))).
Proof.
  intros H. erewrite (evol_circ_eval (x_quad x) te 2 SNone _ _ _ _ _ _ _ _ _ _ false ["f_orb"%string] Y ys (fun y => bet (g y)) (fun y => sep (g y)) (fun y => r_m1 (g y)) (fun y => r_m2 (g y))
     (fun y => [Fin 0; Fin (T y)])); [reflexivity|reflexivity|cbn [arr_of]; apply check_f_map|reflexivity|reflexivity|rewrite map_map; apply H].
Qed.
Lemma circ_one x r T :
  evol_circ (x_quad x) (TScalar (Fin T)) 2 SNone PNone (PQScalar (r_m1 r) tt) (PQScalar (r_m2 r) tt) PNone (PQScalar (r_f r) tt) ["f_orb"%string]
  = Ok (Single (E1 [circ_f r (Fin 0); circ_f r (Fin T)])).
Proof.
  erewrite (evol_circ_eval (x_quad x) _ 2 SNone _ _ _ _ _ _ _ _ _ _ true ["f_orb"%string] unit [tt] (fun _ => bet r) (fun _ => sep r) (fun _ => r_m1 r) (fun _ => r_m2 r)
     (fun _ => [Fin 0; Fin T])); [reflexivity|reflexivity|reflexivity|reflexivity|reflexivity|].
  unfold create_timesteps_array. cbn [rbind map length np_repeat repeat]. now rewrite (proj2 (last_linspace T)).
Qed.
Lemma ecc_arr {Y} (g : Y -> row) x (T : Y -> R) sched ys te tb : steps_for T ys te ->
  evol_ecc (x_quad x) (x_odeint x) sched (PArr (map (fun y => r_e (g y)) ys)) te 2 SNone PNone (PQArr (map (fun y => r_m1 (g y)) ys) tt) (PQArr (map (fun y => r_m2 (g y)) ys) tt)
     PNone (PQArr (map (fun y => r_f (g y)) ys) tt) ["ecc"%string; "f_orb"%string] 1 false false tb None
  = Ok (Many [E2 (map (fun y => ecc_e x (g y) (T y)) ys); E2 (map (fun y => ecc_f x (g y) (T y)) ys)], SNone).
Proof.
  intros H. erewrite (evol_ecc_eval (x_quad x) (x_odeint x) sched 1 te 2 SNone _ _ _ _ _ _ _ _ _ _ _ _ false ["ecc"%string; "f_orb"%string] false false tb None
     Y ys (fun y => r_e (g y)) (fun y => bet (g y)) (fun y => sep (g y)) (Some (fun y => r_m1 (g y))) (Some (fun y => r_m2 (g y))) _ (fun y => [Fin 0; Fin (T y)]));
   [reflexivity|reflexivity|cbn [arr_of]; apply check_f_map|reflexivity|reflexivity|reflexivity|apply H|reflexivity|lia].
Qed.
Lemma ecc_one x r T tb :
  evol_ecc (x_quad x) (x_odeint x) (x_sched x 1) (POther (r_e r)) (TScalar (Fin T)) 2 SNone PNone (PQScalar (r_m1 r) tt) (PQScalar (r_m2 r) tt)
     PNone (PQScalar (r_f r) tt) ["ecc"%string; "f_orb"%string] 1 false false tb None
  = Ok (Many [E1 (ecc_e x r T); E1 (ecc_f x r T)], SNone).
Proof.
  erewrite (evol_ecc_eval (x_quad x) (x_odeint x) (x_sched x 1) 1 (TScalar (Fin T)) 2 SNone _ _ _ _ _ _ _ _ _ _ _ _ true ["ecc"%string; "f_orb"%string] false false tb None
     unit [tt] (fun _ => r_e r) (fun _ => bet r) (fun _ => sep r) (Some (fun _ => r_m1 r)) (Some (fun _ => r_m2 r)) _ (fun _ => [Fin 0; Fin T]));
   [cbn; rewrite !app_nil_r; reflexivity|reflexivity|reflexivity|reflexivity|reflexivity|reflexivity| |reflexivity|lia].
  unfold create_timesteps_array. cbn [rbind map length np_repeat repeat]. now rewrite (proj2 (last_linspace T)).
Qed.
Lemma ecc_len x r T : odeint_shape (x_odeint x) -> exists a b, ecc_e x r T = [a; b].
Proof.
  intros H. unfold ecc_e, ecc_row. specialize (H (de_dt (bet r) (c_0 (sep r) (r_e r))) (r_e r) [Fin 0; Fin T]).
  destruct (x_odeint x _ _ _) as [|a [|b [|c l]]]; try discriminate H. cbn. eauto.
Qed.
Lemma neqb_zero v : neqb v (Fin 0) = true <-> v = Fin 0.
Proof.
  destruct v; cbn; split; intros H; try discriminate H; try congruence.
  - apply neqb_fin in H. congruence.
  - injection H as ->. now apply neqb_t.
Qed.
Lemma new_spec x r T tm : odeint_shape (x_odeint x) -> evolves_to x T tm r (new_e x r T tm) (new_f x r T tm) (new_m T tm).
Proof.
  intros H. unfold new_e, new_f, new_m. destruct (Rle_dec tm T) as [L|L]; [now constructor|]. unfold is_circ. destruct (neqb (r_e r) (Fin 0)) eqn:E.
  - apply neqb_zero in E. eapply stays_circular; [lra|auto|apply circ_one].
  - destruct (ecc_len x r T H) as (e0 & e & EL).
    assert (EF : ecc_f x r T = map (freq_of_a (r_m1 r) (r_m2 r)) (map (fun y => get_a_from_ecc y (c_0 (sep r) (r_e r))) [e0; e])) by (unfold ecc_f, freq_row, sep_row; fold (ecc_e x r T); now rewrite EL).
    rewrite EL, EF. cbn [map last]. eapply (stays_eccentric x T tm r e0 e _ _ (years 1e6)); [lra| |].
    + intros K. apply neqb_zero in K. congruence.
    + rewrite ecc_one, EL, EF. reflexivity.
Qed.

(** A source after an evolution of [T] seconds with time to merger [tm]. *)
Definition next_row (x : ext) (r : row) (T tm : R) : row :=
  mkRow (r_m1 r) (r_m2 r) (r_d r) (new_f x r T tm) (new_e x r T tm) (r_sky r) (r_w r) (Fin (Rmax 0 (tm - T))) (r_snr r) (r_msh r) (new_m T tm).
Lemma new_m_nge T tm : nge (Fin T) (Fin tm) = new_m T tm.
Proof. unfold nge, new_m. destruct (Rle_dec tm T); [now apply nle_t|apply nle_f; lra]. Qed.
Lemma steps_scalar {Y} (T : Y -> R) ys t : (forall y, In y ys -> t = Fin (T y)) -> steps_for T ys (TScalar t).
Proof.
  intros H quad a b e. unfold create_timesteps_array. cbn [rbind]. rewrite map_length, np_repeat_map, map_map. f_equal. apply map_ext_in.
  intros y Hy. rewrite (H y Hy). apply last_linspace.
Qed.
Lemma steps_array {Y} (T : Y -> R) ys : steps_for T ys (TArr (map (fun y => Fin (T y)) ys)).
Proof. intros quad a b e. unfold create_timesteps_array. cbn [rbind]. rewrite map_map. f_equal. apply map_ext. intros y. apply last_linspace. Qed.
(** Times of the sources [ys]. *)
Definition times_for {Y} (T : Y -> R) (ys : list Y) (te : tevol) : Prop :=
  match te with TScalar t => forall y, In y ys -> t = Fin (T y) | TArr l => l = map (fun y => Fin (T y)) ys | TNone => False end.
Lemma times_for_of {Y} (T : Y -> R) ys te : times_for T ys te -> times_of te (length ys) = Ok (map (fun y => Fin (T y)) ys).
Proof.
  destruct te as [|t|l]; cbn; [easy| |now intros ->]. intros H. rewrite np_repeat_map. f_equal. apply map_ext_in. intros y Hy. now apply H.
Qed.
Lemma times_take {Y} (T : Y -> R) ys te q : times_for T ys te -> exists te', take_times (map q ys) te = Ok te' /\ steps_for T (filter q ys) te'.
Proof.
  destruct te as [|t|l]; cbn; [easy| |].
  - intros H. eexists. split; [reflexivity|]. apply steps_scalar. intros y Hy. apply filter_In in Hy. now apply H.
  - intros ->. rewrite take_mask_map. cbn [rbind]. eexists. split; [reflexivity|]. apply steps_array.
Qed.
Lemma final_map {Y} (f : Y -> list num) ys : final (map f ys) = map (fun y => last (f y) NaN) ys.
Proof. unfold final. now rewrite map_map. Qed.
Lemma evolved_map {Y} (g : Y -> row) x te s ys (T tm : Y -> R) : collection s (map g ys) -> times_for T ys te ->
  evolved x te (map (fun y => Fin (tm y)) ys) s =
    Ok (map (fun y => new_m (T y) (tm y)) ys, map (fun y => new_e x (g y) (T y) (tm y)) ys, map (fun y => new_f x (g y) (T y) (tm y)) ys).
Proof.
  intros C HT. destruct (col_map g s ys C) as (C1 & C2 & C3 & C4 & C5 & C6). assert (N : n_sources s = length ys) by (rewrite (n_sources_map _ _ C); apply map_length).
  unfold evolved. rewrite N, (times_for_of T ys te HT). cbn [rbind]. rewrite bzip_map. cbn [rbind].
  assert (EM : map (fun y => nge (Fin (T y)) (Fin (tm y))) ys = map (fun y => new_m (T y) (tm y)) ys) by (apply map_ext; intros; apply new_m_nge). rewrite EM.
  rewrite C5, !map_map, !logical_and_map. cbn [rbind].
  set (qc := fun y => neqb (r_e (g y)) (Fin 0) && negb (new_m (T y) (tm y))). set (qe := fun y => negb (neqb (r_e (g y)) (Fin 0)) && negb (new_m (T y) (tm y))).
  destruct (times_take T ys te qc HT) as (tc & EC & SC). destruct (times_take T ys te qe HT) as (tec & EE & SE). rewrite EC, EE. cbn [rbind].
  rewrite !np_repeat_map, take_mask_map. cbn [rbind]. rewrite !map_map. cbn [map]. rewrite scatter_map. rewrite C1, C2, C4, !select_map.
  rewrite (circ_arr g x T (filter qc ys) tc SC). rewrite (ecc_arr g x T _ (filter qe ys) tec (years 1e6) SE). cbn [rbind fst]. rewrite !final_map. cbn [last].
  set (f1 := fun y => if new_m (T y) (tm y) then f_at_merger else Fin 0).
  assert (S1 : (if any (map qc ys) then Ok (scatter (map qc ys) (map (fun y => circ_f (g y) (Fin (T y))) (filter qc ys)) (map f1 ys)) else Ok (map f1 ys))
               = Ok (map (fun y => if qc y then circ_f (g y) (Fin (T y)) else f1 y) ys)).
  { destruct (any (map qc ys)) eqn:A; [now rewrite scatter_map|]. f_equal. apply map_ext_in. intros y Hy. now rewrite (any_map qc ys A y Hy). }
  rewrite S1. cbn [rbind].
  assert (S2 : (if any (map qe ys) then Ok (scatter (map qe ys) (map (fun y => last (ecc_e x (g y) (T y)) NaN) (filter qe ys)) (map (fun _ => Fin 0) ys),
                    scatter (map qe ys) (map (fun y => last (ecc_f x (g y) (T y)) NaN) (filter qe ys)) (map (fun y => if qc y then circ_f (g y) (Fin (T y)) else f1 y) ys))
                 else Ok (map (fun _ => Fin 0) ys, map (fun y => if qc y then circ_f (g y) (Fin (T y)) else f1 y) ys))
               = Ok (map (fun y => if qe y then last (ecc_e x (g y) (T y)) NaN else Fin 0) ys,
                     map (fun y => if qe y then last (ecc_f x (g y) (T y)) NaN else if qc y then circ_f (g y) (Fin (T y)) else f1 y) ys)).
  { destruct (any (map qe ys)) eqn:A; [now rewrite !scatter_map|]. f_equal. f_equal; apply map_ext_in; intros y Hy; now rewrite (any_map qe ys A y Hy). }
  rewrite S2. cbn [rbind fst snd]. f_equal. f_equal; [f_equal|]; apply map_ext; intros y; unfold new_e, new_f, qe, qc, f1, new_m, is_circ;
    destruct (Rle_dec (tm y) (T y)), (neqb (r_e (g y)) (Fin 0)); reflexivity.
Qed.
Lemma remaining_map {Y} (tm T : Y -> R) ys : remaining (map (fun y => Fin (tm y)) ys) (map (fun y => Fin (T y)) ys) = Ok (map (fun y => Fin (Rmax 0 (tm y - T y))) ys).
Proof. unfold remaining. rewrite bzip_map. f_equal. apply map_ext. intros y. now rewrite nsub_fin, nmax_fin. Qed.
(** ensure_t_merge *)
Lemma ensure_map {Y} (g : Y -> row) x s ys (tm : Y -> R) : collection s (map g ys) -> (s_t_merge s = None -> bound (map g ys)) -> (forall y, In y ys -> merges_at x s (g y) (Fin (tm y))) ->
  ensure_t_merge x s = (set_t_merge (Some (map (fun y => Fin (tm y)) ys)) s, Ok (map (fun y => Fin (tm y)) ys)).
Proof.
  intros C B H. unfold ensure_t_merge. rewrite mbind_self. unfold merges_at in H. destruct (s_t_merge s) as [l|] eqn:E.
  - destruct (col_tm _ _ C) as [K|K]; [congruence|]. rewrite E in K. injection K as K.
    assert (L : l = map (fun y => Fin (tm y)) ys) by (rewrite K, map_map; apply map_ext_in; intros y Hy; symmetry; now apply H).
    unfold ret. f_equal; [|congruence]. rewrite <- L, <- E. destruct s; reflexivity.
  - assert (W : np_repeat true (n_sources s) = map (fun _ => true) ys) by (rewrite (n_sources_map _ _ C), map_length; apply np_repeat_map).
    unfold mbind at 1. rewrite (merger_map g x true None true s ys (fun _ => true) C (B eq_refl) W). rewrite mbind_self. cbn [set_t_merge s_t_merge].
    assert (L : map (fun y => tm_val x true (g y)) ys = map (fun y => Fin (tm y)) ys).
    { apply map_ext_in. intros y Hy. specialize (H y Hy). pose proof (tm_val_spec x true (g y)) as V. unfold merger_time in *. destruct (r_merged (g y)); congruence. }
    cbn [set_t_merge s_t_merge]. rewrite L. reflexivity.
Qed.
Lemma optional_map {A Y} (o : option (list A)) (f f' : row -> A) (g g' : Y -> row) ys : optional o f (map g ys) -> (forall y, f' (g' y) = f (g y)) -> optional o f' (map g' ys).
Proof. intros [->| ->] H; [now left|right]. f_equal. rewrite !map_map. apply map_ext. intros y. now rewrite H. Qed.
Lemma sky_map {Y} k (g g' : Y -> row) ys : k = pop_sky (map g ys) None \/ k = pop_sky (map g ys) (Some r_sky) -> (forall y, r_sky (g' y) = r_sky (g y)) ->
  k = pop_sky (map g' ys) None \/ k = pop_sky (map g' ys) (Some r_sky).
Proof.
  intros [->| ->] H; [left; reflexivity|right]. cbn. rewrite !map_map. f_equal; f_equal; apply map_ext; intros y; now rewrite H.
Qed.
Definition with_tm (r : row) (tm : R) : row :=
  mkRow (r_m1 r) (r_m2 r) (r_d r) (r_f r) (r_e r) (r_sky r) (r_w r) (Fin tm) (r_snr r) (r_msh r) (r_merged r).
Lemma collection_tm {Y} (g : Y -> row) s ys (tm : Y -> R) : collection s (map g ys) ->
  collection (set_t_merge (Some (map (fun y => Fin (tm y)) ys)) s) (map (fun y => with_tm (g y) (tm y)) ys).
Proof.
  intros C. destruct C. split; cbn; rewrite ?map_map; cbn; try (match goal with H : ?l = map _ (map g ys) |- ?l = _ => rewrite H, map_map; reflexivity end).
  - eapply optional_map; [eassumption|reflexivity].
  - right. rewrite map_map. reflexivity.
  - eapply optional_map; [eassumption|reflexivity].
  - eapply optional_map; [eassumption|reflexivity].
  - pose proof (sky_map _ g (fun y => with_tm (g y) (tm y)) ys col_sky (fun y => eq_refl)) as K. cbn in K. rewrite ?map_map in K. exact K.
Qed.
Lemma collection_next {Y} (g : Y -> row) x s ys (T tm : Y -> R) : collection s (map g ys) ->
  collection (set_t_merge (Some (map (fun y => Fin (Rmax 0 (tm y - T y))) ys))
       (set_orbit (map (fun y => new_e x (g y) (T y) (tm y)) ys) (map (fun y => new_f x (g y) (T y) (tm y)) ys) (map (fun y => new_m (T y) (tm y)) ys) s))
    (map (fun y => next_row x (g y) (T y) (tm y)) ys).
Proof.
  intros C. destruct C. split; cbn; rewrite ?map_map; cbn; try reflexivity; try (match goal with H : ?l = map _ (map g ys) |- ?l = _ => rewrite H, map_map; reflexivity end).
  - eapply optional_map; [eassumption|reflexivity].
  - right. rewrite map_map. reflexivity.
  - eapply optional_map; [eassumption|reflexivity].
  - eapply optional_map; [eassumption|reflexivity].
  - pose proof (sky_map _ g (fun y => next_row x (g y) (T y) (tm y)) ys col_sky (fun y => eq_refl)) as K. cbn in K. rewrite ?map_map in K. exact K.
Qed.
Lemma evolve_map {Y} (g : Y -> row) x te s ys (T tm : Y -> R) : collection s (map g ys) -> (s_t_merge s = None -> bound (map g ys)) -> (forall y, In y ys -> merges_at x s (g y) (Fin (tm y))) ->
  times_for T ys te ->
  evolve_sources x te s =
    (set_t_merge (Some (map (fun y => Fin (Rmax 0 (tm y - T y))) ys))
       (set_orbit (map (fun y => new_e x (g y) (T y) (tm y)) ys) (map (fun y => new_f x (g y) (T y) (tm y)) ys) (map (fun y => new_m (T y) (tm y)) ys) s), Ok tt).
Proof.
  intros C B H HT. unfold evolve_sources. unfold mbind at 1. rewrite (ensure_map g x s ys tm C B H). rewrite mbind_self.
  assert (C' : collection (set_t_merge (Some (map (fun y => Fin (tm y)) ys)) s) (map (fun y => with_tm (g y) (tm y)) ys)).
  { apply collection_tm; auto. }
  rewrite (evolved_map _ x te _ ys T tm C' HT), mbind_lift. cbv beta iota. unfold mbind at 1, modify.
  assert (N : n_sources s = length ys) by (rewrite (n_sources_map _ _ C); apply map_length).
  change (n_sources (set_t_merge (Some (map (fun y => Fin (tm y)) ys)) s)) with (n_sources s). rewrite N, (times_for_of T ys te HT).
  rewrite mbind_lift, remaining_map, mbind_lift. reflexivity.
Qed.
