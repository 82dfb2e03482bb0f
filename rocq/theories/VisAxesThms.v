(** VisAxesThms.v -- the statements of C101-C104 from VisAxesFacts. *)
From Coq Require Import String Reals ZArith List Bool Lra Lia.
From Verif Require Import Num NumFacts Np NpFacts Utils Strain Evol Source Units UnitsFacts VisAxes VisAxesSpec VisAxesFacts.
Import ListNotations.
Open Scope string_scope.
Open Scope list_scope.
Open Scope R_scope.
Open Scope p_scope.

(** *** Labels *)
Lemma variable_entry c k v : variable_of c k v -> entry k (convert c) = Some (Some v).
Proof. intros H. destruct H as [| | | | | | | |l E]; try reflexivity. unfold convert. cbn. now rewrite E. Qed.
Lemma unitless_spec k n s : named k n s -> (unitless k = true <-> without_unit k).
Proof.
  intros _. unfold unitless, without_unit. rewrite orb_true_iff, !String.eqb_eq. reflexivity.
Qed.
Lemma texts k n s : named k n s -> text k labels = n /\ text k latex_labels = s.
Proof. intros H. destruct H; split; reflexivity. Qed.
Definition hist_type (dt : option string) : bool := String.eqb (match dt with Some d => d | None => "hist" end) "hist".
Definition none_given (o : option string) : bool := match o with None => true | Some _ => false end.
Lemma x_label_says tex k n s y v u lg dt t : named k n s -> in_u v = Some u -> x_label tex k y v lg dt = Ok t ->
  says tex k u (lg && hist_type dt && none_given y) t.
Proof.
  intros N U. destruct (texts _ _ _ N) as (E1 & E2). unfold x_label. fold (hist_type dt) (none_given y). rewrite E1, E2. unfold unit_text. rewrite U. cbn [rbind].
  destruct (unitless k) eqn:Z.
  - assert (W : without_unit k) by (eapply unitless_spec; eassumption). destruct (_ && _ && _); intros H; injection H as <-; now constructor.
  - assert (W : ~ without_unit k). { intros W. eapply unitless_spec in W; [congruence|exact N]. }
    destruct (_ && _ && _); intros H; injection H as <-; now constructor.
Qed.
Lemma y_label_says tex k n s v u t : named k n s -> in_u v = Some u -> y_label tex k v = Ok t -> says tex k u false t.
Proof.
  intros N U. destruct (texts _ _ _ N) as (E1 & E2). unfold y_label. rewrite E1, E2. unfold unit_text. rewrite U. cbn [rbind].
  destruct (unitless k) eqn:Z.
  - assert (W : without_unit k) by (eapply unitless_spec; eassumption). intros H; injection H as <-; now constructor.
  - assert (W : ~ without_unit k). { intros W. eapply unitless_spec in W; [congruence|exact N]. } intros H; injection H as <-; now constructor.
Qed.
Lemma pick_numbers m v w : pick m v = Ok w -> numbers_of v m (nums w) /\ in_u w = in_u v.
Proof.
  unfold pick, numbers_of. destruct (take_mask m (nums v)) as [l|]; [|discriminate]. cbn [rbind]. intros E. injection E as <-. now split.
Qed.

Section Variables.
Variables (lib : shape -> res unit) (tex : unit_ -> string).

Lemma lift_ok {A} (r : res A) s s' (a : A) : plift r s = (s', Ok a) -> s' = s /\ r = Ok a.
Proof. unfold plift. intros E. injection E as <- ->. now split. Qed.
Tactic Notation "step" hyp(H) ident(x) ident(s1) ident(E) := apply bind_ok in H; destruct H as (x & s1 & E & H); apply lift_ok in E; destruct E as (-> & E).

Lemma variables_1D_inv c k n sy v which ex lg dt size l kwargs s s' : named k n sy -> variable_of c k v ->
  plot_source_variables lib tex c (Some k) None which ex lg dt size l kwargs s = (s', Ok tt) ->
  exists m x w tx ty, pick m v = Ok x /\ (match l_xlabel l with Some t => Ok t | None => x_label tex k None v (fst (log_pair lg)) dt end) = Ok tx /\
    ty = match l_ylabel l with Some t => t | None => count_label k (fst (log_pair lg)) end /\
    plot_1D_dist lib x w (match dt with Some d => d | None => "hist" end) lg
      (mkLook (l_show l) (Some tx) (Some ty) (l_xlim l) (l_ylim l) (l_color l)) kwargs s = (s', Ok tt).
Proof.
  intros N V. unfold plot_source_variables. intros H. step H m s1 E1. rewrite (variable_entry _ _ _ V) in H. cbn [andb negb] in H.
  step H xx s1 E2. injection E2 as <-. cbn [fst snd] in H. step H y s1 E3. injection E3 as <-. step H tx s1 E4. step H ty s1 E5. step H w s1 E6. step H x s1 E7.
  exists m, x, w, tx, ty. split; [exact E7|]. split; [exact E4|]. split; [destruct (l_ylabel l); congruence|exact H].
Qed.
Lemma variables_2D_inv c k n sy v k' n' sy' v' which ex lg dt size l kwargs s s' : named k n sy -> variable_of c k v -> named k' n' sy' -> variable_of c k' v' ->
  plot_source_variables lib tex c (Some k) (Some k') which ex lg dt size l kwargs s = (s', Ok tt) ->
  exists m x y w tx ty, pick m v = Ok x /\ pick m v' = Ok y /\
    (match l_xlabel l with Some t => Ok t | None => x_label tex k (Some k') v (fst (log_pair lg)) dt end) = Ok tx /\
    (match l_ylabel l with Some t => Ok t | None => y_label tex k' v' end) = Ok ty /\
    plot_2D_dist lib x y w (match dt with Some d => d | None => "scatter" end) lg size
      (mkLook (l_show l) (Some tx) (Some ty) (l_xlim l) (l_ylim l) (l_color l)) kwargs s = (s', Ok tt).
Proof.
  intros N V N' V'. unfold plot_source_variables. intros H. step H m s1 E1. rewrite (variable_entry _ _ _ V), (variable_entry _ _ _ V') in H. cbn [andb negb] in H.
  step H xx s1 E2. injection E2 as <-. cbn [fst snd] in H. step H yy s1 E3. injection E3 as <-. step H tx s1 E4. step H ty s1 E5. step H w s1 E6. step H x s1 E7.
  step H y s1 E8. exists m, x, y, w, tx, ty. auto 10.
Qed.

(** One variable on new axes. *)
Theorem label_1D c k n sy v u which ex b dt size l kwargs s s' : named k n sy -> variable_of c k v -> in_u v = Some u ->
  match dt with None => True | Some d => known_1D d end -> l_xlabel l = None -> now s = blank ->
  plot_source_variables lib tex c (Some k) None which ex (LBool b) dt size l kwargs s = (s', Ok tt) ->
  exists sh m l txt, shapes (now s') = [sh] /\ numbers_of v m l /\ labelled (x_axis (now s')) txt /\
    if (b && hist_type dt)%bool then on_x sh = map nlog10 l /\ says tex k u true txt /\ log_axis (x_axis (now s')) = false
    else on_x sh = l /\ says tex k u false txt /\ counts_in (x_axis (now s')) u /\ log_axis (x_axis (now s')) = b.
Proof.
  intros N V U D X B H. eapply variables_1D_inv in H; [|exact N|exact V]. destruct H as (m & x & w & tx & ty & P1 & L & _ & H).
  rewrite X in L. apply (x_label_says _ _ _ _ _ _ _ _ _ _ N U) in L. cbn [none_given log_pair fst] in L. rewrite andb_true_r in L.
  destruct (pick_numbers _ _ _ P1) as (NX & UX).
  assert (K : known_1D (match dt with Some d => d | None => "hist" end)) by (destruct dt; [exact D|now left]).
  pose proof (effects_1D _ _ _ _ _ _ _ _ _ H) as (EX & _). cbn [l_xlabel asked] in EX.
  apply (drawn_1D _ _ _ _ _ _ _ _ _ K) in H. destruct H as (sh & ax & S & UO & LO & _ & H). rewrite B in S, H.
  exists sh, m, (nums x), tx. split; [exact S|]. split; [exact NX|]. split; [exact EX|]. fold (hist_type dt) in H. destruct (hist_type dt).
  - rewrite andb_true_r in *. destruct b; cbn [log_truth] in H.
    + unfold onto in H. cbn [in_u] in H. injection H as <- <-. split; [reflexivity|]. split; [exact L|]. now rewrite LO.
    + unfold onto in H. cbn [x_axis blank blank_axis unit_on] in H. rewrite UX, U in H. injection H as <- <-. split; [reflexivity|].
      split; [exact L|]. split; [right; now rewrite UO|now rewrite LO].
  - rewrite andb_false_r in *. destruct H as (-> & ->). split; [reflexivity|]. split; [exact L|]. split; [left|]; rewrite ?UO, ?LO; destruct b; reflexivity.
Qed.
(** Two variables on new axes. *)
Theorem label_2D c k n sy v u k' n' sy' v' u' which ex lg dt size l kwargs s s' : named k n sy -> variable_of c k v -> in_u v = Some u ->
  named k' n' sy' -> variable_of c k' v' -> in_u v' = Some u' ->
  match dt with None => True | Some d => known_2D d end -> l_xlabel l = None -> l_ylabel l = None -> now s = blank ->
  plot_source_variables lib tex c (Some k) (Some k') which ex lg dt size l kwargs s = (s', Ok tt) ->
  exists sh m xs ys tx ty, shapes (now s') = [sh] /\ numbers_of v m xs /\ numbers_of v' m ys /\ on_x sh = xs /\ on_y sh = Some ys /\
    labelled (x_axis (now s')) tx /\ says tex k u false tx /\ counts_in (x_axis (now s')) u /\
    labelled (y_axis (now s')) ty /\ says tex k' u' false ty /\ counts_in (y_axis (now s')) u' /\
    log_axis (x_axis (now s')) = fst (log_pair lg) /\ log_axis (y_axis (now s')) = snd (log_pair lg).
Proof.
  intros N V U N' V' U' D X Y B H. eapply variables_2D_inv in H; try eassumption. destruct H as (m & x & y & w & tx & ty & P1 & P2 & L & L' & H).
  rewrite X in L. apply (x_label_says _ _ _ _ _ _ _ _ _ _ N U) in L. cbn [none_given] in L. rewrite andb_false_r in L.
  rewrite Y in L'. apply (y_label_says _ _ _ _ _ _ _ N' U') in L'.
  destruct (pick_numbers _ _ _ P1) as (NX & UX), (pick_numbers _ _ _ P2) as (NY & UY).
  assert (K : known_2D (match dt with Some d => d | None => "scatter" end)) by (destruct dt; [exact D|now left]).
  pose proof (effects_2D _ _ _ _ _ _ _ _ _ _ _ H) as (EX & EY & _). cbn [l_xlabel l_ylabel asked] in EX, EY.
  apply (drawn_2D _ _ _ _ _ _ _ _ _ _ _ K) in H. destruct H as (sh & ax & ay & ys & S & OY & UOX & UOY & LX & LY & _ & H). rewrite B in S, H, LX, LY.
  exists sh, m, (nums x), (nums y), tx, ty. split; [exact S|]. split; [exact NX|]. split; [exact NY|].
  cbn [x_axis y_axis blank blank_axis log_axis] in LX, LY. rewrite orb_false_r in LX, LY.
  destruct (String.eqb _ "scatter").
  - destruct H as (H1 & H2). unfold onto in H1, H2. cbn [x_axis y_axis blank blank_axis unit_on] in H1, H2. rewrite UX, U in H1. rewrite UY, U' in H2.
    injection H1 as <- H1. injection H2 as <- H2. rewrite H2. unfold counts_in. rewrite UOX, UOY. cbn [with_unit_on unit_on]. repeat (split; [solve [auto]|]). auto.
  - destruct H as (-> & -> & -> & ->). unfold counts_in. rewrite UOX, UOY. cbn [x_axis y_axis blank blank_axis unit_on]. repeat (split; [solve [auto]|]). auto.
Qed.
End Variables.

(** *** The sensitivity curve *)
Tactic Notation "step" hyp(H) ident(x) ident(s1) ident(E) := apply bind_ok in H; destruct H as (x & s1 & E & H); apply lift_ok in E; destruct E as (-> & E).
Definition curve_range (r : option qarr) : qarr := match r with Some f => f | None => default_frequencies end.
Section Curve.
Variables (lib : shape -> res unit) (psd : qarr -> res qarr).

Definition noise_of (q : string) (f p : qarr) : res qarr :=
  if String.eqb q "ASD" then Ok (qsqrt p) else if String.eqb q "h_c" then (r <- qmul f p ;; Ok (qsqrt r))%res else Err ValueError.
Lemma curve_result r q show fill s s' : plot_sensitivity_curve lib psd r q show fill s = (s', Ok tt) ->
  exists p noise ax ay xs ys k m, psd (curve_range r) = Ok p /\ noise_of q (curve_range r) p = Ok noise /\
    onto (x_axis (now s)) (curve_range r) = Ok (ax, xs) /\ onto (y_axis (now s)) noise = Ok (ay, ys) /\ min_max (nums (curve_range r)) = Ok m /\
    In (mkShape "loglog" xs (Some ys) k) (shapes (now s')) /\
    x_axis (now s') = mkAxis (unit_on ax) true (Some label_frequency) (Some m) /\
    y_axis (now s') = mkAxis (unit_on ay) true (Some (if String.eqb q "ASD" then label_asd else label_strain)) (limits (y_axis (now s))) /\
    shown s' = shown s ++ (if show then [now s'] else []).
Proof.
  unfold plot_sensitivity_curve. fold (curve_range r). intros H. step H p s1 E1. step H noise s1 E2. change (noise_of q (curve_range r) p = Ok noise) in E2.
  apply bind_ok in H. destruct H as ([] & s2 & D & H). apply ax_draw_ok in D. destruct D as (k & ax & xs & ay & ys & _ & X & (l & Y & ->) & ->).
  apply bind_ok in H. destruct H as ([] & s3 & D & H). injection D as <-.
  apply bind_ok in H. destruct H as ([] & s4 & D & H). injection D as <-.
  apply bind_ok in H. destruct H as ([] & s5 & D & H).
  set (s4 := mkScreen _ _) in D.
  assert (F : exists z, shapes (now s5) = (shapes (now s) ++ [mkShape "loglog" xs (Some l) k]) ++ z /\ unit_on (x_axis (now s5)) = unit_on ax /\
             unit_on (y_axis (now s5)) = unit_on ay /\ log_axis (x_axis (now s5)) = true /\ log_axis (y_axis (now s5)) = true /\
             limits (y_axis (now s5)) = limits ay /\ shown s5 = shown s).
  { destruct fill.
    - apply ax_draw_ok in D. destruct D as (k' & ax' & xs' & ay' & ys' & _ & X' & (l' & Y' & ->) & ->). eexists. split; [reflexivity|].
      cbn [now x_axis y_axis shown]. unfold s4 in X', Y'. cbn [now x_axis y_axis] in X', Y'.
      assert (O : forall a v b t, onto (with_log a) v = Ok (b, t) -> unit_on a <> None \/ in_u v = None -> unit_on b = unit_on a /\ log_axis b = true /\ limits b = limits a).
      { intros a v b t. unfold onto. cbn [with_log unit_on]. destruct (in_u v); [destruct (unit_on a) as [w|] eqn:U|].
        - destruct (dim_eqb _ _); [|discriminate]. intros O _. injection O as <- <-. cbn. auto.
        - intros _ [K|K]; congruence.
        - intros O _. injection O as <- <-. cbn. auto. }
      assert (G : forall a v b t, onto a v = Ok (b, t) -> unit_on b <> None \/ in_u v = None).
      { intros a v b t. unfold onto. destruct (in_u v); [destruct (unit_on a) as [w|] eqn:U|].
        - destruct (dim_eqb _ _); [|discriminate]. intros J. injection J as <- <-. left. congruence.
        - intros J. injection J as <- <-. left. discriminate.
        - now right. }
      destruct (O _ _ _ _ X' (G _ _ _ _ X)) as (A1 & A2 & _), (O _ _ _ _ Y' (G _ _ _ _ Y)) as (B1 & B2 & B3). auto 10.
    - unfold pret in D. injection D as <-. exists []. rewrite app_nil_r. unfold s4. cbn. auto 10. }
  clear s4 D. destruct F as (z & F1 & F2 & F3 & F4 & F5 & F6 & F7).
  apply bind_ok in H. destruct H as ([] & s6 & D & H). injection D as <-.
  apply bind_ok in H. destruct H as ([] & s7 & D & H). injection D as <-.
  step H m s8 E3. step H tt1 s8 E4.
  apply bind_ok in H. destruct H as ([] & s8 & D & H). injection D as <-.
  destruct (onto_texts _ _ _ _ Y) as (_ & TY).
  exists p, noise, ax, ay, xs, l, k, m. split; [exact E1|]. split; [exact E2|]. split; [exact X|]. split; [exact Y|]. split; [exact E3|].
  cbn [now shown x_axis y_axis shapes with_log with_label with_limits unit_on log_axis label limits] in H.
  assert (G : forall q0, In (mkShape "loglog" xs (Some l) k) ((shapes (now s) ++ [mkShape "loglog" xs (Some l) k]) ++ q0)).
  { intros q0. apply in_or_app. left. apply in_or_app. right. now left. }
  unfold with_limits, with_label in H. cbn [unit_on log_axis label limits] in H.
  rewrite F1, F2, F3, F4, F5, F6, F7 in H. unfold show_plot in H.
  destruct show; injection H as <-; cbn [now shown x_axis y_axis shapes]; rewrite <- TY, ?app_nil_r; auto 10.
Qed.

(** In hertz and per hertz, on new axes: the labels are right. *)
Definition per_hertz : unit_ := mkUnit 1 time_dim.
Theorem curve_labels r q show fill s s' p : now s = blank -> in_u (curve_range r) = Some hertz -> psd (curve_range r) = Ok p -> in_u p = Some per_hertz ->
  plot_sensitivity_curve lib psd r q show fill s = (s', Ok tt) ->
  exists xs ys k u, In (mkShape "loglog" xs (Some ys) k) (shapes (now s')) /\
    xs = nums (curve_range r) /\ unit_on (x_axis (now s')) = Some hertz /\ labelled (x_axis (now s')) "Frequency [$\rm Hz$]" /\
    unit_on (y_axis (now s')) = Some u /\ u_size u = 1 /\
    ((q = "ASD" /\ u_dim u = dpow frequency_dim (- (1 / 2)) /\ labelled (y_axis (now s')) "ASD $[\rm Hz^{-1/2}]$") \/
     (q = "h_c" /\ u_dim u = dimensionless /\ labelled (y_axis (now s')) "Characteristic Strain")).
Proof.
  intros B F E U H. apply curve_result in H. destruct H as (p' & noise & ax & ay & xs & ys & k & m & P1 & NO & X & Y & _ & I & AX & AY & _).
  rewrite E in P1. injection P1 as <-. rewrite B in X, Y. unfold onto in X, Y. cbn [x_axis y_axis blank blank_axis unit_on] in X, Y. rewrite F in X. injection X as <- <-.
  assert (R : Rpower 1 (1 / 2) = 1) by (unfold Rpower; rewrite ln_1, Rmult_0_r; apply exp_0).
  unfold noise_of in NO. unfold labelled. rewrite AX, AY. destruct (String.eqb q "ASD") eqn:Q.
  - injection NO as <-. unfold qsqrt in Y. cbn [in_u nums] in Y. rewrite U in Y. cbn [option_map] in Y. injection Y as <- <-.
    eexists _, _, k, _. split; [exact I|]. cbn [unit_on label with_unit_on]. split; [reflexivity|]. split; [reflexivity|]. split; [reflexivity|]. split; [reflexivity|].
    split; [exact R|]. left. split; [now apply String.eqb_eq|]. split; [|reflexivity]. unfold upow, per_hertz, dpow, dmap2, time_dim, frequency_dim. cbn. f_equal; lra.
  - destruct (String.eqb q "h_c") eqn:Q'; [|discriminate]. destruct (qmul (curve_range r) p) as [z|] eqn:M; [|discriminate]. cbn [rbind] in NO. injection NO as <-.
    unfold qmul in M. destruct (bzip nmul _ _); [|discriminate]. cbn [rbind] in M. rewrite F, U in M. injection M as <-.
    unfold qsqrt in Y. cbn [in_u nums option_map] in Y. injection Y as <- <-.
    eexists _, _, k, _. split; [exact I|]. cbn [unit_on label with_unit_on]. split; [reflexivity|]. split; [reflexivity|]. split; [reflexivity|]. split; [reflexivity|].
    split; [unfold upow, umul; cbn [u_size hertz per_hertz]; now rewrite Rmult_1_l|]. right. split; [now apply String.eqb_eq|]. split; [|reflexivity].
    unfold upow, umul, per_hertz, hertz, dpow, dmul, dmap2, time_dim, frequency_dim, dimensionless. cbn. f_equal; lra.
Qed.
End Curve.

(** A library that accepts everything. *)
Definition accepts_all : shape -> res unit := fun _ => Ok tt.
Definition new_screen : screen := mkScreen blank [].
Definition flat_noise : qarr -> res qarr := fun f => Ok (mkArr (map (fun _ => Fin 1) (nums f)) (Some (mkUnit 1 time_dim))).
Definition mHz : unit_ := mkUnit (1 / 1000) frequency_dim.
(** From 1 to 10 mHz: the axis counts in mHz and says Hz. *)
Theorem curve_millihertz : exists s xs ys k, plot_sensitivity_curve accepts_all flat_noise (Some (mkArr [Fin 1; Fin 10] (Some mHz))) "ASD" true false new_screen = (s, Ok tt) /\
  In (mkShape "loglog" xs (Some ys) k) (shapes (now s)) /\ xs = [Fin 1; Fin 10] /\ unit_on (x_axis (now s)) = Some mHz /\
  labelled (x_axis (now s)) "Frequency [$\rm Hz$]".
Proof. eexists _, _, _, _. split; [reflexivity|]. cbn. split; [left; reflexivity|]. repeat split. Qed.

(** A second plot on the axes of the first: m_1 in solar masses, then in kg. *)
Definition one_pop (v : num) (u : unit_) : pop :=
  let z := mkArr [v] (Some u) in mkPop z z z [Fin 0] z z z None None [false].
Definition kg : unit_ := mkUnit 1 mass_dim.
Lemma kg_mass : dim_eqb (u_dim kg) (u_dim msun) = true.
Proof. unfold dim_eqb, kg, msun. cbn. unfold Reqb. destruct (Req_EM_T 0 0), (Req_EM_T 1 1); try lra; reflexivity. Qed.
Definition hist_m_1 tex (v : num) (u : unit_) : P unit :=
  plot_source_variables accepts_all tex (one_pop v u) (Some "m_1") None None true (LBool false) None (Fin 20) default_look [].
Definition m_1_label (t : string) : string := ("Primary Mass" ++ ", " ++ "$m_1$" ++ " [" ++ t ++ "]")%string.
Lemma hist_m_1_eq tex v u xa ya shs sw ax xs : onto xa (mkArr [v] (Some u)) = Ok (ax, xs) ->
  exists sh p, hist_m_1 tex v u (mkScreen (mkPicture xa ya shs) sw) = (mkScreen p (sw ++ [p]), Ok tt) /\
    shapes p = shs ++ [sh] /\ on_x sh = xs /\ x_axis p = finished (Some (m_1_label (tex u))) None ax.
Proof.
  intros E.
  change (hist_m_1 tex v u ?s) with (plot_1D_dist accepts_all (mkArr [v] (Some u)) None "hist" (LBool false)
    (mkLook true (Some (m_1_label (tex u))) (Some (count_label "m_1" false)) None None ONone) [] s).
  rewrite plot_1D_parts. unfold draw_1D, pbind, ax_draw, plift. cbn [String.eqb Ascii.eqb Bool.eqb log_truth]. cbn [pbind].
  unfold pbind. cbn [call update_kw fold_left defaults_1D String.eqb Ascii.eqb Bool.eqb existsb get_kw fst snd orb now x_axis y_axis]. rewrite E. cbn [accepts_all fst snd].
  rewrite finish_eq. cbv zeta. eexists _, _. split; [reflexivity|]. cbn [now shapes x_axis]. split; [reflexivity|]. split; reflexivity.
Qed.
Theorem second_plot tex : exists s1 s2 sh1 sh2 txt, hist_m_1 tex (Fin 1) msun new_screen = (s1, Ok tt) /\ hist_m_1 tex (Fin 1) kg s1 = (s2, Ok tt) /\
  shapes (now s2) = [sh1; sh2] /\ labelled (x_axis (now s2)) txt /\ says tex "m_1" kg false txt /\ on_x sh1 = [Fin 1] /\ on_x sh2 <> [Fin 1].
Proof.
  destruct (hist_m_1_eq tex (Fin 1) msun blank_axis blank_axis [] [] _ _ eq_refl) as (sh1 & p1 & E1 & S1 & X1 & A1). destruct p1 as [xa ya shs]. cbn [x_axis shapes] in *. subst xa shs.
  assert (O : onto (finished (Some (m_1_label (tex msun))) None (with_unit_on msun blank_axis)) (mkArr [Fin 1] (Some kg)) =
    Ok (finished (Some (m_1_label (tex msun))) None (with_unit_on msun blank_axis), map (fun n => nmul n (Fin (u_size kg / u_size msun))) [Fin 1])).
  { unfold onto. cbn [in_u finished unit_on with_unit_on]. now rewrite kg_mass. }
  destruct (hist_m_1_eq tex (Fin 1) kg _ ya ([] ++ [sh1]) ([] ++ [mkPicture (finished (Some (m_1_label (tex msun))) None (with_unit_on msun blank_axis)) ya ([] ++ [sh1])]) _ _ O)
    as (sh2 & p2 & E2 & S2 & X2 & A2).
  eexists _, _, sh1, sh2, (m_1_label (tex kg)). split; [exact E1|]. split; [exact E2|]. cbn [now]. split; [exact S2|]. unfold labelled. rewrite A2. split; [reflexivity|].
  split; [refine (says_unit tex "m_1" kg _ _ named_m_1 _); intros [E|E]; discriminate|]. split; [exact X1|]. rewrite X2. cbn [map nmul u_size kg msun].
  intros E. injection E as E. Transparent Ggrav. unfold Ggrav in E. Opaque Ggrav. lra.
Qed.

(** *** Sources on the sensitivity curve *)
Section Sources.
Variables (lib : shape -> res unit) (auto_limits : picture -> num * num) (psd : qarr -> res qarr).
(** The y limits before the points are drawn. *)
Definition limits_now (p : picture) : num * num := match limits (y_axis p) with Some v => v | None => auto_limits p end.
Lemma sources_parts f snr w cutoff q o d lg z l kwargs s s' : any (map (fun r => ngt r cutoff) snr) = true ->
  plot_sources_on_sc lib auto_limits psd f snr w cutoff q o d lg z l kwargs s = (s', Ok tt) ->
  exists s1 s2 x y w', (match o with OnSupplied => s1 = s | OnNew r fill => plot_sensitivity_curve lib psd r (match q with Some q => q | None => "ASD" end) false fill s = (s1, Ok tt) end) /\
    plot_2D_dist lib x y w' d lg z (mkLook false (l_xlabel l) (l_ylabel l) (l_xlim l) (l_ylim l) (l_color l)) kwargs s1 = (s2, Ok tt) /\
    now s' = mkPicture (x_axis (now s2)) (with_limits (limits_now (now s1)) (y_axis (now s2))) (shapes (now s2)) /\
    shown s' = shown s2 ++ (if l_show l then [now s'] else []).
Proof.
  intros A H. unfold plot_sources_on_sc in H. apply bind_ok in H. destruct H as ([] & s1 & E0 & H). rewrite A in H. cbn [negb] in H.
  step H f' s2 E1. step H p s2 E2. step H sp s2 E3. step H asd s2 E4. step H hc s2 E5.
  apply bind_ok in H. destruct H as (ylims & s2 & E6 & H). injection E6 as <- <-. fold (limits_now (now s1)) in H.
  step H w' s2 E7. apply bind_ok in H. destruct H as ([] & s2 & E8 & H).
  apply bind_ok in H. destruct H as ([] & s3 & E9 & H). injection E9 as <-.
  eexists s1, s2, _, _, _. split; [destruct o; [exact E0|unfold pret in E0; congruence]|]. split; [exact E8|]. unfold show_plot in H.
  destruct (l_show l); injection H as <-; cbn [now shown]; rewrite ?app_nil_r; auto.
Qed.
Lemma sources_result f snr w cutoff q o d lg z l kwargs s s' : any (map (fun r => ngt r cutoff) snr) = true ->
  plot_sources_on_sc lib auto_limits psd f snr w cutoff q o d lg z l kwargs s = (s', Ok tt) ->
  exists s1 s2, (match o with OnSupplied => s1 = s | OnNew r fill => plot_sensitivity_curve lib psd r (match q with Some q => q | None => "ASD" end) false fill s = (s1, Ok tt) end) /\
    effects (mkLook false (l_xlabel l) (l_ylabel l) (l_xlim l) (l_ylim l) (l_color l)) (fun v => v) s1 s2 /\
    now s' = mkPicture (x_axis (now s2)) (with_limits (limits_now (now s1)) (y_axis (now s2))) (shapes (now s2)) /\
    shown s' = shown s2 ++ (if l_show l then [now s'] else []).
Proof.
  intros A H. apply sources_parts in H; [|exact A]. destruct H as (s1 & s2 & x & y & w' & E0 & E8 & H). apply effects_2D in E8. eauto 10.
Qed.

(** Labels and x limits asked for are in force; so are the y limits from before, whatever was asked for. *)
Theorem sources_looks f snr w cutoff q d lg z l kwargs s s' : (exists r, In r snr /\ ngt r cutoff = true) ->
  plot_sources_on_sc lib auto_limits psd f snr w cutoff q OnSupplied d lg z l kwargs s = (s', Ok tt) ->
  asked (l_xlabel l) (label (x_axis (now s))) (label (x_axis (now s'))) /\ asked (l_ylabel l) (label (y_axis (now s))) (label (y_axis (now s'))) /\
  asked (l_xlim l) (limits (x_axis (now s))) (limits (x_axis (now s'))) /\ limits (y_axis (now s')) = Some (limits_now (now s)) /\
  shown s' = shown s ++ (if l_show l then [now s'] else []).
Proof.
  intros (r & I & R) H. apply sources_result in H; [|apply existsb_exists; exists true; split; [apply in_map_iff; eauto|reflexivity]].
  destruct H as (s1 & s2 & -> & (A1 & A2 & A3 & A4 & A5) & N & S). cbn [l_xlabel l_ylabel l_xlim l_ylim l_show] in *. rewrite app_nil_r in A5. rewrite A5 in S.
  rewrite N in *. cbn [x_axis y_axis label limits with_limits]. split; [exact A1|]. split; [exact A2|].
  split; [destruct (l_xlim l); exact A3|]. split; [reflexivity|exact S].
Qed.
Theorem sources_new f snr w cutoff q r fill d lg z l kwargs s s' : (exists r, In r snr /\ ngt r cutoff = true) ->
  plot_sources_on_sc lib auto_limits psd f snr w cutoff q (OnNew r fill) d lg z l kwargs s = (s', Ok tt) ->
  shown s' = shown s ++ (if l_show l then [now s'] else []).
Proof.
  intros (r' & I & R) H. apply sources_result in H; [|apply existsb_exists; exists true; split; [apply in_map_iff; eauto|reflexivity]].
  destruct H as (s1 & s2 & E & (_ & _ & _ & _ & A5) & N & S). cbn [l_show] in *. rewrite app_nil_r in A5. rewrite A5 in S.
  apply curve_result in E. destruct E as (? & ? & ? & ? & ? & ? & ? & ? & _ & _ & _ & _ & _ & _ & _ & _ & E). rewrite app_nil_r in E. congruence.
Qed.
(** Nothing above the cutoff: the plot is never shown. *)
Theorem sources_unshown f snr w cutoff q o d lg z l kwargs s s' : (forall r, In r snr -> ngt r cutoff = false) ->
  plot_sources_on_sc lib auto_limits psd f snr w cutoff q o d lg z l kwargs s = (s', Ok tt) -> shown s' = shown s.
Proof.
  intros A H. unfold plot_sources_on_sc in H. apply bind_ok in H. destruct H as ([] & s1 & E0 & H).
  replace (any (map (fun r => ngt r cutoff) snr)) with false in H.
  2:{ symmetry. unfold any. destruct (existsb _ _) eqn:X; [|reflexivity]. apply existsb_exists in X. destruct X as (b & I & B). subst b.
      apply in_map_iff in I. destruct I as (r & E & I). rewrite (A r I) in E. discriminate. }
  cbn [negb] in H. unfold pret in H. injection H as <-. destruct o; [|unfold pret in E0; congruence].
  apply curve_result in E0. destruct E0 as (? & ? & ? & ? & ? & ? & ? & ? & _ & _ & _ & _ & _ & _ & _ & _ & E). now rewrite app_nil_r in E.
Qed.
End Sources.

(** *** Logarithms *)
Theorem log_between v lo hi : 0 < v -> 0 < lo -> 0 < hi ->
  (between (Fin v) (Fin lo, Fin hi) <-> between (nlog10 (Fin v)) (nlog10 (Fin lo), nlog10 (Fin hi))).
Proof.
  intros V L H.
  assert (P : 0 < ln 10) by (rewrite <- ln_1; apply ln_increasing; lra).
  assert (M : forall a b, 0 < a -> 0 < b -> (a <= b <-> ln a / ln 10 <= ln b / ln 10)).
  { intros a b A B. split; intros K.
    - apply Rmult_le_compat_r; [left; now apply Rinv_0_lt_compat|]. destruct K as [K| ->]; [left; now apply ln_increasing|right; reflexivity].
    - apply Rmult_le_reg_r in K; [|now apply Rinv_0_lt_compat]. destruct (Rle_or_lt a b) as [Z|Z]; [exact Z|]. apply ln_increasing in Z; [lra|exact B]. }
  assert (N : forall a b, nle (Fin a) (Fin b) = true <-> a <= b).
  { intros a b. cbn [nle]. unfold Rleb. destruct (Rle_dec a b); split; intros; try reflexivity; try assumption; try discriminate; contradiction. }
  unfold between, nlog10. cbn [fst snd]. unfold Rltb. destruct (Rlt_dec 0 v); [|contradiction]. destruct (Rlt_dec 0 lo); [|contradiction]. destruct (Rlt_dec 0 hi); [|contradiction].
  rewrite !N, (M lo v L V), (M v hi V H). reflexivity.
Qed.

(** *** Limits *)
Section Limits.
Variables (lib : shape -> res unit) (tex : unit_ -> string).
(** What a histogram with logarithms draws for a number. *)
Definition drawn_as (d : string) (b : bool) (v : num) : num := if String.eqb d "hist" && b then nlog10 v else v.
Lemma drawn_between d b v lo hi : 0 < v -> 0 < lo -> 0 < hi ->
  (between (Fin v) (Fin lo, Fin hi) <-> between (drawn_as d b (Fin v)) (log_limits d (LBool b) (Fin lo, Fin hi))).
Proof.
  intros V L H. unfold drawn_as, log_limits. cbn [log_truth]. destruct (_ && _); cbn [fst snd]; [now apply log_between|reflexivity].
Qed.
Theorem limits_1D x w d b l kwargs s s' : known_1D d -> unit_on (x_axis (now s)) = None -> plot_1D_dist lib x w d (LBool b) l kwargs s = (s', Ok tt) ->
  exists sh drawn, shapes (now s') = shapes (now s) ++ [sh] /\ on_x sh = map drawn (nums x) /\
    asked (l_xlabel l) (label (x_axis (now s))) (label (x_axis (now s'))) /\ asked (l_ylabel l) (label (y_axis (now s))) (label (y_axis (now s'))) /\
    asked (l_ylim l) (limits (y_axis (now s))) (limits (y_axis (now s'))) /\
    match l_xlim l with
    | None => limits (x_axis (now s')) = limits (x_axis (now s))
    | Some (lo, hi) => exists lm, limits (x_axis (now s')) = Some lm /\
        forall v a z, lo = Fin a -> hi = Fin z -> 0 < v -> 0 < a -> 0 < z -> (between (Fin v) (lo, hi) <-> between (drawn (Fin v)) lm)
    end.
Proof.
  intros K U H. pose proof (effects_1D _ _ _ _ _ _ _ _ _ H) as (A1 & A2 & A3 & A4 & _). apply (drawn_1D _ _ _ _ _ _ _ _ _ K) in H.
  destruct H as (sh & ax & S & _ & _ & _ & H). exists sh, (drawn_as d b). split; [exact S|]. split.
  - unfold drawn_as. destruct (String.eqb d "hist").
    + unfold onto in H. rewrite U in H. cbn [log_truth andb] in *. destruct b; cbn [in_u nums] in H; [injection H as _ <-; reflexivity|]. rewrite map_id. destruct (in_u x); congruence.
    + cbn [andb]. rewrite map_id. apply H.
  - split; [exact A1|]. split; [exact A2|]. split; [exact A4|]. destruct (l_xlim l) as [[lo hi]|]; cbn [option_map asked] in A3; [|exact A3].
    exists (log_limits d (LBool b) (lo, hi)). split; [exact A3|]. intros v a z -> -> V A Z. now apply drawn_between.
Qed.
Theorem limits_2D x y w d lg z l kwargs s s' : plot_2D_dist lib x y w d lg z l kwargs s = (s', Ok tt) ->
  asked (l_xlabel l) (label (x_axis (now s))) (label (x_axis (now s'))) /\ asked (l_ylabel l) (label (y_axis (now s))) (label (y_axis (now s'))) /\
  asked (l_xlim l) (limits (x_axis (now s))) (limits (x_axis (now s'))) /\ asked (l_ylim l) (limits (y_axis (now s))) (limits (y_axis (now s'))).
Proof.
  intros H. apply effects_2D in H. destruct H as (A1 & A2 & A3 & A4 & _). split; [exact A1|]. split; [exact A2|]. split; [|exact A4]. destruct (l_xlim l); exact A3.
Qed.
(** The same through the collection. *)
Theorem limits_variable c k n sy v which ex b dt size l kwargs s s' : named k n sy -> variable_of c k v ->
  match dt with None => True | Some d => known_1D d end -> unit_on (x_axis (now s)) = None ->
  plot_source_variables lib tex c (Some k) None which ex (LBool b) dt size l kwargs s = (s', Ok tt) ->
  exists sh m xs drawn, shapes (now s') = shapes (now s) ++ [sh] /\ numbers_of v m xs /\ on_x sh = map drawn xs /\
    (forall t, l_xlabel l = Some t -> labelled (x_axis (now s')) t) /\ (forall t, l_ylabel l = Some t -> labelled (y_axis (now s')) t) /\
    asked (l_ylim l) (limits (y_axis (now s))) (limits (y_axis (now s'))) /\
    match l_xlim l with
    | None => limits (x_axis (now s')) = limits (x_axis (now s))
    | Some (lo, hi) => exists lm, limits (x_axis (now s')) = Some lm /\
        forall v a z, lo = Fin a -> hi = Fin z -> 0 < v -> 0 < a -> 0 < z -> (between (Fin v) (lo, hi) <-> between (drawn (Fin v)) lm)
    end.
Proof.
  intros N V D U H. eapply variables_1D_inv in H; [|exact N|exact V]. destruct H as (m & x & w & tx & ty & P1 & L & LY & H).
  assert (K : known_1D (match dt with Some d => d | None => "hist" end)) by (destruct dt; [exact D|now left]).
  apply (limits_1D _ _ _ _ _ _ _ _ K U) in H. destruct H as (sh & dr & S & X & A1 & A2 & A3 & A4). cbn [l_xlabel l_ylabel l_xlim l_ylim asked] in *.
  exists sh, m, (nums x), dr. split; [exact S|]. split; [exact (proj1 (pick_numbers _ _ _ P1))|]. split; [exact X|].
  split; [intros t E; rewrite E in L; injection L as ->; exact A1|]. split; [intros t E; rewrite E in LY; subst ty; exact A2|]. now split.
Qed.
Theorem limits_variables c k n sy v k' n' sy' v' which ex lg dt size l kwargs s s' : named k n sy -> variable_of c k v -> named k' n' sy' -> variable_of c k' v' ->
  plot_source_variables lib tex c (Some k) (Some k') which ex lg dt size l kwargs s = (s', Ok tt) ->
  (forall t, l_xlabel l = Some t -> labelled (x_axis (now s')) t) /\ (forall t, l_ylabel l = Some t -> labelled (y_axis (now s')) t) /\
  asked (l_xlim l) (limits (x_axis (now s))) (limits (x_axis (now s'))) /\ asked (l_ylim l) (limits (y_axis (now s))) (limits (y_axis (now s'))).
Proof.
  intros N V N' V' H. eapply variables_2D_inv in H; try eassumption. destruct H as (m & x & y & w & tx & ty & _ & _ & L & L' & H).
  apply limits_2D in H. cbn [l_xlabel l_ylabel l_xlim l_ylim] in H. destruct H as (A1 & A2 & A3 & A4). cbn [asked] in A1, A2.
  split; [intros t E; rewrite E in L; injection L as ->; exact A1|]. split; [intros t E; rewrite E in L'; injection L' as ->; exact A2|]. now split.
Qed.
End Limits.

(** *** Keyword arguments *)
Section Keywords.
Variables (lib : shape -> res unit) (auto_limits : picture -> num * num) (psd : qarr -> res qarr) (tex : unit_ -> string).
Theorem keywords_1D x w d lg l kwargs s s' : known_1D d -> dictionary kwargs -> plot_1D_dist lib x w d lg l kwargs s = (s', Ok tt) ->
  exists sh, shapes (now s') = shapes (now s) ++ [sh] /\ honours kwargs (documented_1D d) (options sh) /\
    get_kw "weights" (options sh) = Some (weights_obj w) /\ get_kw "color" (options sh) = Some (l_color l).
Proof.
  intros K D H. apply (drawn_1D _ _ _ _ _ _ _ _ _ K) in H. destruct H as (sh & ax & S & _ & _ & C & _). exists sh. split; [exact S|].
  split; [exact (options_honour _ _ _ _ D C)|]. apply call_ok in C. destruct C as (C & _). rewrite C. split; reflexivity.
Qed.
Theorem keywords_2D x y w d lg z l kwargs s s' : known_2D d -> dictionary kwargs -> plot_2D_dist lib x y w d lg z l kwargs s = (s', Ok tt) ->
  exists sh, shapes (now s') = shapes (now s) ++ [sh] /\ honours kwargs (documented_2D d) (options sh) /\ get_kw "color" (options sh) = Some (l_color l).
Proof.
  intros K D H. apply (drawn_2D _ _ _ _ _ _ _ _ _ _ _ K) in H. destruct H as (sh & ax & ay & ys & S & _ & _ & _ & _ & _ & C & _). exists sh. split; [exact S|].
  split; [exact (options_honour _ _ _ _ D C)|]. apply call_ok in C. destruct C as (C & _). rewrite C. unfold explicit_2D. destruct (String.eqb d "scatter"); reflexivity.
Qed.
Theorem keywords_variable c k n sy v which ex lg dt size l kwargs s s' : named k n sy -> variable_of c k v -> dictionary kwargs ->
  match dt with None => True | Some d => known_1D d end ->
  plot_source_variables lib tex c (Some k) None which ex lg dt size l kwargs s = (s', Ok tt) ->
  exists sh, shapes (now s') = shapes (now s) ++ [sh] /\ honours kwargs (documented_1D (match dt with Some d => d | None => "hist" end)) (options sh) /\
    get_kw "color" (options sh) = Some (l_color l).
Proof.
  intros N V D K H. eapply variables_1D_inv in H; [|exact N|exact V]. destruct H as (m & x & w & tx & ty & P1 & L & LY & H).
  apply keywords_1D in H; [|destruct dt; [exact K|now left]|exact D]. destruct H as (sh & S & O & _ & C). eauto.
Qed.
Theorem keywords_variables c k n sy v k' n' sy' v' which ex lg dt size l kwargs s s' : named k n sy -> variable_of c k v -> named k' n' sy' -> variable_of c k' v' ->
  dictionary kwargs -> match dt with None => True | Some d => known_2D d end ->
  plot_source_variables lib tex c (Some k) (Some k') which ex lg dt size l kwargs s = (s', Ok tt) ->
  exists sh, shapes (now s') = shapes (now s) ++ [sh] /\ honours kwargs (documented_2D (match dt with Some d => d | None => "scatter" end)) (options sh) /\
    get_kw "color" (options sh) = Some (l_color l).
Proof.
  intros N V N' V' D K H. eapply variables_2D_inv in H; try eassumption. destruct H as (m & x & y & w & tx & ty & _ & _ & L & L' & H).
  apply keywords_2D in H; [|destruct dt; [exact K|now left]|exact D]. exact H.
Qed.
Theorem keywords_sources f snr w cutoff q d lg z l kwargs s s' : (exists r, In r snr /\ ngt r cutoff = true) -> dictionary kwargs -> known_2D d ->
  plot_sources_on_sc lib auto_limits psd f snr w cutoff q OnSupplied d lg z l kwargs s = (s', Ok tt) ->
  exists sh, shapes (now s') = shapes (now s) ++ [sh] /\ honours kwargs (documented_2D d) (options sh) /\ get_kw "color" (options sh) = Some (l_color l).
Proof.
  intros (r & I & R) D K H. apply sources_parts in H; [|apply existsb_exists; exists true; split; [apply in_map_iff; eauto|reflexivity]].
  destruct H as (s1 & s2 & x & y & w' & -> & E & N & _). apply keywords_2D in E; [|exact K|exact D]. rewrite N. exact E.
Qed.

(** Keywords that the calls do not use themselves are no error. *)
Lemma call_free explicit kwargs defaults : dictionary kwargs -> free_of (map fst explicit) kwargs -> free_of (map fst explicit) defaults ->
  call explicit (update_kw kwargs defaults) = Ok (explicit ++ update_kw kwargs defaults).
Proof.
  intros D F G. unfold call. destruct (existsb _ _) eqn:X; [|reflexivity]. exfalso. apply existsb_exists in X. destruct X as ((k & v) & I & X). cbn [fst] in X.
  assert (K : In k (map fst explicit)).
  { destruct (get_kw k explicit) as [u|] eqn:E; [|discriminate]. apply get_in in E. change k with (fst (k, u)). now apply in_map. }
  assert (Z : get_kw k (update_kw kwargs defaults) = None) by (rewrite get_update by exact D; rewrite (F _ K); exact (G _ K)).
  clear - I Z. induction (update_kw kwargs defaults) as [|(k' & v') t IH]; [contradiction|]. cbn [get_kw] in Z. destruct (String.eqb k k') eqn:Q; [discriminate|].
  destruct I as [E|I]; [|exact (IH I Z)]. injection E as -> _. rewrite String.eqb_refl in Q. discriminate.
Qed.

Lemma free_defaults_1D d : free_of (own_1D d) (defaults_1D d).
Proof. intros k I. unfold own_1D, defaults_1D in *. destruct (String.eqb d "hist"), (String.eqb d "kde"); cbn in I; repeat (destruct I as [<-|I]; [reflexivity|]); contradiction. Qed.
Lemma free_defaults_2D d : free_of (own_2D d) (defaults_2D d).
Proof. intros k I. unfold own_2D, defaults_2D in *. destruct (String.eqb d "scatter"); cbn in I; repeat (destruct I as [<-|I]; [reflexivity|]); contradiction. Qed.
Lemma own_explicit_1D w d lg c : map fst (explicit_1D w d lg c) = own_1D d.
Proof. unfold explicit_1D, own_1D. destruct (String.eqb d "hist"); reflexivity. Qed.
Lemma own_explicit_2D w d lg z c : map fst (explicit_2D w d lg z c) = own_2D d.
Proof. unfold explicit_2D, own_2D. destruct (String.eqb d "scatter"); reflexivity. Qed.
Lemma refuses_bind {A} (m : P A) (k : A -> P unit) s : snd (pbind m k s) = Err TypeError ->
  snd (m s) = Err TypeError \/ exists a s1, m s = (s1, Ok a) /\ snd (k a s1) = Err TypeError.
Proof. unfold pbind. cbv zeta. destruct (m s) as [s1 [a|e]]; cbn [fst snd]; intros H; [right; eauto|left; injection H as ->; reflexivity]. Qed.
Lemma accepts_ax f x y ex xt s : (forall sh, lib sh <> Err TypeError) -> call ex xt = Ok (ex ++ xt) -> snd (ax_draw lib f x y ex xt s) <> Err TypeError.
Proof.
  intros L C. unfold ax_draw, pbind, plift. cbv zeta. rewrite C. cbn [snd fst].
  assert (O : forall a v, onto a v <> Err TypeError).
  { intros a v. unfold onto. destruct (in_u v), (unit_on a); try discriminate. destruct (dim_eqb _ _); discriminate. }
  destruct (onto (x_axis (now s)) x) as [[ax xs]|e] eqn:X; [|cbn; intros E; injection E as ->; exact (O _ _ X)].
  destruct y as [y|].
  - destruct (onto (y_axis (now s)) y) as [[ay ys]|e] eqn:Y; cbn [rbind fst snd]; [|intros E; injection E as ->; exact (O _ _ Y)].
    destruct (lib _) eqn:Z; cbn; [discriminate|]. intros E. injection E as ->. exact (L _ Z).
  - destruct (lib _) eqn:Z; cbn; [discriminate|]. intros E. injection E as ->. exact (L _ Z).
Qed.
Lemma accepts_sns f x y ex xt a b s : (forall sh, lib sh <> Err TypeError) -> call ex xt = Ok (ex ++ xt) -> snd (sns_draw lib f x y ex xt a b s) <> Err TypeError.
Proof.
  intros L C. unfold sns_draw, pbind, plift. cbv zeta. rewrite C. cbn [snd fst]. destruct (lib _) eqn:Z; cbn [snd fst].
  - destruct a, b; cbn; discriminate.
  - intros E. injection E as ->. exact (L _ Z).
Qed.
Theorem accepted_1D x w d lg l kwargs s : dictionary kwargs -> free_of (own_1D d) kwargs -> (forall sh, lib sh <> Err TypeError) ->
  snd (plot_1D_dist lib x w d lg l kwargs s) <> Err TypeError.
Proof.
  intros D F L. rewrite plot_1D_parts. intros H. apply refuses_bind in H. destruct H as [H|(a & s1 & _ & H)]; [|rewrite finish_eq in H; discriminate].
  assert (C : forall ex, map fst ex = own_1D d -> call ex (update_kw kwargs (defaults_1D d)) = Ok (ex ++ update_kw kwargs (defaults_1D d))).
  { intros ex E. apply call_free; [exact D| |]; rewrite E; [exact F|apply free_defaults_1D]. }
  revert H. unfold draw_1D. cbv zeta. unfold own_1D in C. destruct (String.eqb d "hist") eqn:Q; rewrite ?Q in C; [apply accepts_ax; [exact L|now apply C]|].
  destruct (String.eqb d "kde"); [apply accepts_sns; [exact L|now apply C]|]. destruct (String.eqb d "ecdf"); [apply accepts_sns; [exact L|now apply C]|discriminate].
Qed.
Theorem accepted_2D x y w d lg z l kwargs s : dictionary kwargs -> free_of (own_2D d) kwargs -> (forall sh, lib sh <> Err TypeError) ->
  snd (plot_2D_dist lib x y w d lg z l kwargs s) <> Err TypeError.
Proof.
  intros D F L. rewrite plot_2D_parts. intros H. apply refuses_bind in H. destruct H as [H|(a & s1 & _ & H)]; [|rewrite finish_eq in H; discriminate].
  assert (C : forall ex, map fst ex = own_2D d -> call ex (update_kw kwargs (defaults_2D d)) = Ok (ex ++ update_kw kwargs (defaults_2D d))).
  { intros ex E. apply call_free; [exact D| |]; rewrite E; [exact F|apply free_defaults_2D]. }
  revert H. unfold draw_2D. cbv zeta. unfold own_2D in C. destruct (String.eqb d "scatter") eqn:Q; rewrite ?Q in C.
  - intros H. apply refuses_bind in H. destruct H as [H|(a & s1 & _ & H)]; [revert H; apply accepts_ax; [exact L|now apply C]|].
    revert H. unfold pbind, on_x_axis, on_y_axis, change, pret. cbv zeta. destruct (fst (log_pair lg)), (snd (log_pair lg)); cbn; discriminate.
  - destruct (String.eqb d "kde"); [apply accepts_sns; [exact L|now apply C]|discriminate].
Qed.
(** A keyword that clashes is a TypeError and draws nothing. *)
Theorem clash_scatter x y w lg z l kwargs v s : dictionary kwargs -> get_kw "s" kwargs = Some v ->
  plot_2D_dist lib x y w "scatter" lg z l kwargs s = (s, Err TypeError).
Proof.
  intros D G. rewrite plot_2D_parts. unfold draw_2D, pbind, ax_draw. cbn [String.eqb Ascii.eqb Bool.eqb]. unfold pbind, plift.
  rewrite (call_clash _ _ "s" v (match w with None => ONum z | Some w => OArr (map (fun v => nmul v z) w) end)); [reflexivity| |reflexivity].
  rewrite get_update by exact D. now rewrite G.
Qed.
End Keywords.

(** *** Show *)
Definition quiet {A} (m : P A) : Prop := forall s, shown (fst (m s)) = shown s.
Lemma quiet_bind {A B} (m : P A) (k : A -> P B) : quiet m -> (forall a, quiet (k a)) -> quiet (pbind m k).
Proof. intros M K s. unfold pbind. cbv zeta. specialize (M s). destruct (m s) as [s1 [a|e]]; cbn [fst snd] in *; [rewrite K|]; exact M. Qed.
Lemma quiet_lift {A} (r : res A) : quiet (plift r).
Proof. intros s. reflexivity. Qed.
Lemma quiet_ret {A} (a : A) : quiet (pret a).
Proof. intros s. reflexivity. Qed.
Lemma quiet_change f : quiet (change f).
Proof. intros s. reflexivity. Qed.
Lemma quiet_given {A} (o : option A) f : (forall a, quiet (f a)) -> quiet (if_given o f).
Proof. intros F. destruct o; [apply F|apply quiet_ret]. Qed.
Lemma quiet_ax lib f x y ex xt : quiet (ax_draw lib f x y ex xt).
Proof.
  unfold ax_draw. apply quiet_bind; [apply quiet_lift|]. intros k s. destruct (onto _ x) as [[ax xs]|]; [|reflexivity].
  destruct (match y with None => _ | Some _ => _ end) as [[ay ys]|]; [|reflexivity]. cbv zeta. destruct (lib _); reflexivity.
Qed.
Lemma quiet_if {A} (b : bool) (m k : P A) : quiet m -> quiet k -> quiet (if b then m else k).
Proof. now destruct b. Qed.
Lemma quiet_sns lib f x y ex xt a b : quiet (sns_draw lib f x y ex xt a b).
Proof.
  unfold sns_draw. apply quiet_bind; [apply quiet_lift|]. intros k. cbv zeta. apply quiet_bind; [apply quiet_lift|]. intros _.
  apply quiet_bind; [apply quiet_if; [apply quiet_change|apply quiet_ret]|]. intros _.
  apply quiet_bind; [apply quiet_if; [apply quiet_change|apply quiet_ret]|]. intros _. apply quiet_change.
Qed.
(** Nothing is shown by a plot that raises: showing is the last step. *)
Definition silent_failure (m : P unit) : Prop := forall s s' e, m s = (s', Err e) -> shown s' = shown s.
Lemma silent_last {A} (m : P A) (k : A -> P unit) : quiet m -> (forall a, silent_failure (k a)) -> silent_failure (pbind m k).
Proof.
  intros M K s s' e. unfold pbind. cbv zeta. specialize (M s). destruct (m s) as [s1 [a|e']]; cbn [fst snd] in *; intros H.
  - apply K in H. congruence.
  - injection H as <- _. exact M.
Qed.
Lemma silent_show b : silent_failure (show_plot b).
Proof. intros s s' e. unfold show_plot, pret. destruct b; discriminate. Qed.
Ltac quietly := repeat first [apply quiet_ax | apply quiet_sns | apply quiet_ret | apply quiet_lift | apply quiet_change |
  apply quiet_given; intros ? | apply quiet_if | apply quiet_bind; [|intros ?]].
Lemma silent_finish l f : silent_failure (finish l f).
Proof.
  intros s s' e H. rewrite finish_eq in H. discriminate.
Qed.
Lemma silent_1D lib x w d lg l kwargs : silent_failure (plot_1D_dist lib x w d lg l kwargs).
Proof.
  intros s s' e. rewrite plot_1D_parts. apply silent_last; [|intros _; apply silent_finish]. unfold draw_1D. cbv zeta. quietly.
Qed.
Lemma silent_2D lib x y w d lg z l kwargs : silent_failure (plot_2D_dist lib x y w d lg z l kwargs).
Proof.
  intros s s' e. rewrite plot_2D_parts. apply silent_last; [|intros _; apply silent_finish]. unfold draw_2D. cbv zeta. quietly.
Qed.
Lemma silent_err e : silent_failure (plift (Err e)).
Proof. intros s s' e' H. now injection H as <- _. Qed.
Lemma silent_variables lib tex c xs ys which ex lg dt size l kwargs : silent_failure (plot_source_variables lib tex c xs ys which ex lg dt size l kwargs).
Proof.
  unfold plot_source_variables. cbv zeta. apply silent_last; [apply quiet_lift|]. intros m. destruct (negb _); [apply silent_err|].
  repeat (apply silent_last; [apply quiet_lift|]; intros ?). destruct a0 as [[? ?]|]; [|apply silent_1D]. apply silent_last; [apply quiet_lift|]. intros ?. apply silent_2D.
Qed.
Lemma silent_curve lib psd r q show fill : silent_failure (plot_sensitivity_curve lib psd r q show fill).
Proof.
  unfold plot_sensitivity_curve. cbv zeta. repeat (apply silent_last; [solve [quietly]|]; intros ?). apply silent_show.
Qed.
Lemma quiet_curve lib psd r q fill : quiet (plot_sensitivity_curve lib psd r q false fill).
Proof. unfold plot_sensitivity_curve, set_xlabel, set_ylabel, set_xlim. cbv zeta. quietly. Qed.
Lemma quiet_2D lib x y w d lg z l kwargs : l_show l = false -> quiet (plot_2D_dist lib x y w d lg z l kwargs).
Proof.
  intros L s. rewrite plot_2D_parts. revert s. apply (quiet_bind (draw_2D lib x y w d lg z (l_color l) kwargs)).
  - unfold draw_2D. cbv zeta. quietly.
  - intros _ s. rewrite finish_eq. cbv zeta. rewrite L. cbn. apply app_nil_r.
Qed.
Lemma silent_sources lib auto_limits psd f snr w cutoff q o d lg z l kwargs : silent_failure (plot_sources_on_sc lib auto_limits psd f snr w cutoff q o d lg z l kwargs).
Proof.
  unfold plot_sources_on_sc. apply silent_last; [destruct o; [apply quiet_curve|apply quiet_ret]|]. intros _. cbv zeta. destruct (negb _); [intros s s' e; discriminate|].
  do 5 (apply silent_last; [apply quiet_lift|]; intros ?). apply silent_last; [intros s; reflexivity|]. intros ?. apply silent_last; [apply quiet_lift|]. intros ?.
  apply silent_last; [now apply quiet_2D|]. intros _. apply silent_last; [apply quiet_change|]. intros _. apply silent_show.
Qed.

Theorem shown_1D lib x w d lg l kwargs s s' : plot_1D_dist lib x w d lg l kwargs s = (s', Ok tt) -> shown s' = shown s ++ (if l_show l then [now s'] else []).
Proof. intros H. apply effects_1D in H. apply H. Qed.
Theorem shown_2D lib x y w d lg z l kwargs s s' : plot_2D_dist lib x y w d lg z l kwargs s = (s', Ok tt) -> shown s' = shown s ++ (if l_show l then [now s'] else []).
Proof. intros H. apply effects_2D in H. apply H. Qed.
Theorem shown_variables lib tex c xs ys which ex lg dt size l kwargs s s' :
  plot_source_variables lib tex c xs ys which ex lg dt size l kwargs s = (s', Ok tt) -> shown s' = shown s ++ (if l_show l then [now s'] else []).
Proof.
  unfold plot_source_variables. cbv zeta. intros H. step H m s1 E1. destruct (negb _); [discriminate|]. step H xx s1 E2. step H yy s1 E3. step H tx s1 E4. step H ty s1 E5.
  step H w s1 E6. step H x s1 E7. destruct yy as [[? v]|]; [step H y s1 E8; apply shown_2D in H|apply shown_1D in H]; exact H.
Qed.
Theorem shown_curve lib psd r q show fill s s' : plot_sensitivity_curve lib psd r q show fill s = (s', Ok tt) -> shown s' = shown s ++ (if show then [now s'] else []).
Proof. intros E. apply curve_result in E. destruct E as (? & ? & ? & ? & ? & ? & ? & ? & _ & _ & _ & _ & _ & _ & _ & _ & E). exact E. Qed.
Theorem shown_sources lib auto_limits psd f snr w cutoff q o d lg z l kwargs s s' : (exists r, In r snr /\ ngt r cutoff = true) ->
  plot_sources_on_sc lib auto_limits psd f snr w cutoff q o d lg z l kwargs s = (s', Ok tt) -> shown s' = shown s ++ (if l_show l then [now s'] else []).
Proof.
  intros A H. destruct o; [now apply sources_new in H|]. apply sources_looks in H; [|exact A]. apply H.
Qed.

(** *** Witnesses *)
Lemma bind_lift {A B} (r : res A) (k : A -> P B) s a : r = Ok a -> pbind (plift r) k s = k a s.
Proof. intros ->. reflexivity. Qed.
Definition at_1_hertz : qarr := mkArr [Fin 1] (Some hertz).
Definition one_source (snr : R) (l : look) : P unit :=
  plot_sources_on_sc accepts_all (fun _ => (Fin 0, Fin 1)) flat_noise at_1_hertz [Fin snr] None (Fin 7) None OnSupplied "scatter" (LBool true) (Fin 20) l [].
Lemma one_source_runs l : exists s', one_source 8 l new_screen = (s', Ok tt).
Proof.
  unfold one_source, plot_sources_on_sc. unfold pbind at 1. cbn [pret snd fst map].
  assert (G : ngt (Fin 8) (Fin 7) = true) by (apply Rltb_true; lra). rewrite G. cbn [any existsb orb negb].
  rewrite (bind_lift _ _ _ at_1_hertz) by reflexivity. rewrite (bind_lift _ _ _ (mkArr [Fin 1] (Some (mkUnit 1 time_dim)))) by reflexivity.
  assert (Q : dim_eqb (u_dim (upow (mkUnit 1 time_dim) (1 / 2))) (u_dim (upow hertz (- (1 / 2)))) = true).
  { unfold dim_eqb, upow, hertz, dpow, dmap2, time_dim, frequency_dim. cbn. rewrite !andb_true_iff. repeat split; apply Reqb_true; lra. }
  unfold qto at 1. cbn [qsqrt in_u nums option_map]. rewrite Q. erewrite bind_lift by reflexivity. erewrite bind_lift by reflexivity. erewrite bind_lift by reflexivity.
  unfold pbind at 1. cbn [snd fst]. erewrite bind_lift by reflexivity.
  unfold pbind at 1. rewrite plot_2D_parts. unfold pbind at 1 3.
  unfold draw_2D. cbn [String.eqb Ascii.eqb Bool.eqb log_pair fst snd]. unfold pbind, ax_draw, plift. cbn.
  rewrite finish_eq. cbv zeta. cbn [snd fst]. unfold show_plot, pret. destruct (l_show l); eexists; reflexivity.
Qed.
Theorem ylim_ignored : exists l v s', l_ylim l = Some v /\ one_source 8 l new_screen = (s', Ok tt) /\ limits (y_axis (now s')) <> Some v.
Proof.
  set (l := mkLook true None None None (Some (Fin 2, Fin 3)) ONone). destruct (one_source_runs l) as (s' & H). exists l, (Fin 2, Fin 3), s'.
  split; [reflexivity|]. split; [exact H|]. apply sources_looks in H; [|exists (Fin 8); split; [now left|apply Rltb_true; lra]].
  destruct H as (_ & _ & _ & H & _). rewrite H. intros E. change (Some (Fin 0, Fin 1) = Some (Fin 2, Fin 3)) in E. injection E as E _. lra.
Qed.
Theorem unshown : exists s', one_source 6 default_look new_screen = (s', Ok tt) /\ l_show default_look = true /\ shown s' = [].
Proof.
  assert (G : ngt (Fin 6) (Fin 7) = false) by (apply Rltb_false; lra).
  exists new_screen. split; [|split; reflexivity]. unfold one_source, plot_sources_on_sc. unfold pbind at 1. cbn [pret snd fst map]. rewrite G. reflexivity.
Qed.
(** The cumulative proportion has the label of a density. *)
Theorem ecdf_label tex : exists s' sh, plot_source_variables accepts_all tex (one_pop (Fin 1) msun) (Some "m_1") None None true (LBool false) (Some "ecdf") (Fin 20) default_look [] new_screen = (s', Ok tt) /\
  shapes (now s') = [sh] /\ kind sh = "ecdfplot" /\ get_kw "stat" (options sh) = Some (OStr "proportion") /\ labelled (y_axis (now s')) "$\mathrm{d}N/\mathrm{d}$$m_1$".
Proof.
  eexists _, _. split; [cbv -[msun String.append]; reflexivity|]. split; [reflexivity|]. repeat split.
Qed.
Theorem accepted_both lib : (forall sh, lib sh <> Err TypeError) ->
  (forall x w d lg l kwargs s, dictionary kwargs -> free_of (own_1D d) kwargs -> snd (plot_1D_dist lib x w d lg l kwargs s) <> Err TypeError) /\
  (forall x y w d lg z l kwargs s, dictionary kwargs -> free_of (own_2D d) kwargs -> snd (plot_2D_dist lib x y w d lg z l kwargs s) <> Err TypeError).
Proof. intros L. split; intros; [now apply accepted_1D|now apply accepted_2D]. Qed.
Theorem shown_all lib tex psd :
  (forall x w d lg l kwargs s s', plot_1D_dist lib x w d lg l kwargs s = (s', Ok tt) -> shown s' = shown s ++ (if l_show l then [now s'] else [])) /\
  (forall x y w d lg z l kwargs s s', plot_2D_dist lib x y w d lg z l kwargs s = (s', Ok tt) -> shown s' = shown s ++ (if l_show l then [now s'] else [])) /\
  (forall c xs ys which ex lg dt size l kwargs s s', plot_source_variables lib tex c xs ys which ex lg dt size l kwargs s = (s', Ok tt) ->
     shown s' = shown s ++ (if l_show l then [now s'] else [])) /\
  (forall r q show fill s s', plot_sensitivity_curve lib psd r q show fill s = (s', Ok tt) -> shown s' = shown s ++ (if show then [now s'] else [])).
Proof. split; [intros *; apply shown_1D|]. split; [intros *; apply shown_2D|]. split; [intros *; apply shown_variables|intros *; apply shown_curve]. Qed.
Theorem silent_all lib tex auto_limits psd s s' e :
  (forall x w d lg l kwargs, plot_1D_dist lib x w d lg l kwargs s = (s', Err e) -> shown s' = shown s) /\
  (forall x y w d lg z l kwargs, plot_2D_dist lib x y w d lg z l kwargs s = (s', Err e) -> shown s' = shown s) /\
  (forall c xs ys which ex lg dt size l kwargs, plot_source_variables lib tex c xs ys which ex lg dt size l kwargs s = (s', Err e) -> shown s' = shown s) /\
  (forall r q show fill, plot_sensitivity_curve lib psd r q show fill s = (s', Err e) -> shown s' = shown s) /\
  (forall f snr w cutoff q o d lg z l kwargs, plot_sources_on_sc lib auto_limits psd f snr w cutoff q o d lg z l kwargs s = (s', Err e) -> shown s' = shown s).
Proof.
  repeat split; intros *; [apply silent_1D|apply silent_2D|apply silent_variables|apply silent_curve|apply silent_sources].
Qed.
