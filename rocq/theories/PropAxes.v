(** PropAxes.v -- C101-C104: labels, limits, keyword arguments and display of plots. *)
From Coq Require Import String Reals ZArith List Bool Lra.
From Verif Require Import Num Np Utils Strain Evol Interp Source Units VisAxes VisAxesSpec VisAxesThms.
Import ListNotations.
Open Scope string_scope.
Open Scope list_scope.
Open Scope R_scope.

(** ** C101: axis labels state the unit of the numbers on the axis *)
(** One variable on new axes: the numbers drawn are those of the variable in its unit, or their logarithms, and the label says so. *)
Theorem C101_one_variable : forall lib tex c k n sy v u which ex b dt size l kwargs s s', named k n sy -> variable_of c k v -> in_u v = Some u ->
  match dt with None => True | Some d => known_1D d end -> l_xlabel l = None -> now s = blank ->
  plot_source_variables lib tex c (Some k) None which ex (LBool b) dt size l kwargs s = (s', Ok tt) ->
  exists sh m xs txt, shapes (now s') = [sh] /\ numbers_of v m xs /\ labelled (x_axis (now s')) txt /\
    if (b && hist_type dt)%bool then on_x sh = map nlog10 xs /\ says tex k u true txt /\ log_axis (x_axis (now s')) = false
    else on_x sh = xs /\ says tex k u false txt /\ counts_in (x_axis (now s')) u /\ log_axis (x_axis (now s')) = b.
Proof. exact @label_1D. Qed.
Print Assumptions C101_one_variable.
(** Two variables on new axes. *)
Theorem C101_two_variables : forall lib tex c k n sy v u k' n' sy' v' u' which ex lg dt size l kwargs s s', named k n sy -> variable_of c k v -> in_u v = Some u ->
  named k' n' sy' -> variable_of c k' v' -> in_u v' = Some u' ->
  match dt with None => True | Some d => known_2D d end -> l_xlabel l = None -> l_ylabel l = None -> now s = blank ->
  plot_source_variables lib tex c (Some k) (Some k') which ex lg dt size l kwargs s = (s', Ok tt) ->
  exists sh m xs ys tx ty, shapes (now s') = [sh] /\ numbers_of v m xs /\ numbers_of v' m ys /\ on_x sh = xs /\ on_y sh = Some ys /\
    labelled (x_axis (now s')) tx /\ says tex k u false tx /\ counts_in (x_axis (now s')) u /\
    labelled (y_axis (now s')) ty /\ says tex k' u' false ty /\ counts_in (y_axis (now s')) u' /\
    log_axis (x_axis (now s')) = fst (log_pair lg) /\ log_axis (y_axis (now s')) = snd (log_pair lg).
Proof. exact @label_2D. Qed.
Print Assumptions C101_two_variables.
(** The sensitivity curve, if its frequencies are in hertz and the noise per hertz. *)
Theorem C101_sensitivity_curve : forall lib psd r q show fill s s' p, now s = blank -> in_u (curve_range r) = Some hertz -> psd (curve_range r) = Ok p -> in_u p = Some per_hertz ->
  plot_sensitivity_curve lib psd r q show fill s = (s', Ok tt) ->
  exists xs ys k u, In (mkShape "loglog" xs (Some ys) k) (shapes (now s')) /\
    xs = nums (curve_range r) /\ unit_on (x_axis (now s')) = Some hertz /\ labelled (x_axis (now s')) "Frequency [$\rm Hz$]" /\
    unit_on (y_axis (now s')) = Some u /\ u_size u = 1 /\
    ((q = "ASD" /\ u_dim u = dpow frequency_dim (- (1 / 2)) /\ labelled (y_axis (now s')) "ASD $[\rm Hz^{-1/2}]$") \/
     (q = "h_c" /\ u_dim u = dimensionless /\ labelled (y_axis (now s')) "Characteristic Strain")).
Proof. exact @curve_labels. Qed.
Print Assumptions C101_sensitivity_curve.
(** A range in mHz: the axis counts in mHz and says Hz. *)
Theorem C101_frequency_unit_refuted : exists s xs ys k,
  plot_sensitivity_curve accepts_all flat_noise (Some (mkArr [Fin 1; Fin 10] (Some mHz))) "ASD" true false new_screen = (s, Ok tt) /\
  In (mkShape "loglog" xs (Some ys) k) (shapes (now s)) /\ xs = [Fin 1; Fin 10] /\ unit_on (x_axis (now s)) = Some mHz /\
  labelled (x_axis (now s)) "Frequency [$\rm Hz$]".
Proof. exact @curve_millihertz. Qed.
Print Assumptions C101_frequency_unit_refuted.
(** A second histogram, in kg, on the axes of one in solar masses: the numbers are solar masses, the label says kg. *)
Theorem C101_second_plot_refuted : forall tex, exists s1 s2 sh1 sh2 txt, hist_m_1 tex (Fin 1) msun new_screen = (s1, Ok tt) /\ hist_m_1 tex (Fin 1) kg s1 = (s2, Ok tt) /\
  shapes (now s2) = [sh1; sh2] /\ labelled (x_axis (now s2)) txt /\ says tex "m_1" kg false txt /\ on_x sh1 = [Fin 1] /\ on_x sh2 <> [Fin 1].
Proof. exact @second_plot. Qed.
Print Assumptions C101_second_plot_refuted.

(** A cumulative proportion has the label of a density. *)
Theorem C101_ecdf_refuted : forall tex, exists s' sh,
  plot_source_variables accepts_all tex (one_pop (Fin 1) msun) (Some "m_1") None None true (LBool false) (Some "ecdf") (Fin 20) default_look [] new_screen = (s', Ok tt) /\
  shapes (now s') = [sh] /\ kind sh = "ecdfplot" /\ get_kw "stat" (options sh) = Some (OStr "proportion") /\ labelled (y_axis (now s')) "$\mathrm{d}N/\mathrm{d}$$m_1$".
Proof. exact @ecdf_label. Qed.
Print Assumptions C101_ecdf_refuted.

(** A collection of two sources, the second merged. *)
Definition two : pop := mkPop (mkArr [Fin 10; Fin 1] (Some msun)) (mkArr [Fin 2; Fin 3] (Some msun)) (mkArr [Fin 4; Fin 5] (Some msun)) [Fin 0; Fin 0]
  (mkArr [Fin 8; Fin 9] (Some (mkUnit 2 length_dim))) (mkArr [Fin 6; Fin 7] (Some hertz)) (mkArr [Fin 6; Fin 7] (Some (mkUnit 1 length_dim))) (Some [Fin 7; Fin 8]) None [false; true].
Definition some_look : look := mkLook true None (Some "N") (Some (Fin 1, Fin 100)) (Some (Fin 0, Fin 5)) (OStr "red").
Example C101_satisfiable : forall tex, exists s', plot_source_variables accepts_all tex two (Some "m_1") None None true (LBool true) None (Fin 20) some_look [("bins", ONum (Fin 3))] new_screen = (s', Ok tt) /\
  now new_screen = blank /\ named "m_1" "Primary Mass" "$m_1$" /\ variable_of two "m_1" (p_m_1 two) /\ in_u (p_m_1 two) = Some msun.
Proof. intros tex. eexists. split; [cbv -[nlog10 msun hertz String.append length_dim]; reflexivity|]. split; [reflexivity|]. split; [constructor|]. split; [constructor|reflexivity]. Qed.

(** ** C102: labels and limits asked for are in force *)
(** One distribution: what is asked for is in force, what is not is left alone; a number is between the x limits asked for exactly if what is drawn for it is between those of the axis, also if logarithms are drawn. *)
Theorem C102_distribution : forall lib x w d b l kwargs s s', known_1D d -> unit_on (x_axis (now s)) = None -> plot_1D_dist lib x w d (LBool b) l kwargs s = (s', Ok tt) ->
  exists sh drawn, shapes (now s') = shapes (now s) ++ [sh] /\ on_x sh = map drawn (nums x) /\
    asked (l_xlabel l) (label (x_axis (now s))) (label (x_axis (now s'))) /\ asked (l_ylabel l) (label (y_axis (now s))) (label (y_axis (now s'))) /\
    asked (l_ylim l) (limits (y_axis (now s))) (limits (y_axis (now s'))) /\
    match l_xlim l with
    | None => limits (x_axis (now s')) = limits (x_axis (now s))
    | Some (lo, hi) => exists lm, limits (x_axis (now s')) = Some lm /\
        forall v a z, lo = Fin a -> hi = Fin z -> 0 < v -> 0 < a -> 0 < z -> (between (Fin v) (lo, hi) <-> between (drawn (Fin v)) lm)
    end.
Proof. exact @limits_1D. Qed.
Print Assumptions C102_distribution.
(** Two-dimensional distributions. *)
Theorem C102_two_dimensions : forall lib x y w d lg z l kwargs s s', plot_2D_dist lib x y w d lg z l kwargs s = (s', Ok tt) ->
  asked (l_xlabel l) (label (x_axis (now s))) (label (x_axis (now s'))) /\ asked (l_ylabel l) (label (y_axis (now s))) (label (y_axis (now s'))) /\
  asked (l_xlim l) (limits (x_axis (now s))) (limits (x_axis (now s'))) /\ asked (l_ylim l) (limits (y_axis (now s))) (limits (y_axis (now s'))).
Proof. exact @limits_2D. Qed.
Print Assumptions C102_two_dimensions.
(** One variable of a collection. *)
Theorem C102_one_variable : forall lib tex c k n sy v which ex b dt size l kwargs s s', named k n sy -> variable_of c k v ->
  match dt with None => True | Some d => known_1D d end -> unit_on (x_axis (now s)) = None ->
  plot_source_variables lib tex c (Some k) None which ex (LBool b) dt size l kwargs s = (s', Ok tt) ->
  exists sh m xs drawn, shapes (now s') = shapes (now s) ++ [sh] /\ numbers_of v m xs /\ on_x sh = map drawn xs /\
    (forall t, l_xlabel l = Some t -> labelled (x_axis (now s')) t) /\ (forall t, l_ylabel l = Some t -> labelled (y_axis (now s')) t) /\
    asked (l_ylim l) (limits (y_axis (now s))) (limits (y_axis (now s'))) /\
    match l_xlim l with
    | None => limits (x_axis (now s')) = limits (x_axis (now s))
    | Some (lo, hi) => exists lm, limits (x_axis (now s')) = Some lm /\
        forall v a z, lo = Fin a -> hi = Fin z -> 0 < v -> 0 < a -> 0 < z -> (between (Fin v) (lo, hi) <-> between (drawn (Fin v)) lm)
    end.
Proof. exact @limits_variable. Qed.
Print Assumptions C102_one_variable.
(** Two variables of a collection. *)
Theorem C102_two_variables : forall lib tex c k n sy v k' n' sy' v' which ex lg dt size l kwargs s s',
  named k n sy -> variable_of c k v -> named k' n' sy' -> variable_of c k' v' ->
  plot_source_variables lib tex c (Some k) (Some k') which ex lg dt size l kwargs s = (s', Ok tt) ->
  (forall t, l_xlabel l = Some t -> labelled (x_axis (now s')) t) /\ (forall t, l_ylabel l = Some t -> labelled (y_axis (now s')) t) /\
  asked (l_xlim l) (limits (x_axis (now s))) (limits (x_axis (now s'))) /\ asked (l_ylim l) (limits (y_axis (now s))) (limits (y_axis (now s'))).
Proof. exact @limits_variables. Qed.
Print Assumptions C102_two_variables.
(** Sources on a sensitivity curve: labels and x limits; the y limits from before stay in force, whatever is asked for. *)
Theorem C102_sources : forall lib auto_limits psd f snr w cutoff q d lg z l kwargs s s', (exists r, In r snr /\ ngt r cutoff = true) ->
  plot_sources_on_sc lib auto_limits psd f snr w cutoff q OnSupplied d lg z l kwargs s = (s', Ok tt) ->
  asked (l_xlabel l) (label (x_axis (now s))) (label (x_axis (now s'))) /\ asked (l_ylabel l) (label (y_axis (now s))) (label (y_axis (now s'))) /\
  asked (l_xlim l) (limits (x_axis (now s))) (limits (x_axis (now s'))) /\ limits (y_axis (now s')) = Some (limits_now auto_limits (now s)) /\
  shown s' = shown s ++ (if l_show l then [now s'] else []).
Proof. exact @sources_looks. Qed.
Print Assumptions C102_sources.
(** So y limits asked for are ignored there. *)
Theorem C102_ylim_refuted : exists l v s', l_ylim l = Some v /\ one_source 8 l new_screen = (s', Ok tt) /\ limits (y_axis (now s')) <> Some v.
Proof. exact @ylim_ignored. Qed.
Print Assumptions C102_ylim_refuted.
Example C102_satisfiable : exists s', plot_1D_dist accepts_all (p_m_1 two) None "hist" (LBool true) some_look [] new_screen = (s', Ok tt) /\
  limits (x_axis (now s')) = Some (nlog10 (Fin 1), nlog10 (Fin 100)) /\ between (Fin 10) (Fin 1, Fin 100) /\ ~ between (Fin 1000) (Fin 1, Fin 100).
Proof.
  eexists. split; [cbv -[nlog10 msun]; reflexivity|]. split; [reflexivity|]. unfold between. cbn [fst snd nle]. unfold Rleb.
  destruct (Rle_dec 1 10), (Rle_dec 10 100), (Rle_dec 1 1000), (Rle_dec 1000 100); try (exfalso; lra). split; [now split|]. intros (_ & E). discriminate E.
Qed.

(** ** C103: keyword arguments reach the drawing function and override the defaults *)
Theorem C103_distribution : forall lib x w d lg l kwargs s s', known_1D d -> dictionary kwargs -> plot_1D_dist lib x w d lg l kwargs s = (s', Ok tt) ->
  exists sh, shapes (now s') = shapes (now s) ++ [sh] /\ honours kwargs (documented_1D d) (options sh) /\
    get_kw "weights" (options sh) = Some (weights_obj w) /\ get_kw "color" (options sh) = Some (l_color l).
Proof. exact @keywords_1D. Qed.
Print Assumptions C103_distribution.
Theorem C103_two_dimensions : forall lib x y w d lg z l kwargs s s', known_2D d -> dictionary kwargs -> plot_2D_dist lib x y w d lg z l kwargs s = (s', Ok tt) ->
  exists sh, shapes (now s') = shapes (now s) ++ [sh] /\ honours kwargs (documented_2D d) (options sh) /\ get_kw "color" (options sh) = Some (l_color l).
Proof. exact @keywords_2D. Qed.
Print Assumptions C103_two_dimensions.
Theorem C103_one_variable : forall lib tex c k n sy v which ex lg dt size l kwargs s s', named k n sy -> variable_of c k v -> dictionary kwargs ->
  match dt with None => True | Some d => known_1D d end ->
  plot_source_variables lib tex c (Some k) None which ex lg dt size l kwargs s = (s', Ok tt) ->
  exists sh, shapes (now s') = shapes (now s) ++ [sh] /\ honours kwargs (documented_1D (match dt with Some d => d | None => "hist" end)) (options sh) /\
    get_kw "color" (options sh) = Some (l_color l).
Proof. exact @keywords_variable. Qed.
Print Assumptions C103_one_variable.
Theorem C103_two_variables : forall lib tex c k n sy v k' n' sy' v' which ex lg dt size l kwargs s s',
  named k n sy -> variable_of c k v -> named k' n' sy' -> variable_of c k' v' ->
  dictionary kwargs -> match dt with None => True | Some d => known_2D d end ->
  plot_source_variables lib tex c (Some k) (Some k') which ex lg dt size l kwargs s = (s', Ok tt) ->
  exists sh, shapes (now s') = shapes (now s) ++ [sh] /\ honours kwargs (documented_2D (match dt with Some d => d | None => "scatter" end)) (options sh) /\
    get_kw "color" (options sh) = Some (l_color l).
Proof. exact @keywords_variables. Qed.
Print Assumptions C103_two_variables.
Theorem C103_sources : forall lib auto_limits psd f snr w cutoff q d lg z l kwargs s s', (exists r, In r snr /\ ngt r cutoff = true) -> dictionary kwargs -> known_2D d ->
  plot_sources_on_sc lib auto_limits psd f snr w cutoff q OnSupplied d lg z l kwargs s = (s', Ok tt) ->
  exists sh, shapes (now s') = shapes (now s) ++ [sh] /\ honours kwargs (documented_2D d) (options sh) /\ get_kw "color" (options sh) = Some (l_color l).
Proof. exact @keywords_sources. Qed.
Print Assumptions C103_sources.
(** Keywords other than those that the plot passes itself are never a TypeError of LEGWORK's. *)
Theorem C103_accepted : forall lib, (forall sh, lib sh <> Err TypeError) ->
  (forall x w d lg l kwargs s, dictionary kwargs -> free_of (own_1D d) kwargs -> snd (plot_1D_dist lib x w d lg l kwargs s) <> Err TypeError) /\
  (forall x y w d lg z l kwargs s, dictionary kwargs -> free_of (own_2D d) kwargs -> snd (plot_2D_dist lib x y w d lg z l kwargs s) <> Err TypeError).
Proof. exact @accepted_both. Qed.
Print Assumptions C103_accepted.
(** But the documented keyword [s] of scatter plots always is one, and nothing is drawn. *)
Theorem C103_scatter_s_refuted : forall lib x y w lg z l kwargs v s, dictionary kwargs -> get_kw "s" kwargs = Some v ->
  plot_2D_dist lib x y w "scatter" lg z l kwargs s = (s, Err TypeError).
Proof. exact @clash_scatter. Qed.
Print Assumptions C103_scatter_s_refuted.
Example C103_satisfiable : let kwargs := [("bins", ONum (Fin 3)); ("label", OStr "mine")] in dictionary kwargs /\ free_of (own_1D "hist") kwargs /\
  (exists s', plot_1D_dist accepts_all (p_m_1 two) None "hist" (LBool true) some_look kwargs new_screen = (s', Ok tt)) /\
  dictionary [("s", ONum (Fin 5))] /\ get_kw "s" [("s", ONum (Fin 5))] = Some (ONum (Fin 5)).
Proof.
  cbv zeta. split; [repeat constructor; cbn; intuition discriminate|]. split; [intros k I; cbn in I; repeat (destruct I as [<-|I]; [reflexivity|]); contradiction|].
  split; [eexists; cbv -[nlog10 msun]; reflexivity|]. split; [repeat constructor; intros []|reflexivity].
Qed.

(** ** C104: a plot is shown once, complete, if asked for *)
Theorem C104_shown : forall lib tex psd,
  (forall x w d lg l kwargs s s', plot_1D_dist lib x w d lg l kwargs s = (s', Ok tt) -> shown s' = shown s ++ (if l_show l then [now s'] else [])) /\
  (forall x y w d lg z l kwargs s s', plot_2D_dist lib x y w d lg z l kwargs s = (s', Ok tt) -> shown s' = shown s ++ (if l_show l then [now s'] else [])) /\
  (forall c xs ys which ex lg dt size l kwargs s s', plot_source_variables lib tex c xs ys which ex lg dt size l kwargs s = (s', Ok tt) ->
     shown s' = shown s ++ (if l_show l then [now s'] else [])) /\
  (forall r q show fill s s', plot_sensitivity_curve lib psd r q show fill s = (s', Ok tt) -> shown s' = shown s ++ (if show then [now s'] else [])).
Proof. exact @shown_all. Qed.
Print Assumptions C104_shown.
(** Sources on a sensitivity curve, if one is above the cutoff. *)
Theorem C104_sources : forall lib auto_limits psd f snr w cutoff q o d lg z l kwargs s s', (exists r, In r snr /\ ngt r cutoff = true) ->
  plot_sources_on_sc lib auto_limits psd f snr w cutoff q o d lg z l kwargs s = (s', Ok tt) -> shown s' = shown s ++ (if l_show l then [now s'] else []).
Proof. exact @shown_sources. Qed.
Print Assumptions C104_sources.
(** If none is, the curve is drawn and never shown. *)
Theorem C104_nothing_detectable : forall lib auto_limits psd f snr w cutoff q o d lg z l kwargs s s', (forall r, In r snr -> ngt r cutoff = false) ->
  plot_sources_on_sc lib auto_limits psd f snr w cutoff q o d lg z l kwargs s = (s', Ok tt) -> shown s' = shown s.
Proof. exact @sources_unshown. Qed.
Print Assumptions C104_nothing_detectable.
Theorem C104_nothing_detectable_refuted : exists s', one_source 6 default_look new_screen = (s', Ok tt) /\ l_show default_look = true /\ shown s' = [].
Proof. exact @unshown. Qed.
Print Assumptions C104_nothing_detectable_refuted.
(** A plot that raises is not shown. *)
Theorem C104_errors : forall lib tex auto_limits psd s s' e,
  (forall x w d lg l kwargs, plot_1D_dist lib x w d lg l kwargs s = (s', Err e) -> shown s' = shown s) /\
  (forall x y w d lg z l kwargs, plot_2D_dist lib x y w d lg z l kwargs s = (s', Err e) -> shown s' = shown s) /\
  (forall c xs ys which ex lg dt size l kwargs, plot_source_variables lib tex c xs ys which ex lg dt size l kwargs s = (s', Err e) -> shown s' = shown s) /\
  (forall r q show fill, plot_sensitivity_curve lib psd r q show fill s = (s', Err e) -> shown s' = shown s) /\
  (forall f snr w cutoff q o d lg z l kwargs, plot_sources_on_sc lib auto_limits psd f snr w cutoff q o d lg z l kwargs s = (s', Err e) -> shown s' = shown s).
Proof. exact @silent_all. Qed.
Print Assumptions C104_errors.
Example C104_satisfiable : (exists s', one_source 8 default_look new_screen = (s', Ok tt) /\ shown s' = [now s']) /\
  (exists s' e, plot_sensitivity_curve accepts_all flat_noise None "loudness" true false new_screen = (s', Err e)).
Proof.
  split; [|eexists _, _; reflexivity]. destruct (one_source_runs default_look) as (s' & H). exists s'. split; [exact H|].
  apply shown_sources in H; [exact H|]. exists (Fin 8). split; [now left|]. cbn. unfold Rltb. destruct (Rlt_dec 7 8); [reflexivity|lra].
Qed.
