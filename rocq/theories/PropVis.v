(** PropVis.v -- C70, C71, C89: plots. *)
From Coq Require Import String Reals ZArith List Lra Lia Bool.
From Verif Require Import Num Np Utils Strain Psd PsdSpec Snr Evol Harmonics ScParams Source SourceSpec CurveSpec MethodSpec Toy Toy2 Vis VisSpec VisFacts ToyVis.
Import ListNotations.
Open Scope R_scope.

(** ** C70: points on a sensitivity curve *)
(** The samples above the cutoff, and only they, are drawn: at their frequency, SNR times the plotted amplitude high, with their weights; on new axes below them the curve itself. *)
Theorem C70_points_on_curve : forall X (xs : list X) (f snr w : X -> num) o x d p cutoff v dt size ax,
  exact_curve x d p -> known_quantity v -> known_type dt -> (ax <> Supplied -> frequencies v <> []) -> optional o w xs ->
  (forall a, In a xs -> above cutoff (snr a) -> good_noise p (f a)) -> (exists a, In a xs /\ above cutoff (snr a)) ->
  exists ys, those (fun a => above cutoff (snr a)) xs ys /\
    plot_sources_on_sc x d (map f xs) (map snr xs) o cutoff v dt size ax =
    (curve_if_new ax v p ++ [points dt size (map f ys) (map (fun a => nmul (snr a) (amplitude v p (f a))) ys) (weights_of o w ys)], Ok (used_axes ax))%list.
Proof. exact @points_thm. Qed.
Print Assumptions C70_points_on_curve.
(** If none is above the cutoff, no points are drawn and this is reported. *)
Theorem C70_nothing_detectable : forall X (xs : list X) (f snr : X -> num) o x d p cutoff v dt size ax,
  exact_curve x d p -> known_quantity v -> (ax <> Supplied -> frequencies v <> []) -> (forall a, In a xs -> ~ above cutoff (snr a)) ->
  plot_sources_on_sc x d (map f xs) (map snr xs) o cutoff v dt size ax = (curve_if_new ax v p ++ [Logged NoBinaries], Ok (used_axes ax))%list.
Proof. exact @nothing_thm. Qed.
Print Assumptions C70_nothing_detectable.
(** The sensitivity curve is the amplitude at the frequencies asked for. *)
Theorem C70_curve : forall x d p v ax,
  exact_curve x d p -> known_quantity v -> frequencies v <> [] ->
  plot_sensitivity_curve x d v ax = (curve_marks v p, Ok (used_axes ax)).
Proof. exact @curve_thm. Qed.
Print Assumptions C70_curve.
(** The method of a collection: the detectable stationary sources that have not merged, at the frequency of their loudest harmonic. *)
Theorem C70_collection : forall s xs x p cutoff v dt size ax t tol,
  collection s xs -> s_snr s = Some (map r_snr xs) -> s_max_snr_harmonic s = Some (map r_msh xs) -> h_ecc_tol (s_harm s) = Some tol -> mask_time s PNil t ->
  exact_curve x (s_params s) p -> known_quantity v -> known_type dt -> (ax <> Supplied -> frequencies v <> []) ->
  (forall r, In r xs -> plotted s t cutoff r -> good_noise p (dominant r)) -> (exists r, In r xs /\ plotted s t cutoff r) ->
  exists ys warnings, those (plotted s t cutoff) xs ys /\ source_plot x cutoff v dt size ax s =
    (curve_if_new ax v p ++ [points dt size (map dominant ys) (map (fun r => nmul (r_snr r) (amplitude v p (dominant r))) ys) (weights_of (s_weights s) r_w ys)]
     ++ map Logged warnings, Ok (used_axes ax))%list.
Proof. exact @collection_points. Qed.
Print Assumptions C70_collection.
(** Without SNRs nothing is drawn. *)
Theorem C70_no_snr : forall x cutoff v dt size ax s,
  s_snr s = None -> source_plot x cutoff v dt size ax s = ([Logged NoSnr], Ok Neither).
Proof. exact @no_snr_thm. Qed.
Print Assumptions C70_no_snr.
Example C70_satisfiable : exists tol, let xs := [loud 1e30 1e-3 0 9; loud 1e36 1 0 9] in
  collection (seen xs) xs /\ s_snr (seen xs) = Some (map r_snr xs) /\ s_max_snr_harmonic (seen xs) = Some (map r_msh xs) /\ h_ecc_tol (s_harm (seen xs)) = Some tol /\
  mask_time (seen xs) PNil toy_time /\ exact_curve x_toy (s_params (seen xs)) (fun _ => Fin 1) /\ known_quantity h_c_settings /\ known_type "scatter" /\
  frequencies h_c_settings <> [] /\ (forall r, In r xs -> plotted (seen xs) toy_time (Fin 7) r -> good_noise (fun _ => Fin 1) (dominant r)) /\
  exists r, In r xs /\ plotted (seen xs) toy_time (Fin 7) r.
Proof.
  destruct toy_tolerance as (tol & TT & B). exists (Fin tol). cbv zeta. split; [apply seen_collection|]. do 2 (split; [reflexivity|]). split; [exact TT|]. split; [apply seen_time|].
  split; [exact unit_curve|]. split; [right; reflexivity|]. split; [left; reflexivity|]. split; [discriminate|].
  split; [apply shown_rows; intros r0 [<-|[<-|[]]]; [now left|right; now exists 0]|]. exists (loud 1e30 1e-3 0 9). split; [now left|].
  split; [apply light_stationary; reflexivity|]. split; [exact loud_above|reflexivity].
Qed.

(** ** C71: sources that can not be plotted *)
(** Detectable circular sources that evolve are counted right in one warning about circular sources; the number in the warning about eccentric sources is the same one. *)
Theorem C71_circular_partial : forall s xs x p cutoff v dt size ax t tol,
  collection s xs -> s_snr s = Some (map r_snr xs) -> s_max_snr_harmonic s = Some (map r_msh xs) -> h_ecc_tol (s_harm s) = Some tol -> mask_time s PNil t ->
  exact_curve x (s_params s) p -> known_quantity v -> known_type dt -> (ax <> Supplied -> frequencies v <> []) ->
  (forall r, In r xs -> plotted s t cutoff r -> good_noise p (dominant r)) ->
  exists zs, those (circular_unplotted s t cutoff) xs zs /\
    filter about_circular (reports (fst (source_plot x cutoff v dt size ax s))) = warned CircularEvolving zs /\
    filter about_eccentric (reports (fst (source_plot x cutoff v dt size ax s))) = warned EccentricEvolving zs.
Proof. exact @warnings_thm. Qed.
Print Assumptions C71_circular_partial.
(** So an eccentric source that evolves is neither drawn nor reported, *)
Theorem C71_eccentric_never_reported_refuted : exists s xs r t cutoff v dt size ax p,
  collection s xs /\ s_snr s = Some (map r_snr xs) /\ s_max_snr_harmonic s = Some (map r_msh xs) /\ mask_time s PNil t /\ exact_curve x_toy (s_params s) p /\
  known_quantity v /\ known_type dt /\ frequencies v <> [] /\
  In r xs /\ eccentric_unplotted s t cutoff r /\ reports (fst (source_plot x_toy cutoff v dt size ax s)) = [].
Proof. exact @eccentric_unreported. Qed.
Print Assumptions C71_eccentric_never_reported_refuted.
(** and a circular one is reported twice, the second time as eccentric. *)
Theorem C71_circular_counted_twice_refuted : exists s xs r t cutoff v dt size ax p,
  collection s xs /\ s_snr s = Some (map r_snr xs) /\ s_max_snr_harmonic s = Some (map r_msh xs) /\ mask_time s PNil t /\ exact_curve x_toy (s_params s) p /\
  known_quantity v /\ known_type dt /\ frequencies v <> [] /\
  In r xs /\ circular_unplotted s t cutoff r /\ (forall r', In r' xs -> ~ eccentric_unplotted s t cutoff r') /\
  reports (fst (source_plot x_toy cutoff v dt size ax s)) = [CircularEvolving 1; EccentricEvolving 1].
Proof. exact @circular_twice. Qed.
Print Assumptions C71_circular_counted_twice_refuted.
(** ** C89: plots of variables *)
(** Two variables: a point for each of the chosen sources (without the merged ones, unless asked for), both coordinates and the weight being those of the same source. *)
Theorem C89_two_variables : forall s xs xn yn vx vy which ex log dt size ax,
  collection s xs -> xs <> [] -> fits which (length xs) ->
  (forall r, In r xs -> value_of r xn (vx r)) -> computed s xn -> (forall r, In r xs -> value_of r yn (vy r)) -> computed s yn -> match dt with None => True | Some d => known_type d end ->
  exists ys, those (shown ex) (chosen which xs) ys /\ plot_source_variables (Some xn) (Some yn) which ex log dt size ax s =
    ([points (match dt with Some d => d | None => "scatter"%string end) size (map vx ys) (map vy ys) (weights_of (s_weights s) r_w ys)], Ok (used_axes ax)).
Proof. exact @variables_2D. Qed.
Print Assumptions C89_two_variables.
(** One variable. *)
Theorem C89_one_variable : forall s xs xn vx which ex log dt size ax,
  collection s xs -> xs <> [] -> fits which (length xs) -> (forall r, In r xs -> value_of r xn (vx r)) -> computed s xn ->
  exists ys, those (shown ex) (chosen which xs) ys /\ plot_source_variables (Some xn) None which ex log dt size ax s =
    (drawn_1D (match dt with Some d => d | None => "hist"%string end) log (map vx ys) (weights_of (s_weights s) r_w ys), Ok (used_axes ax)).
Proof. exact @variables_1D. Qed.
Print Assumptions C89_one_variable.
(** Unknown variables and SNRs that were not computed are refused before anything is drawn. *)
Theorem C89_unknown_variable : forall s xs xn yn which ex log dt size ax,
  collection s xs -> fits which (length xs) -> ~ In xn documented_variables \/ (exists n, yn = Some n /\ ~ In n documented_variables) ->
  plot_source_variables (Some xn) yn which ex log dt size ax s = ([], Err ValueError).
Proof. exact @variables_unknown. Qed.
Print Assumptions C89_unknown_variable.
Theorem C89_snr_not_computed : forall s xs xn yn which ex log dt size ax,
  collection s xs -> fits which (length xs) -> In xn documented_variables -> match yn with None => True | Some n => In n documented_variables end -> s_snr s = None ->
  xn = "snr"%string \/ yn = Some "snr"%string ->
  plot_source_variables (Some xn) yn which ex log dt size ax s = ([], Err ValueError).
Proof. exact @variables_not_computed. Qed.
Print Assumptions C89_snr_not_computed.
Example C89_satisfiable : let xs := [loud 1e30 1e-3 0 9; loud 1e36 1 0 9] in
  collection (seen xs) xs /\ xs <> [] /\ fits (Some [false; true]) (length xs) /\ (forall r, In r xs -> value_of r "f_GW" (nmul (r_f r) (Fin 2))) /\ computed (seen xs) "f_GW" /\
  (forall r, In r xs -> value_of r "snr" (r_snr r)) /\ computed (seen xs) "snr" /\ ~ In "t_merge"%string documented_variables /\ s_snr (toy_of xs) = None.
Proof.
  cbv zeta. split; [apply seen_collection|]. split; [discriminate|]. split; [reflexivity|]. split; [constructor|]. split; [intros H; discriminate H|].
  split; [constructor|]. split; [intros _; discriminate|]. split; [|reflexivity]. cbn. intuition discriminate.
Qed.

