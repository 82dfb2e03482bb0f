(** VisFacts.v -- proofs about plots. *)
From Coq Require Import String Reals ZArith List Lra Lia Bool.
From Verif Require Import Num NumFacts Np NpFacts Utils Strain Psd Snr Evol ArrEvolFacts Harmonics ScParams Source SourceSpec CurveSpec MethodSpec SourceFacts MethodThms
  SourceThms SourceThms2 Vis VisSpec.
Import ListNotations.
Open Scope R_scope.

Lemma those_filter {A} (P : A -> Prop) (p : A -> bool) xs : (forall x, In x xs -> (p x = true <-> P x)) -> those P xs (filter p xs).
Proof.
  induction xs as [|a xs IH]; intros H; cbn; [constructor|]. assert (T : those P xs (filter p xs)) by (apply IH; intros; apply H; now right).
  destruct (p a) eqn:E.
  - constructor; auto. apply H; auto. now left.
  - constructor; auto. intros Q. apply (H a) in Q; [congruence|now left].
Qed.
Lemma inf_times_pos a b : 0 < b -> inf_times (Fin (a * b)) = inf_times (Fin a).
Proof.
  intros B. cbn. destruct (Rltb 0 a) eqn:P.
  - apply Rltb_true in P. now rewrite (proj2 (Rltb_true 0 (a * b))) by nra.
  - apply Rltb_false in P. rewrite (proj2 (Rltb_false 0 (a * b))) by nra. destruct (Rltb a 0) eqn:N.
    + apply Rltb_true in N. now rewrite (proj2 (Rltb_true (a * b) 0)) by nra.
    + apply Rltb_false in N. now rewrite (proj2 (Rltb_false (a * b) 0)) by nra.
Qed.
Lemma inf_times_fin_cases a : inf_times (Fin a) = PInf \/ inf_times (Fin a) = NInf \/ inf_times (Fin a) = NaN.
Proof. cbn. destruct (Rltb 0 a); auto. destruct (Rltb a 0); auto. Qed.
Lemma inf_pos b : 0 < b -> inf_times (Fin b) = PInf.
Proof. intros B. cbn. now rewrite (proj2 (Rltb_true 0 b)). Qed.
Lemma nmul_assoc_pos s x b : 0 < b -> nmul (nmul s x) (Fin b) = nmul s (nmul x (Fin b)).
Proof.
  intros B. destruct s as [u| | |], x as [a| | |]; cbn [nmul]; try reflexivity.
  all: rewrite ?(inf_times_pos _ _ B), ?(inf_pos _ B); try reflexivity; try (f_equal; ring).
  all: cbn [nneg]; repeat match goal with |- context [inf_times PInf] => change (inf_times PInf) with PInf | |- context [inf_times NInf] => change (inf_times NInf) with NInf end; cbn [nneg nmul].
  all: try match goal with _ : 0 < ?d |- context [inf_times (Fin ?c)] => tryif constr_eq c d then fail else destruct (inf_times_fin_cases c) as [E|[E|E]]; rewrite E end.
  all: cbn [nmul nneg]; match goal with H : 0 < _ |- _ => rewrite ?(inf_pos _ H) end; reflexivity.
Qed.
Lemma sqrt_pos_fin f : 0 < f -> nsqrt (Fin f) = Fin (Rpower f (1/2)).
Proof. intros H. unfold nsqrt, npowr. now rewrite (proj2 (Rltb_true 0 f)). Qed.
Lemma sqrt_mul p f : good_noise p f -> nsqrt (nmul f (p f)) = nmul (nsqrt (p f)) (nsqrt f).
Proof.
  intros (r & -> & Hr & H). rewrite (sqrt_pos_fin r Hr). assert (HL : Rltb 0 (1/2) = true) by (apply Rltb_true; lra).
  assert (PP : 0 < Rpower r (1/2)) by apply exp_pos.
  destruct H as [->|(v & -> & [Hv|<-])].
  - cbn [nmul]. rewrite (inf_pos r Hr). unfold nsqrt, npowr. rewrite HL. cbn [nmul]. now rewrite (inf_pos _ PP).
  - cbn [nmul]. rewrite !sqrt_pos_fin by nra. cbn [nmul]. f_equal. rewrite Rpower_mult_distr by lra. f_equal. ring.
  - cbn [nmul]. rewrite Rmult_0_r. unfold nsqrt, npowr. rewrite (proj2 (Rltb_false 0 0)), (proj2 (Reqb_true 0 0)), HL by lra. cbn [nmul]. f_equal. ring.
Qed.
(** The height of a point. *)
Lemma height v p f r : known_quantity v -> good_noise p f ->
  (if match v_quantity v with Some q => String.eqb q "h_c" | None => false end then nmul (nmul r (nsqrt (p f))) (nsqrt f) else nmul r (nsqrt (p f)))
  = nmul r (amplitude v p f).
Proof.
  intros K G. unfold amplitude, quantity. destruct (v_quantity v) as [q|]; [|reflexivity]. destruct (String.eqb q "h_c"); [|reflexivity].
  rewrite (sqrt_mul p f G). destruct G as (a & -> & Ha & _). rewrite (sqrt_pos_fin a Ha). apply nmul_assoc_pos, exp_pos.
Qed.

Lemma wb {A B} (a : A) (k : A -> W B) : wbind (wlift (Ok a)) k = k a.
Proof. unfold wbind, wlift. cbn [fst snd app]. now destruct (k a). Qed.
Lemma wb1 {A B} (a : A) (k : A -> W B) l : wbind (l, Ok a) k = (l ++ fst (k a), snd (k a))%list.
Proof. reflexivity. Qed.
Lemma wbr {A B} (a : A) (k : A -> W B) : wbind (wret a) k = k a.
Proof. exact (wb a k). Qed.

Lemma curve_thm x d p v ax : exact_curve x d p -> known_quantity v -> frequencies v <> [] ->
  plot_sensitivity_curve x d v ax = (curve_marks v p, Ok (used_axes ax)).
Proof.
  intros E K F. unfold plot_sensitivity_curve, curve_marks. fold (frequencies v). fold (quantity v). rewrite E. unfold wbind, wlift at 1. cbn [fst snd app].
  assert (A : (if String.eqb (quantity v) "ASD" then Ok (map nsqrt (map p (frequencies v)))
               else if String.eqb (quantity v) "h_c" then (fp <- bzip nmul (frequencies v) (map p (frequencies v)) ;; Ok (map nsqrt fp))%res else Err ValueError)
              = Ok (map (amplitude v p) (frequencies v))).
  { unfold amplitude. destruct K as [-> | ->]; cbn [String.eqb Ascii.eqb Bool.eqb].
    - now rewrite map_map.
    - rewrite <- (map_id (frequencies v)) at 1. rewrite bzip_map. cbn [rbind]. now rewrite map_map. }
  rewrite A. unfold wlift. cbn [fst snd app]. rewrite map_length, Nat.eqb_refl. cbn [fst snd app draw].
  destruct (frequencies v) as [|f0 fr] eqn:EF; [now elim F|]. destruct (v_fill v) as [[|]|]; cbn [draw wret fst snd app]; reflexivity.
Qed.
Lemma two_dim x y w dt size ax : known_type dt -> length x = length y -> match w with None => True | Some l => length l = length x end ->
  plot_2D_dist x y w dt size ax = ([points dt size x y w], Ok (used_axes ax)).
Proof.
  intros K L LW. unfold plot_2D_dist, points. destruct K as [-> | ->]; cbn [String.eqb Ascii.eqb Bool.eqb]; [|reflexivity].
  unfold ax_scatter. rewrite L, Nat.eqb_refl. cbn [negb]. destruct w as [l|]; [|reflexivity]. rewrite map_length, LW, L, Nat.eqb_refl. reflexivity.
Qed.
Lemma take_opt_map {X} (q : X -> bool) (w : X -> num) o xs : optional o w xs -> take_opt (map q xs) o = Ok (weights_of o w (filter q xs)).
Proof. intros [-> | ->]; [reflexivity|]. cbn [take_opt weights_of]. now rewrite take_mask_map. Qed.
Lemma weights_len {X} (w : X -> num) o ys : match weights_of o w ys with None => True | Some l => length l = length ys end.
Proof. destruct o; cbn; auto. apply map_length. Qed.
Lemma map_pick {X} (b : bool) (f g : X -> num) xs : (if b then map f xs else map g xs) = map (fun y => if b then f y else g y) xs.
Proof. now destruct b. Qed.
(** Points on the curve. *)
Lemma points_gen {X} (xs : list X) (f snr w : X -> num) o x d p cutoff v dt size ax :
  exact_curve x d p -> known_quantity v -> known_type dt -> (ax <> Supplied -> frequencies v <> []) -> optional o w xs ->
  (forall a, In a xs -> ngt (snr a) cutoff = true -> good_noise p (f a)) ->
  plot_sources_on_sc x d (map f xs) (map snr xs) o cutoff v dt size ax =
  let ys := filter (fun a => ngt (snr a) cutoff) xs in
  (curve_if_new ax v p ++ match ys with [] => [Logged NoBinaries] | _ =>
    [points dt size (map f ys) (map (fun a => nmul (snr a) (amplitude v p (f a))) ys) (weights_of o w ys)] end, Ok (used_axes ax))%list.
Proof.
  intros E K KT F OW G. cbv zeta. unfold plot_sources_on_sc.
  assert (C : match ax with Supplied => wret Supplied | _ => plot_sensitivity_curve x d v New end = (curve_if_new ax v p, Ok (used_axes ax))).
  { destruct ax; [reflexivity| |]; rewrite (curve_thm x d p) by (auto; apply F; discriminate); reflexivity. }
  rewrite C, wb1. rewrite map_map.
  set (q := fun a => ngt (snr a) cutoff). set (ys := filter q xs).
  destruct (any (map q xs)) eqn:AN; cbn [negb].
  - assert (NE : ys <> []). { destruct (any_map_t q xs AN) as (a & Ia & Qa). intros Z. assert (In a ys) by (apply filter_In; auto). rewrite Z in H. contradiction. }
    rewrite take_mask_map. fold ys. rewrite wb, E, wb, !map_map, (select_map q snr xs). fold ys. rewrite bzip_map, wb, ?map_map, bzip_map, wb, (take_opt_map q w o xs OW). fold ys.
    rewrite wb, map_pick.
    assert (H : map (fun y => if match v_quantity v with Some q0 => String.eqb q0 "h_c" | None => false end
                     then nmul (nmul (snr y) (nsqrt (p (f y)))) (nsqrt (f y)) else nmul (snr y) (nsqrt (p (f y)))) ys
                = map (fun a => nmul (snr a) (amplitude v p (f a))) ys).
    { apply map_ext_in. intros a Ia. apply height; auto. apply filter_In in Ia. destruct Ia. apply G; auto. }
    rewrite H. rewrite two_dim; [|exact KT|now rewrite !map_length|].
    + rewrite wb1. cbn [wret fst snd app]. destruct ys; [now elim NE|]. now destruct ax.
    + rewrite map_length. apply weights_len.
  - assert (Z : ys = []). { destruct ys as [|a l] eqn:Q; auto. assert (I : In a ys) by (rewrite Q; now left). apply filter_In in I. destruct I as [I1 I2]. rewrite (any_map q xs AN a I1) in I2. discriminate. }
    rewrite Z. reflexivity.
Qed.
Lemma points_thm {X} (xs : list X) (f snr w : X -> num) o x d p cutoff v dt size ax :
  exact_curve x d p -> known_quantity v -> known_type dt -> (ax <> Supplied -> frequencies v <> []) -> optional o w xs ->
  (forall a, In a xs -> above cutoff (snr a) -> good_noise p (f a)) -> (exists a, In a xs /\ above cutoff (snr a)) ->
  exists ys, those (fun a => above cutoff (snr a)) xs ys /\
    plot_sources_on_sc x d (map f xs) (map snr xs) o cutoff v dt size ax =
    (curve_if_new ax v p ++ [points dt size (map f ys) (map (fun a => nmul (snr a) (amplitude v p (f a))) ys) (weights_of o w ys)], Ok (used_axes ax))%list.
Proof.
  intros E K KT F OW G (a & Ia & Qa). exists (filter (fun a => ngt (snr a) cutoff) xs). split; [apply those_filter; intros; reflexivity|].
  rewrite (points_gen xs f snr w) with (p := p) by auto. cbv zeta. destruct (filter _ xs) eqn:Z; [|reflexivity].
  exfalso. assert (I : In a (filter (fun a => ngt (snr a) cutoff) xs)) by (apply filter_In; auto). rewrite Z in I. contradiction.
Qed.
Lemma nothing_thm {X} (xs : list X) (f snr : X -> num) o x d p cutoff v dt size ax :
  exact_curve x d p -> known_quantity v -> (ax <> Supplied -> frequencies v <> []) -> (forall a, In a xs -> ~ above cutoff (snr a)) ->
  plot_sources_on_sc x d (map f xs) (map snr xs) o cutoff v dt size ax = (curve_if_new ax v p ++ [Logged NoBinaries], Ok (used_axes ax))%list.
Proof.
  intros E K F N. unfold plot_sources_on_sc.
  assert (C : match ax with Supplied => wret Supplied | _ => plot_sensitivity_curve x d v New end = (curve_if_new ax v p, Ok (used_axes ax))).
  { destruct ax; [reflexivity| |]; rewrite (curve_thm x d p) by (auto; apply F; discriminate); reflexivity. }
  rewrite C, wb1, map_map.
  destruct (any (map (fun a => ngt (snr a) cutoff) xs)) eqn:AN; [|reflexivity].
  destruct (any_map_t _ xs AN) as (a & Ia & Qa). now elim (N a Ia).
Qed.

(** ** The method of a collection *)
Lemma source_gen s xs x p cutoff v dt size ax t tol :
  collection s xs -> s_snr s = Some (map r_snr xs) -> s_max_snr_harmonic s = Some (map r_msh xs) -> h_ecc_tol (s_harm s) = Some tol -> mask_time s PNil t ->
  exact_curve x (s_params s) p -> known_quantity v -> known_type dt -> (ax <> Supplied -> frequencies v <> []) ->
  (forall r, In r xs -> plotted s t cutoff r -> good_noise p (dominant r)) ->
  exists ys zs, those (plotted s t cutoff) xs ys /\ those (circular_unplotted s t cutoff) xs zs /\
    source_plot x cutoff v dt size ax s =
    ((match ys with [] => [] | _ => curve_if_new ax v p ++
       [points dt size (map dominant ys) (map (fun r => nmul (r_snr r) (amplitude v p (dominant r))) ys) (weights_of (s_weights s) r_w ys)] end) ++
     (match zs with [] => [] | _ => [Logged (CircularEvolving (length zs)); Logged (EccentricEvolving (length zs))] end),
     Ok (match ys with [] => ax | _ => used_axes ax end))%list.
Proof.
  intros C SN MS T MT E K KT F G. apply mask_time_resolved in MT. assert (C' : collection s (map (fun r => r) xs)) by now rewrite map_id.
  pose proof (fun c st H1 H2 => source_mask_map (fun r => r) s xs c st PNil t tol C' H1 H2 T (fun _ => MT)) as MK.
  assert (IC : forall r, is_circular s r <-> nle (r_e r) tol = true) by (intros r; split; [intros (u & U & V); congruence|intros H; exists tol; auto]).
  assert (IS : forall r b, is_stationary s t r b <-> stat_of s t r = b).
  { intros r b. pose proof (stat_of_spec s t r) as Q. unfold is_stationary in *. split; [congruence|now intros <-]. }
  set (q := fun r => stat_of s t r && ngt (r_snr r) cutoff && negb (r_merged r)).
  set (qc := fun r => (nle (r_e r) tol && negb (stat_of s t r)) && ngt (r_snr r) cutoff && negb (r_merged r)).
  exists (filter q xs), (filter qc xs).
  split; [|split].
  { apply those_filter. intros r _. unfold q, plotted, above. rewrite IS, !andb_true_iff, negb_true_iff. tauto. }
  { apply those_filter. intros r _. unfold qc, circular_unplotted, above. rewrite IS, IC, !andb_true_iff, !negb_true_iff. tauto. }
  unfold source_plot. rewrite SN. rewrite (MK TriNone TriTrue) by discriminate. cbn [circ_test stat_test].
  rewrite wb, (col_merged _ _ C), !map_map, logical_and3_map, wb.
  change (fun y => true && stat_of s t y && ngt (r_snr y) cutoff && negb (r_merged y)) with q.
  rewrite (MK TriTrue TriFalse) by discriminate. cbn [circ_test stat_test].
  change (fun y => nle (r_e y) tol && negb (stat_of s t y) && ngt (r_snr y) cutoff && negb (r_merged y)) with qc.
  assert (P : (if any (map q xs) then
      wbind (wlift (take_mask (map q xs) (s_f_orb s))) (fun f =>
      wbind (wlift (match s_max_snr_harmonic s with None => Err TypeError | Some l => take_mask (map q xs) l end)) (fun msh =>
      wbind (wlift (bzip nmul f (map nZ msh))) (fun f_dom =>
      wbind (wlift (take_opt (map q xs) (s_weights s))) (fun weights =>
      wbind (wlift (take_mask (map q xs) (map r_snr xs))) (fun snr0 =>
      plot_sources_on_sc x (s_params s) f_dom snr0 weights cutoff v dt size ax))))) else wret ax) =
      (match filter q xs with [] => [] | _ => curve_if_new ax v p ++
       [points dt size (map dominant (filter q xs)) (map (fun r => nmul (r_snr r) (amplitude v p (dominant r))) (filter q xs)) (weights_of (s_weights s) r_w (filter q xs))] end,
       Ok (match filter q xs with [] => ax | _ => used_axes ax end))%list).
  { destruct (any (map q xs)) eqn:AN.
    - assert (NE : filter q xs <> []). { destruct (any_map_t q xs AN) as (a & Ia & Qa). intros Z. assert (In a (filter q xs)) by (apply filter_In; auto). rewrite Z in H. contradiction. }
      rewrite (col_f _ _ C), MS, !take_mask_map, (take_opt_map q r_w _ xs (col_w _ _ C)), !wb, map_map, bzip_map, !wb. change (fun x0 => nmul (r_f x0) (nZ (r_msh x0))) with dominant.
      assert (OW : optional (weights_of (s_weights s) r_w (filter q xs)) r_w (filter q xs)) by (destruct (s_weights s); [now right|now left]).
      rewrite (points_gen (filter q xs) dominant r_snr r_w) with (p := p); auto.
      + cbv zeta. assert (FF : filter (fun a => ngt (r_snr a) cutoff) (filter q xs) = filter q xs).
        { apply filter_all. intros a Ia. apply filter_In in Ia. destruct Ia as [_ Q]. unfold q in Q. rewrite !andb_true_iff in Q. tauto. }
        rewrite FF. destruct (filter q xs) as [|a l]; [now elim NE|]. destruct (s_weights s); reflexivity.
      + intros a Ia _. apply filter_In in Ia. destruct Ia as [Ia Q]. apply G; auto. unfold q in Q. rewrite !andb_true_iff, negb_true_iff in Q.
        destruct Q as [[Q1 Q2] Q3]. split; [now apply IS|split; auto].
    - assert (Z : filter q xs = []). { destruct (filter q xs) as [|a l] eqn:Q; auto. assert (I : In a (filter q xs)) by (rewrite Q; now left). apply filter_In in I. destruct I as [I1 I2]. rewrite (any_map q xs AN a I1) in I2. discriminate. }
      now rewrite Z. }
  assert (LZ : length (select (map qc xs) (map qc xs)) = length (filter qc xs)) by (now rewrite (select_map qc qc), map_length).
  rewrite P, wb1, wb, logical_and3_map, wb.
  change (fun y => nle (r_e y) tol && negb (stat_of s t y) && ngt (r_snr y) cutoff && negb (r_merged y)) with qc.
  rewrite LZ. destruct (any (map qc xs)) eqn:AN; unfold draw; rewrite ?wb1, ?wbr, ?wb, ?logical_and3_map, ?wb;
    change (fun y => nle (r_e y) tol && negb (stat_of s t y) && ngt (r_snr y) cutoff && negb (r_merged y)) with qc;
    rewrite ?AN, ?LZ, ?wb1, ?wbr; cbn [wret fst snd app].
  - assert (NE : filter qc xs <> []). { destruct (any_map_t qc xs AN) as (a & Ia & Qa). intros Z. assert (In a (filter qc xs)) by (apply filter_In; auto). rewrite Z in H. contradiction. }
    destruct (filter qc xs) as [|a l]; [now elim NE|]. reflexivity.
  - assert (Z : filter qc xs = []). { destruct (filter qc xs) as [|a l] eqn:Q; auto. assert (I : In a (filter qc xs)) by (rewrite Q; now left). apply filter_In in I. destruct I as [I1 I2]. rewrite (any_map qc xs AN a I1) in I2. discriminate. }
    rewrite Z. now rewrite !app_nil_r.
Qed.

Lemma reports_app a b : reports (a ++ b) = (reports a ++ reports b)%list.
Proof. unfold reports. apply flat_map_app. Qed.
Lemma reports_curve ax v p : reports (curve_if_new ax v p) = [].
Proof. destruct ax; cbn [curve_if_new]; auto; unfold curve_marks; destruct (v_fill v) as [[|]|]; reflexivity. Qed.
Lemma reports_points dt size x y w : reports [points dt size x y w] = [].
Proof. unfold points. destruct (String.eqb dt "kde"); reflexivity. Qed.
Lemma collection_points s xs x p cutoff v dt size ax t tol :
  collection s xs -> s_snr s = Some (map r_snr xs) -> s_max_snr_harmonic s = Some (map r_msh xs) -> h_ecc_tol (s_harm s) = Some tol -> mask_time s PNil t ->
  exact_curve x (s_params s) p -> known_quantity v -> known_type dt -> (ax <> Supplied -> frequencies v <> []) ->
  (forall r, In r xs -> plotted s t cutoff r -> good_noise p (dominant r)) -> (exists r, In r xs /\ plotted s t cutoff r) ->
  exists ys warnings, those (plotted s t cutoff) xs ys /\ source_plot x cutoff v dt size ax s =
    (curve_if_new ax v p ++ [points dt size (map dominant ys) (map (fun r => nmul (r_snr r) (amplitude v p (dominant r))) ys) (weights_of (s_weights s) r_w ys)]
     ++ map Logged warnings, Ok (used_axes ax))%list.
Proof.
  intros C SN MS T MT E K KT F G (r & Ir & Pr). destruct (source_gen s xs x p cutoff v dt size ax t tol C SN MS T MT E K KT F G) as (ys & zs & TY & TZ & EQ).
  assert (NE : ys <> []). { clear - Ir Pr TY. induction TY; [contradiction|discriminate|]. apply IHTY. destruct Ir as [-> |]; [contradiction|auto]. }
  exists ys, (match zs with [] => [] | _ => [CircularEvolving (length zs); EccentricEvolving (length zs)] end). split; auto. rewrite EQ.
  destruct ys as [|a l]; [now elim NE|]. f_equal. rewrite <- app_assoc. now destruct zs.
Qed.
Lemma warnings_thm s xs x p cutoff v dt size ax t tol :
  collection s xs -> s_snr s = Some (map r_snr xs) -> s_max_snr_harmonic s = Some (map r_msh xs) -> h_ecc_tol (s_harm s) = Some tol -> mask_time s PNil t ->
  exact_curve x (s_params s) p -> known_quantity v -> known_type dt -> (ax <> Supplied -> frequencies v <> []) ->
  (forall r, In r xs -> plotted s t cutoff r -> good_noise p (dominant r)) ->
  exists zs, those (circular_unplotted s t cutoff) xs zs /\
    filter about_circular (reports (fst (source_plot x cutoff v dt size ax s))) = warned CircularEvolving zs /\
    filter about_eccentric (reports (fst (source_plot x cutoff v dt size ax s))) = warned EccentricEvolving zs.
Proof.
  intros C SN MS T MT E K KT F G. destruct (source_gen s xs x p cutoff v dt size ax t tol C SN MS T MT E K KT F G) as (ys & zs & TY & TZ & EQ).
  exists zs. split; auto. rewrite EQ. cbn [fst]. rewrite reports_app.
  assert (Z : reports (match ys with [] => [] | _ => curve_if_new ax v p ++
       [points dt size (map dominant ys) (map (fun r => nmul (r_snr r) (amplitude v p (dominant r))) ys) (weights_of (s_weights s) r_w ys)] end) = []%list).
  { destruct ys; auto. rewrite reports_app, reports_curve, reports_points. reflexivity. }
  rewrite Z. destruct zs; split; reflexivity.
Qed.
Lemma no_snr_thm x cutoff v dt size ax s : s_snr s = None -> source_plot x cutoff v dt size ax s = ([Logged NoSnr], Ok Neither).
Proof. unfold source_plot. now intros ->. Qed.

(** ** Plots of variables *)
Lemma variables_map s xs : collection s xs -> variables s = Ok
  [("m_1", Some (map r_m1 xs)); ("m_2", Some (map r_m2 xs)); ("m_c", Some (map (fun r => chirp_mass (r_m1 r) (r_m2 r)) xs)); ("ecc", Some (map r_e xs)); ("dist", Some (map r_d xs));
   ("f_orb", Some (map r_f xs)); ("f_GW", Some (map (fun r => nmul (r_f r) (Fin 2)) xs)); ("a", Some (map (fun r => get_a_from_f_orb (r_f r) (r_m1 r) (r_m2 r)) xs)); ("snr", s_snr s)]%string.
Proof.
  intros C. unfold variables, m_c, a_getter. rewrite (col_m1 _ _ C), (col_m2 _ _ C), (col_f _ _ C), (col_e _ _ C), (col_d _ _ C), bzip_map. cbn [rbind].
  rewrite get_a_arr_map. cbn [rbind]. now rewrite map_map.
Qed.
Lemma variable_value s xs name vf : collection s xs -> xs <> [] -> (forall r, In r xs -> value_of r name (vf r)) -> computed s name ->
  exists vars, variables s = Ok vars /\ variable name vars = Some (Some (map vf xs)).
Proof.
  intros C NE V CO. eexists. split; [exact (variables_map s xs C)|]. destruct xs as [|r0 xs]; [now elim NE|].
  assert (SN : name = "snr"%string -> s_snr s = Some (map r_snr (r0 :: xs))) by (intros N; destruct (col_snr _ _ C) as [Z|Z]; [now elim (CO N)|exact Z]).
  assert (V0 := V r0 (or_introl eq_refl)).
  assert (EX : forall g : row -> num, (forall r x, value_of r name x -> x = g r) -> map vf (r0 :: xs) = map g (r0 :: xs)).
  { intros g H. apply map_ext_in. intros r Hr. now apply H, V. }
  destruct V0; cbn [variable String.eqb Ascii.eqb Bool.eqb]; try (rewrite (SN eq_refl)); do 2 f_equal; symmetry; apply EX; intros r x H; inversion H; reflexivity.
Qed.
Lemma variables_have s xs name r v : collection s xs -> value_of r name v -> exists o, variable name
  [("m_1", Some (map r_m1 xs)); ("m_2", Some (map r_m2 xs)); ("m_c", Some (map (fun r => chirp_mass (r_m1 r) (r_m2 r)) xs)); ("ecc", Some (map r_e xs)); ("dist", Some (map r_d xs));
   ("f_orb", Some (map r_f xs)); ("f_GW", Some (map (fun r => nmul (r_f r) (Fin 2)) xs)); ("a", Some (map (fun r => get_a_from_f_orb (r_f r) (r_m1 r) (r_m2 r)) xs)); ("snr", s_snr s)]%string = Some o.
Proof. intros C V. destruct V; eexists; reflexivity. Qed.
Lemma shown_mask which (ex : bool) s xs : collection s xs -> fits which (length xs) -> exists (us : list (row * bool)),
  map fst us = xs /\ (if ex then logical_and (which_or_all which s) (map negb (s_merged s)) else Ok (which_or_all which s)) = Ok (map (fun y => snd y && (negb ex || negb (r_merged (fst y)))) us) /\
  those (shown ex) (chosen which xs) (map fst (filter (fun y => snd y && (negb ex || negb (r_merged (fst y)))) us)).
Proof.
  intros C F. destruct (mask_rows which s xs C F) as (us & H1 & H2 & H3 & _). exists us. split; auto. split.
  - rewrite H2. destruct ex; cbn [negb orb].
    + rewrite (col_merged _ _ C), <- H1, !map_map. apply logical_and_map.
    + f_equal. apply map_ext. intros y. now rewrite andb_true_r.
  - rewrite <- H3. clear. induction us as [|[r b] us IH]; cbn [filter map snd fst]; [constructor|]. destruct b; cbn [andb map]; auto.
    destruct (negb ex || negb (r_merged r)) eqn:Q; cbn [map fst].
    + constructor; auto. intros ->. now destruct (r_merged r).
    + constructor; auto. intros S. destruct ex; cbn in Q; [|discriminate]. rewrite (S eq_refl) in Q. discriminate.
Qed.
Lemma variables_2D s xs xn yn vx vy which ex log dt size ax :
  collection s xs -> xs <> [] -> fits which (length xs) ->
  (forall r, In r xs -> value_of r xn (vx r)) -> computed s xn -> (forall r, In r xs -> value_of r yn (vy r)) -> computed s yn -> match dt with None => True | Some d => known_type d end ->
  exists ys, those (shown ex) (chosen which xs) ys /\ plot_source_variables (Some xn) (Some yn) which ex log dt size ax s =
    ([points (match dt with Some d => d | None => "scatter"%string end) size (map vx ys) (map vy ys) (weights_of (s_weights s) r_w ys)], Ok (used_axes ax)).
Proof.
  intros C NE F VX CX VY CY KT. destruct (variable_value s xs xn vx C NE VX CX) as (vars & EV & EX). destruct (variable_value s xs yn vy C NE VY CY) as (vars' & EV' & EY).
  rewrite EV in EV'. injection EV' as <-. destruct (shown_mask which ex s xs C F) as (us & H1 & H2 & H3).
  set (q := fun y : row * bool => snd y && (negb ex || negb (r_merged (fst y)))) in *. exists (map fst (filter q us)). split; auto.
  unfold plot_source_variables. rewrite EV, wb, H2, wb. rewrite EX, EY. cbn [andb negb]. rewrite !wb.
  assert (OW : optional (s_weights s) (fun y : row * bool => r_w (fst y)) us) by (destruct (col_w _ _ C) as [Z|Z]; [now left|right; rewrite Z, <- H1, map_map; reflexivity]).
  rewrite (take_opt_map q _ _ us OW), wb. rewrite <- H1, !map_map, !take_mask_map, !wb. rewrite two_dim.
  - do 3 f_equal. destruct (s_weights s); cbn; [|reflexivity]. now rewrite map_map.
  - destruct dt; auto. now left.
  - now rewrite !map_length.
  - rewrite map_length. apply weights_len.
Qed.
Lemma variables_1D s xs xn vx which ex log dt size ax :
  collection s xs -> xs <> [] -> fits which (length xs) -> (forall r, In r xs -> value_of r xn (vx r)) -> computed s xn ->
  exists ys, those (shown ex) (chosen which xs) ys /\ plot_source_variables (Some xn) None which ex log dt size ax s =
    (drawn_1D (match dt with Some d => d | None => "hist"%string end) log (map vx ys) (weights_of (s_weights s) r_w ys), Ok (used_axes ax)).
Proof.
  intros C NE F VX CX. destruct (variable_value s xs xn vx C NE VX CX) as (vars & EV & EX).
  destruct (shown_mask which ex s xs C F) as (us & H1 & H2 & H3).
  set (q := fun y : row * bool => snd y && (negb ex || negb (r_merged (fst y)))) in *. exists (map fst (filter q us)). split; auto.
  unfold plot_source_variables. rewrite EV, wb, H2, wb. rewrite EX. cbn [andb negb]. rewrite !wb.
  assert (OW : optional (s_weights s) (fun y : row * bool => r_w (fst y)) us) by (destruct (col_w _ _ C) as [Z|Z]; [now left|right; rewrite Z, <- H1, map_map; reflexivity]).
  rewrite (take_opt_map q _ _ us OW), wb. rewrite <- H1, !map_map, !take_mask_map, !wb.
  assert (WE : weights_of (s_weights s) (fun y : row * bool => r_w (fst y)) (filter q us) = weights_of (s_weights s) r_w (map fst (filter q us))) by (destruct (s_weights s); cbn; [now rewrite map_map|reflexivity]).
  rewrite WE, ?map_map. set (w := weights_of _ r_w _). set (l := map _ (filter q us)).
  assert (LW : match w with None => True | Some k => length k = length l end) by (unfold w, l; rewrite map_length; pose proof (weights_len r_w (s_weights s) (map fst (filter q us))) as Q; now rewrite map_length in Q).
  clearbody w l. unfold plot_1D_dist, drawn_1D. set (d := match dt with Some d => d | None => _ end). clearbody d.
  destruct (String.eqb d "hist").
  - unfold ax_hist. destruct w as [k|]; [|reflexivity]. assert (LL : length k = length (if log then map nlog10 l else l)) by (destruct log; rewrite ?map_length; auto).
    rewrite LL, Nat.eqb_refl. reflexivity.
  - destruct (String.eqb d "kde"); [reflexivity|]. destruct (String.eqb d "ecdf"); reflexivity.
Qed.
Lemma variables_unknown s xs xn yn which ex log dt size ax :
  collection s xs -> fits which (length xs) -> ~ In xn documented_variables \/ (exists n, yn = Some n /\ ~ In n documented_variables) ->
  plot_source_variables (Some xn) yn which ex log dt size ax s = ([], Err ValueError).
Proof.
  intros C F H. destruct (shown_mask which ex s xs C F) as (us & H1 & H2 & H3). unfold plot_source_variables. rewrite (variables_map s xs C), wb, H2, wb.
  assert (U : forall n, ~ In n documented_variables -> forall a b c d e f g h i,
     variable n [("m_1", a); ("m_2", b); ("m_c", c); ("ecc", d); ("dist", e); ("f_orb", f); ("f_GW", g); ("a", h); ("snr", i)]%string = None).
  { intros n N a b c d e f g h i. unfold documented_variables in N. cbn [variable]. cbn [In] in N.
    repeat match goal with |- context [String.eqb n ?k] => destruct (String.eqb_spec n k); [exfalso; apply N; subst n; tauto|] end. reflexivity. }
  destruct H as [H|(n & -> & H)].
  - rewrite (U xn H). reflexivity.
  - rewrite (U n H). rewrite andb_false_r. reflexivity.
Qed.
Lemma variables_not_computed s xs xn yn which ex log dt size ax :
  collection s xs -> fits which (length xs) -> In xn documented_variables -> match yn with None => True | Some n => In n documented_variables end -> s_snr s = None ->
  xn = "snr"%string \/ yn = Some "snr"%string ->
  plot_source_variables (Some xn) yn which ex log dt size ax s = ([], Err ValueError).
Proof.
  intros C F HX HY SN H. destruct (shown_mask which ex s xs C F) as (us & H1 & H2 & H3). unfold plot_source_variables. rewrite (variables_map s xs C), wb, H2, wb, SN.
  assert (U : forall n, In n documented_variables -> exists o, variable n [("m_1", Some (map r_m1 xs)); ("m_2", Some (map r_m2 xs)); ("m_c", Some (map (fun r => chirp_mass (r_m1 r) (r_m2 r)) xs)); ("ecc", Some (map r_e xs)); ("dist", Some (map r_d xs));
   ("f_orb", Some (map r_f xs)); ("f_GW", Some (map (fun r => nmul (r_f r) (Fin 2)) xs)); ("a", Some (map (fun r => get_a_from_f_orb (r_f r) (r_m1 r) (r_m2 r)) xs)); ("snr", None)]%string = Some o).
  { intros n N. cbn [In documented_variables] in N. repeat (destruct N as [<-|N]; [eexists; reflexivity|]). contradiction. }
  destruct H as [-> | ->].
  - change (variable "snr" _) with (Some (@None (list num))). destruct yn as [n|]; [destruct (U n HY) as [o ->]|]; reflexivity.
  - destruct (U xn HX) as [[l|] ->]; reflexivity.
Qed.
