(** VisAxesFacts.v -- proofs about labels, limits and keyword arguments of plots (C101-C104). *)
From Coq Require Import String Reals ZArith List Bool Lra Lia.
From Verif Require Import Num NumFacts Np NpFacts Utils Strain Evol Source Units VisAxes VisAxesSpec.
Import ListNotations.
Open Scope string_scope.
Open Scope list_scope.
Open Scope R_scope.
Open Scope p_scope.

(** *** Dictionaries *)
Lemma get_set k v d k' : get_kw k' (set_kw k v d) = if String.eqb k' k then Some v else get_kw k' d.
Proof.
  induction d as [|[k0 v0] d IH]; cbn [set_kw get_kw]; [reflexivity|]. destruct (String.eqb k k0) eqn:E; cbn [get_kw].
  - apply String.eqb_eq in E. subst k0. destruct (String.eqb k' k); reflexivity.
  - rewrite IH. destruct (String.eqb k' k0) eqn:E0; [|reflexivity]. apply String.eqb_eq in E0. subst k0. rewrite String.eqb_sym, E. reflexivity.
Qed.
Lemma get_not_in k d : ~ List.In k (map fst d) -> get_kw k d = None.
Proof.
  induction d as [|[k0 v0] d IH]; cbn [map List.In get_kw fst]; [reflexivity|]. intros N. destruct (String.eqb k k0) eqn:E.
  - apply String.eqb_eq in E. subst. exfalso. auto.
  - apply IH. tauto.
Qed.
Lemma get_update k d : dictionary d -> forall p, get_kw k (update_kw d p) = match get_kw k d with Some v => Some v | None => get_kw k p end.
Proof.
  induction d as [|[k0 v0] d IH]; intros D p; cbn [update_kw fold_left get_kw fst snd]; [reflexivity|].
  inversion D as [|? ? N D']; subst. change (fold_left _ d ?q) with (update_kw d q). rewrite (IH D'), get_set.
  destruct (String.eqb k k0) eqn:E; [|reflexivity]. apply String.eqb_eq in E. subst k0. now rewrite (get_not_in _ _ N).
Qed.
Lemma get_app k d e : get_kw k (d ++ e) = match get_kw k d with Some v => Some v | None => get_kw k e end.
Proof. induction d as [|[k0 v0] d IH]; cbn [app get_kw]; [reflexivity|]. destruct (String.eqb k k0); auto. Qed.
Lemma get_in k v d : get_kw k d = Some v -> List.In (k, v) d.
Proof.
  induction d as [|[k0 v0] d IH]; cbn [get_kw]; [discriminate|]. destruct (String.eqb k k0) eqn:E; intros H.
  - apply String.eqb_eq in E. subst. injection H as ->. now left.
  - right. auto.
Qed.
Lemma call_ok explicit extra k : call explicit extra = Ok k -> k = (explicit ++ extra)%list /\
  (forall x v, get_kw x extra = Some v -> get_kw x explicit = None).
Proof.
  unfold call. destruct (existsb _ extra) eqn:E; [discriminate|]. intros H. injection H as <-. split; [reflexivity|]. intros x v I.
  apply get_in in I. destruct (get_kw x explicit) eqn:G; [|reflexivity]. exfalso.
  assert (X : existsb (fun kv => match get_kw (fst kv) explicit with Some _ => true | None => false end) extra = true).
  { apply existsb_exists. exists (x, v). split; [exact I|]. cbn [fst]. now rewrite G. }
  congruence.
Qed.
Lemma call_clash explicit extra k v w : get_kw k extra = Some v -> get_kw k explicit = Some w -> call explicit extra = Err TypeError.
Proof.
  intros I G. unfold call. replace (existsb _ extra) with true; [reflexivity|]. symmetry. apply existsb_exists. exists (k, v).
  split; [now apply get_in|]. cbn [fst]. now rewrite G.
Qed.
Lemma options_honour explicit kwargs defaults k : dictionary kwargs -> call explicit (update_kw kwargs defaults) = Ok k -> honours kwargs defaults k.
Proof.
  intros D H. apply call_ok in H. destruct H as (-> & N). split; intros x v.
  - intros I. assert (U : get_kw x (update_kw kwargs defaults) = Some v) by (rewrite get_update by assumption; now rewrite I).
    rewrite get_app, (N _ _ U). exact U.
  - intros I J. assert (U : get_kw x (update_kw kwargs defaults) = Some v) by (rewrite get_update by assumption; now rewrite I).
    rewrite get_app, (N _ _ U). exact U.
Qed.

(** *** Labels, limits and show at the end of a plot *)
Definition or_else {A} (a b : option A) : option A := match a with Some _ => a | None => b end.
Definition finished (lb : option string) (lm : option (num * num)) (a : axis) : axis :=
  mkAxis (unit_on a) (log_axis a) (or_else lb (label a)) (or_else lm (limits a)).
Definition finish (l : look) (f : num * num -> num * num) : P unit :=
  _ <-- if_given (l_xlabel l) set_xlabel ;;
  _ <-- if_given (l_ylabel l) set_ylabel ;;
  _ <-- if_given (l_xlim l) (fun v => set_xlim (f v)) ;;
  _ <-- if_given (l_ylim l) set_ylim ;;
  show_plot (l_show l).
Lemma finish_eq l f s : finish l f s =
  (let p := mkPicture (finished (l_xlabel l) (option_map f (l_xlim l)) (x_axis (now s))) (finished (l_ylabel l) (l_ylim l) (y_axis (now s))) (shapes (now s)) in
   mkScreen p (shown s ++ if l_show l then [p] else []), Ok tt).
Proof.
  destruct s as [[[xu xl xb xm] [yu yl yb ym] sh] w], l as [b lx ly mx my c]. unfold finish, if_given, show_plot, pbind, pret, set_xlabel, set_ylabel, set_xlim,
    set_ylim, on_x_axis, on_y_axis, change. cbn.
  destruct lx, ly, mx, my, b; cbn; rewrite ?app_nil_r; reflexivity.
Qed.

(** *** Drawing *)
Lemma bind_ok {A B} (m : P A) (k : A -> P B) s s' b : pbind m k s = (s', Ok b) -> exists a s1, m s = (s1, Ok a) /\ k a s1 = (s', Ok b).
Proof. unfold pbind. destruct (m s) as [s1 [a|e]]; cbn; [eauto|discriminate]. Qed.

Section Draw.
Variable lib : shape -> res unit.
Lemma ax_draw_ok f x y ex xt s s' : ax_draw lib f x y ex xt s = (s', Ok tt) ->
  exists k ax xs ay ys, call ex xt = Ok k /\ onto (x_axis (now s)) x = Ok (ax, xs) /\
    match y with None => ay = y_axis (now s) /\ ys = None | Some v => exists l, onto (y_axis (now s)) v = Ok (ay, l) /\ ys = Some l end /\
    s' = mkScreen (mkPicture ax ay (shapes (now s) ++ [mkShape f xs ys k])) (shown s).
Proof.
  unfold ax_draw. intros H. apply bind_ok in H. destruct H as (k & s1 & C & H). unfold plift in C. injection C as <- C. revert H.
  destruct (onto (x_axis (now s)) x) as [[ax xs]|] eqn:X; [|discriminate]. destruct y as [v|].
  - destruct (onto (y_axis (now s)) v) as [[ay l]|] eqn:Y; cbn [rbind fst snd]; [|discriminate]. destruct (lib _); [|discriminate].
    intros H. injection H as <-. exists k, ax, xs, ay, (Some l). eauto 10.
  - destruct (lib _); [|discriminate]. intros H. injection H as <-. exists k, ax, xs, (y_axis (now s)), None. auto 10.
Qed.
Definition log_if (b : bool) (a : axis) : axis := if b then with_log a else a.
Lemma sns_draw_ok f x y ex xt bx by_ s s' : sns_draw lib f x y ex xt bx by_ s = (s', Ok tt) ->
  exists k, call ex xt = Ok k /\
    s' = mkScreen (mkPicture (log_if bx (x_axis (now s))) (log_if by_ (y_axis (now s))) (shapes (now s) ++ [mkShape f (nums x) (option_map nums y) k])) (shown s).
Proof.
  unfold sns_draw. intros H. apply bind_ok in H. destruct H as (k & s1 & C & H). unfold plift in C. injection C as <- C.
  apply bind_ok in H. destruct H as ([] & s2 & L & H). unfold plift in L. injection L as <- _.
  exists k. split; [exact C|]. revert H. unfold pbind, put, change, on_x_axis, on_y_axis, pret. destruct bx, by_; cbn; intros H; now injection H as <-.
Qed.


(** The two parts of plot_1D_dist and plot_2D_dist: drawing, and what follows. *)
Definition draw_1D (x : qarr) (w : option (list num)) (d : string) (lg : log_arg) (c : obj) (kwargs : kw) : P unit :=
  let plot_args := update_kw kwargs (defaults_1D d) in
  let given := [("weights", weights_obj w); ("color", c)] in
  if String.eqb d "hist" then ax_draw lib "hist" (if log_truth lg then mkArr (map nlog10 (nums x)) None else x) None given plot_args
  else if String.eqb d "kde" then sns_draw lib "kdeplot" x None (given ++ [("log_scale", log_obj lg)]) plot_args (fst (log_pair lg)) false
  else if String.eqb d "ecdf" then sns_draw lib "ecdfplot" x None (given ++ [("log_scale", log_obj lg)]) plot_args (fst (log_pair lg)) false
  else pret tt.
Definition draw_2D (x y : qarr) (w : option (list num)) (d : string) (lg : log_arg) (size : num) (c : obj) (kwargs : kw) : P unit :=
  let log := log_pair lg in
  let plot_args := update_kw kwargs (defaults_2D d) in
  if String.eqb d "scatter" then
    let s := match w with None => ONum size | Some w => OArr (map (fun v => nmul v size) w) end in
    _ <-- ax_draw lib "scatter" x (Some y) [("s", s); ("color", c)] plot_args ;;
    _ <-- (if fst log then on_x_axis with_log else pret tt) ;;
    if snd log then on_y_axis with_log else pret tt
  else if String.eqb d "kde" then
    sns_draw lib "kdeplot" x (Some y) [("weights", weights_obj w); ("color", c); ("log_scale", OPair (fst log) (snd log))] plot_args (fst log) (snd log)
  else pret tt.
Definition log_limits (d : string) (lg : log_arg) (v : num * num) : num * num :=
  if String.eqb d "hist" && log_truth lg then (nlog10 (fst v), nlog10 (snd v)) else v.
Lemma plot_1D_parts x w d lg l kwargs s : plot_1D_dist lib x w d lg l kwargs s = pbind (draw_1D x w d lg (l_color l) kwargs) (fun _ => finish l (log_limits d lg)) s.
Proof.
  unfold plot_1D_dist, draw_1D, finish, log_limits, pbind, if_given. cbv zeta. destruct (_ s) as [s1 [[]|e]]; cbn [fst snd]; [|reflexivity].
  destruct (_ && _), (l_xlim l); reflexivity.
Qed.
Lemma plot_2D_parts x y w d lg z l kwargs s : plot_2D_dist lib x y w d lg z l kwargs s = pbind (draw_2D x y w d lg z (l_color l) kwargs) (fun _ => finish l (fun v => v)) s.
Proof. reflexivity. Qed.

(** Drawing adds shapes, may set units and scales, and leaves the rest alone. *)
Definition same_texts (a b : axis) : Prop := label a = label b /\ limits a = limits b.
Lemma onto_texts a v b l : onto a v = Ok (b, l) -> same_texts a b.
Proof.
  unfold onto. destruct (in_u v), (unit_on a); [|intros E; injection E as <- <-; now split| |]; try (intros E; injection E as <- <-; now split).
  destruct (dim_eqb _ _); [|discriminate]. intros E. injection E as <- <-. now split.
Qed.
Definition keeps (m : P unit) : Prop := forall s s', m s = (s', Ok tt) ->
  same_texts (x_axis (now s)) (x_axis (now s')) /\ same_texts (y_axis (now s)) (y_axis (now s')) /\ shown s' = shown s.
Lemma keeps_ret : keeps (pret tt).
Proof. intros s s' E. injection E as <-. now repeat split. Qed.
Lemma keeps_bind m k : keeps m -> keeps k -> keeps (pbind m (fun _ => k)).
Proof.
  intros M K s s' E. apply bind_ok in E. destruct E as ([] & s1 & E1 & E2). destruct (M _ _ E1) as ((A1 & A2) & (A3 & A4) & A5), (K _ _ E2) as ((B1 & B2) & (B3 & B4) & B5).
  split; [split; congruence|]. split; [split; congruence|congruence].
Qed.
Lemma keeps_ax f x y ex xt : keeps (ax_draw lib f x y ex xt).
Proof.
  intros s s' E. apply ax_draw_ok in E. destruct E as (k & ax & xs & ay & ys & _ & X & Y & ->). cbn [now shown x_axis y_axis]. split; [eapply onto_texts; exact X|].
  split; [|reflexivity]. destruct y as [v|]; [destruct Y as (l & Y & _); eapply onto_texts; exact Y|]. destruct Y as (-> & _). now split.
Qed.
Lemma keeps_sns f x y ex xt a b : keeps (sns_draw lib f x y ex xt a b).
Proof.
  intros s s' E. apply sns_draw_ok in E. destruct E as (k & _ & ->). cbn [now shown x_axis y_axis]. destruct a, b; now repeat split.
Qed.
Lemma keeps_log_x (b : bool) : keeps (if b then on_x_axis with_log else pret tt).
Proof. destruct b; [|apply keeps_ret]. intros s s' E. injection E as <-. now repeat split. Qed.
Lemma keeps_log_y (b : bool) : keeps (if b then on_y_axis with_log else pret tt).
Proof. destruct b; [|apply keeps_ret]. intros s s' E. injection E as <-. now repeat split. Qed.
Lemma keeps_1D x w d lg c kwargs : keeps (draw_1D x w d lg c kwargs).
Proof.
  unfold draw_1D. destruct (String.eqb d "hist"); [apply keeps_ax|]. destruct (String.eqb d "kde"); [apply keeps_sns|].
  destruct (String.eqb d "ecdf"); [apply keeps_sns|apply keeps_ret].
Qed.
Lemma keeps_2D x y w d lg z c kwargs : keeps (draw_2D x y w d lg z c kwargs).
Proof.
  unfold draw_2D. destruct (String.eqb d "scatter"); [|destruct (String.eqb d "kde"); [apply keeps_sns|apply keeps_ret]].
  cbv zeta. apply keeps_bind; [apply keeps_ax|]. apply keeps_bind; [apply keeps_log_x|apply keeps_log_y].
Qed.

(** *** Limits, labels and show *)
Definition effects (l : look) (f : num * num -> num * num) (s s' : screen) : Prop :=
  asked (l_xlabel l) (label (x_axis (now s))) (label (x_axis (now s'))) /\ asked (l_ylabel l) (label (y_axis (now s))) (label (y_axis (now s'))) /\
  asked (option_map f (l_xlim l)) (limits (x_axis (now s))) (limits (x_axis (now s'))) /\ asked (l_ylim l) (limits (y_axis (now s))) (limits (y_axis (now s'))) /\
  shown s' = shown s ++ (if l_show l then [now s'] else []).
Lemma finish_effects l f m s s' : keeps m -> pbind m (fun _ => finish l f) s = (s', Ok tt) -> effects l f s s'.
Proof.
  intros K E. apply bind_ok in E. destruct E as ([] & s1 & E1 & E2). destruct (K _ _ E1) as ((A1 & A2) & (A3 & A4) & A5).
  rewrite finish_eq in E2. injection E2 as <-. unfold effects, finished. cbn [now x_axis y_axis label limits shown]. rewrite A1, A2, A3, A4, A5.
  unfold asked, or_else. destruct (l_xlabel l), (l_ylabel l), (l_xlim l), (l_ylim l); cbn; auto.
Qed.
Theorem effects_1D x w d lg l kwargs s s' : plot_1D_dist lib x w d lg l kwargs s = (s', Ok tt) -> effects l (log_limits d lg) s s'.
Proof. rewrite plot_1D_parts. apply finish_effects, keeps_1D. Qed.
Theorem effects_2D x y w d lg z l kwargs s s' : plot_2D_dist lib x y w d lg z l kwargs s = (s', Ok tt) -> effects l (fun v => v) s s'.
Proof. rewrite plot_2D_parts. apply finish_effects, keeps_2D. Qed.

(** *** What is drawn, with which keyword arguments *)
Definition explicit_1D (w : option (list num)) (d : string) (lg : log_arg) (c : obj) : kw :=
  [("weights", weights_obj w); ("color", c)] ++ (if String.eqb d "hist" then [] else [("log_scale", log_obj lg)]).
Definition explicit_2D (w : option (list num)) (d : string) (lg : log_arg) (z : num) (c : obj) : kw :=
  if String.eqb d "scatter" then [("s", match w with None => ONum z | Some w => OArr (map (fun v => nmul v z) w) end); ("color", c)]
  else [("weights", weights_obj w); ("color", c); ("log_scale", OPair (fst (log_pair lg)) (snd (log_pair lg)))].
Theorem drawn_1D x w d lg l kwargs s s' : known_1D d -> plot_1D_dist lib x w d lg l kwargs s = (s', Ok tt) ->
  exists sh ax, shapes (now s') = shapes (now s) ++ [sh] /\
    unit_on (x_axis (now s')) = unit_on ax /\ log_axis (x_axis (now s')) = log_axis ax /\
    call (explicit_1D w d lg (l_color l)) (update_kw kwargs (defaults_1D d)) = Ok (options sh) /\
    if String.eqb d "hist" then onto (x_axis (now s)) (if log_truth lg then mkArr (map nlog10 (nums x)) None else x) = Ok (ax, on_x sh)
    else ax = log_if (fst (log_pair lg)) (x_axis (now s)) /\ on_x sh = nums x.
Proof.
  rewrite plot_1D_parts. intros D E. apply bind_ok in E. destruct E as ([] & s1 & E1 & E2). rewrite finish_eq in E2. injection E2 as <-.
  cbn [now shapes x_axis finished unit_on log_axis]. unfold draw_1D in E1. unfold explicit_1D. destruct D as [->|[->| ->]]; cbn [String.eqb Ascii.eqb Bool.eqb] in *.
  - apply ax_draw_ok in E1. destruct E1 as (k & ax & xs & ay & ys & C & X & _ & ->). eexists (mkShape _ xs _ k), ax. cbn [now shapes x_axis options on_x]. rewrite app_nil_r. auto.
  - apply sns_draw_ok in E1. destruct E1 as (k & C & ->). eexists (mkShape _ _ _ k), _. cbn [now shapes x_axis options on_x]. auto 10.
  - apply sns_draw_ok in E1. destruct E1 as (k & C & ->). eexists (mkShape _ _ _ k), _. cbn [now shapes x_axis options on_x]. auto 10.
Qed.
Theorem drawn_2D x y w d lg z l kwargs s s' : known_2D d -> plot_2D_dist lib x y w d lg z l kwargs s = (s', Ok tt) ->
  exists sh ax ay ys, shapes (now s') = shapes (now s) ++ [sh] /\ on_y sh = Some ys /\
    unit_on (x_axis (now s')) = unit_on ax /\ unit_on (y_axis (now s')) = unit_on ay /\
    log_axis (x_axis (now s')) = fst (log_pair lg) || log_axis (x_axis (now s)) /\ log_axis (y_axis (now s')) = snd (log_pair lg) || log_axis (y_axis (now s)) /\
    call (explicit_2D w d lg z (l_color l)) (update_kw kwargs (defaults_2D d)) = Ok (options sh) /\
    if String.eqb d "scatter" then onto (x_axis (now s)) x = Ok (ax, on_x sh) /\ onto (y_axis (now s)) y = Ok (ay, ys)
    else ax = x_axis (now s) /\ ay = y_axis (now s) /\ on_x sh = nums x /\ ys = nums y.
Proof.
  rewrite plot_2D_parts. intros D E. apply bind_ok in E. destruct E as ([] & s1 & E1 & E2). rewrite finish_eq in E2. injection E2 as <-.
  cbn [now shapes x_axis y_axis finished unit_on log_axis]. unfold draw_2D in E1. unfold explicit_2D.
  assert (LO : forall a v b l, onto a v = Ok (b, l) -> log_axis b = log_axis a).
  { intros a v b r. unfold onto. destruct (in_u v), (unit_on a); try (intros E; injection E as <- <-; reflexivity).
    destruct (dim_eqb _ _); [|discriminate]. intros E. injection E as <- <-. reflexivity. }
  destruct D as [-> | ->]; cbn [String.eqb Ascii.eqb Bool.eqb] in *.
  - cbv zeta in E1. apply bind_ok in E1. destruct E1 as ([] & s2 & E1 & E2).
    apply ax_draw_ok in E1. destruct E1 as (k & ax & xs & ay & ys & C & X & (r & Y & ->) & ->). eexists (mkShape _ xs _ k), ax, ay, r.
    unfold pbind, on_x_axis, on_y_axis, change, pret in E2.
    rewrite <- (LO _ _ _ _ X), <- (LO _ _ _ _ Y).
    destruct (fst (log_pair lg)), (snd (log_pair lg)); cbn in E2; injection E2 as <-; cbn [now shapes x_axis y_axis options on_x on_y with_log unit_on log_axis orb]; auto 12.
  - apply sns_draw_ok in E1. destruct E1 as (k & C & ->). eexists (mkShape _ _ _ k), _, _, (nums y). cbn [now shapes x_axis y_axis options on_x on_y option_map].
    destruct (fst (log_pair lg)), (snd (log_pair lg)); cbn [log_if with_log unit_on log_axis orb]; auto 12.
Qed.
End Draw.
