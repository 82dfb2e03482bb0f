(** PropStyle.v -- C72, C90: plotting functions leave global settings alone. *)
From Coq Require Import String List Bool ZArith.
From Verif Require Import Num Style StyleSpec StyleFacts.
Import ListNotations.
Open Scope string_scope.

(** ** C72: style parameters *)
(** After any call tree of plotting functions, nested and raising anywhere, the style parameters are those before. *)
Theorem C72_call_trees : forall validate p, call_tree p -> forall w, same_style w (fst (exec validate p w)).
Proof. exact tree_thm. Qed.
Print Assumptions C72_call_trees.
(** The four plotting functions, whatever they call and wherever this raises. *)
Theorem C72_functions : forall validate before draw after supplied detectable curve middle points w,
  same_style w (fst (exec validate (style_1D before draw after) w)) /\ same_style w (fst (exec validate (style_2D before draw after) w)) /\
  same_style w (fst (exec validate (style_curve before draw after) w)) /\
  same_style w (fst (exec validate (style_on_sc supplied detectable curve middle points after) w)).
Proof. exact functions_thm. Qed.
Print Assumptions C72_functions.
(** The methods of a collection, which call one of them. *)
Theorem C72_methods : forall validate computed call rest, match call with Some p => exists body, p = legwork_plot_style body | None => True end ->
  forall w, same_style w (fst (exec validate (style_method computed call rest) w)).
Proof. exact methods_thm. Qed.
Print Assumptions C72_methods.
(** What follows a call runs as if nothing had happened to the style. *)
Theorem C72_after_call : forall validate body c w, exists w' r, exec validate (legwork_plot_style body) w = (w', r) /\
  exec validate (bind (legwork_plot_style body) c) w = exec validate (c r) w' /\ same_style w w'.
Proof. exact after_call. Qed.
Print Assumptions C72_after_call.
(** Inside, LEGWORK's style is in force, also in nested calls. *)
Theorem C72_style_in_force : forall validate body w, (forall k v, List.In (k, v) style_params -> exists v', validate k v = Ok v') ->
  exists w1, in_style validate w1 /\ same_rest w w1 /\ snd (exec validate (legwork_plot_style body) w) = snd (exec validate body w1).
Proof. exact inside_thm. Qed.
Print Assumptions C72_style_in_force.
(** In this style text is set in a serif font without TeX, and minor ticks are shown. *)
Theorem C72_style : forall validate w, in_style validate w ->
  validate "font.family" (RStr "serif") = Ok (g_rc w "font.family") /\ validate "text.usetex" (RBool false) = Ok (g_rc w "text.usetex") /\
  validate "xtick.minor.visible" (RBool true) = Ok (g_rc w "xtick.minor.visible") /\ validate "ytick.minor.visible" (RBool true) = Ok (g_rc w "ytick.minor.visible").
Proof. exact style_thm. Qed.
Print Assumptions C72_style.
(** If matplotlib refuses one of LEGWORK's settings the call raises and the style is that before. *)
Theorem C72_style_refused : forall validate body w e, snd (update validate style_params w) = Err e ->
  exists w', exec validate (legwork_plot_style body) w = (w', Err e) /\ same_style w w'.
Proof. exact refused_thm. Qed.
Print Assumptions C72_style_refused.
(** A caller that catches the exception of a plot in which a nested plot changed the font size and raised. *)
(** Nothing is swallowed or left out: a call ends with the first exception of its steps, or returns if there is none. *)
Theorem C72_outcome : forall validate before draw after curve middle points r1 r2 r3 rc rm rp supplied detectable, accepted validate ->
  ends validate before r1 -> ends validate draw r2 -> ends validate after r3 -> ends validate curve rc -> ends validate middle rm -> ends validate points rp ->
  ends validate (style_1D before draw after) (first_error [r1; r2; r3]) /\ ends validate (style_2D before draw after) (first_error [r1; r2; r3]) /\
  ends validate (style_curve before draw after) (first_error [r1; r2; r3]) /\
  ends validate (style_on_sc supplied detectable curve middle points after) (first_error ((if supplied then [] else [rc]) ++ [rm] ++ (if detectable then [rp; r3] else []))).
Proof. exact outcome_thm. Qed.
Print Assumptions C72_outcome.
Theorem C72_method_outcome : forall validate computed call rest rp, match call with Some p => ends validate p rp | None => rp = Ok tt end ->
  ends validate (style_method computed call rest) (first_error [computed; rp; rest]).
Proof. exact method_outcome. Qed.
Print Assumptions C72_method_outcome.
Example C72_outcome_satisfiable : accepted (fun _ v => Ok v) /\ ends (fun _ v => Ok v) (Look (fun w => Assign "axes.labelsize" (ROther 5) (fun _ => Ret (Err ValueError)))) (Err ValueError) /\
  first_error [Ok tt; Err ValueError; Err KeyError] = Err ValueError.
Proof. split; [intros k v _; now exists v|]. split; [intros w|]; reflexivity. Qed.
Definition nested : prog :=
  bind (legwork_plot_style (seq (legwork_plot_style (Assign "axes.labelsize" (ROther 5) (fun _ => Ret (Err ValueError)))) skip)) (fun _ => Ret (Ok tt)).
Example C72_satisfiable : call_tree nested /\ (forall k v, List.In (k, v) style_params -> exists v', (fun (_ : string) v => Ok v) k v = Ok v') /\
  exec (fun _ v => Ok v) nested (mkGlobals (fun _ => ROther 0) None []) <> (mkGlobals (fun _ => ROther 0) None [], Err ValueError) /\
  snd (exec (fun _ v => Ok v) (legwork_plot_style (seq (legwork_plot_style (Assign "axes.labelsize" (ROther 5) (fun _ => Ret (Err ValueError)))) skip))
         (mkGlobals (fun _ => ROther 0) None [])) = Err ValueError /\
  exists e, snd (update (fun k v => if String.eqb k "legend.title_fontsize" then Err KeyError else Ok v) style_params (mkGlobals (fun _ => ROther 0) None [])) = Err e.
Proof.
  split; [apply tree_call; intros r; constructor|]. split; [intros k v _; now exists v|]. split; [discriminate|]. split; [reflexivity|]. now exists KeyError.
Qed.

(** ** C90: unit converters and warning filters *)
(** All plotting functions and methods leave them as they found them, if the calls into matplotlib and seaborn do; what is called in
    the innermost block need not keep the converter, and in that of the curve not the filters either. *)
Theorem C90_converters_and_filters : forall validate before draw draw' after supplied detectable middle computed rest,
  tidy validate before -> keeps_filters validate draw -> tidy validate after -> tidy validate middle ->
  let curve := style_curve before draw' after in
  let points := style_2D before draw after in
  let on_sc := style_on_sc supplied detectable curve middle points after in
  tidy validate (style_1D before draw after) /\ tidy validate points /\ tidy validate curve /\ tidy validate on_sc /\
  tidy validate (style_method computed (Some on_sc) rest) /\ tidy validate (style_method computed (Some points) rest).
Proof. exact tidy_thm. Qed.
Print Assumptions C90_converters_and_filters.
(** Drawing that registers a converter of its own and raises. *)
Example C90_satisfiable : let validate := fun (_ : string) (v : rcval) => Ok v in
  tidy validate skip /\ keeps_filters validate (Register (Some 7%nat) (Ret (Err ValueError))) /\ ~ tidy validate (Register (Some 7%nat) (Ret (Err ValueError))).
Proof.
  cbv zeta. split; [apply skip_tidy|]. split; [intros w; reflexivity|]. intros T. destruct (T (mkGlobals (fun _ => ROther 0) None [])) as [H _]. discriminate H.
Qed.
