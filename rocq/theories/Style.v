(** Style.v -- model of the global settings that plotting functions change while they run: matplotlib's rcParams
    (visualisation.py L11-41), the unit converters of matplotlib and the warning filters of Python.

    A function is a program over these settings; what it computes and draws (Vis.v) is left out.  The calls into matplotlib,
    seaborn, numpy and the user's own noise functions are arbitrary programs, which may read and change the settings and raise. *)
From Coq Require Import String List Bool ZArith.
From Verif Require Import Num.
Import ListNotations.
Open Scope string_scope.

(** Values of parameters. *)
Inductive rcval := RStr (s : string) | RBool (b : bool) | RNum (q : Z * positive) | RPair (a b : Z) | ROther (i : nat).
(** The settings: rcParams (its keys are fixed: assigning to an unknown one raises KeyError), the converter matplotlib has
    registered for quantities (None: none) and the warning filters. *)
Record globals := mkGlobals { g_rc : string -> rcval; g_converter : option nat; g_filters : list nat }.
Definition set_rc (k : string) (v : rcval) (w : globals) : globals :=
  mkGlobals (fun k' => if String.eqb k' k then v else g_rc w k') (g_converter w) (g_filters w).
Definition with_rc (rc : string -> rcval) (w : globals) : globals := mkGlobals rc (g_converter w) (g_filters w).
Definition with_converter (c : option nat) (w : globals) : globals := mkGlobals (g_rc w) c (g_filters w).
Definition with_filters (l : list nat) (w : globals) : globals := mkGlobals (g_rc w) (g_converter w) l.

(** visualisation.py L12-29. *)
Definition style_params : list (string * rcval) :=
  [("font.family", RStr "serif"); ("text.usetex", RBool false); ("figure.figsize", RPair 12 8); ("axes.titlesize", RNum (24%Z, 1%positive));
   ("legend.title_fontsize", RNum (18%Z, 1%positive)); ("legend.fontsize", RNum (16%Z, 1%positive)); ("axes.labelsize", RNum (24%Z, 1%positive));
   ("xtick.labelsize", RNum (21%Z, 1%positive)); ("ytick.labelsize", RNum (21%Z, 1%positive)); ("axes.linewidth", RNum (11%Z, 10%positive));
   ("xtick.major.size", RNum (7%Z, 1%positive)); ("xtick.minor.size", RNum (4%Z, 1%positive)); ("ytick.major.size", RNum (7%Z, 1%positive));
   ("ytick.minor.size", RNum (4%Z, 1%positive)); ("xtick.minor.visible", RBool true); ("ytick.minor.visible", RBool true)].

(** The context managers in use: plt.rc_context(style_params), quantity_support() and warnings.catch_warnings(). *)
Inductive manager := StyleContext | QuantitySupport | CatchWarnings.
(** Programs: return or raise; look at the settings; assign a parameter; register a converter; change the filters; run a
    block in a context manager.  Each goes on with the outcome, so that exceptions can be caught. *)
Inductive prog :=
| Ret (r : res unit)
| Look (c : globals -> prog)
| Assign (k : string) (v : rcval) (c : res unit -> prog)
| Register (o : option nat) (c : prog)
| Filter (l : list nat) (c : prog)
| In (m : manager) (body : prog) (c : res unit -> prog).
(** One statement after the other; an exception skips the rest. *)
Fixpoint bind (p : prog) (k : res unit -> prog) : prog :=
  match p with
  | Ret r => k r
  | Look c => Look (fun w => bind (c w) k)
  | Assign key v c => Assign key v (fun r => bind (c r) k)
  | Register o c => Register o (bind c k)
  | Filter l c => Filter l (bind c k)
  | In m body c => In m body (fun r => bind (c r) k)
  end.
Definition seq (p q : prog) : prog := bind p (fun r => match r with Ok _ => q | Err e => Ret (Err e) end).
Definition skip : prog := Ret (Ok tt).

Section Run.
  (** rcParams validates what is assigned: it raises for unknown parameters and bad values and may convert good ones. *)
  Variable validate : string -> rcval -> res rcval.
  (** rcParams.update: one assignment after the other. *)
  Fixpoint update (l : list (string * rcval)) (w : globals) : globals * res unit :=
    match l with
    | [] => (w, Ok tt)
    | (k, v) :: l => match validate k v with Ok v' => update l (set_rc k v' w) | Err e => (w, Err e) end
    end.
  (** Entering a context: rc_context updates rcParams (and restores them if this fails); quantity_support registers its
      converter; catch_warnings changes nothing. *)
  Definition enter (m : manager) (w : globals) : globals * res unit :=
    match m with
    | StyleContext => update style_params w
    | QuantitySupport => (with_converter (Some 0%nat) w, Ok tt)
    | CatchWarnings => (w, Ok tt)
    end.
  (** Leaving it, normally or by an exception; [w0]: the settings when it was entered.  rc_context restores every parameter but
      "backend", quantity_support the converter it found, catch_warnings the filters. *)
  Definition leave (m : manager) (w0 w : globals) : globals :=
    match m with
    | StyleContext => with_rc (fun k => if String.eqb k "backend" then g_rc w k else g_rc w0 k) w
    | QuantitySupport => with_converter (g_converter w0) w
    | CatchWarnings => with_filters (g_filters w0) w
    end.
  Fixpoint exec (p : prog) (w : globals) : globals * res unit :=
    match p with
    | Ret r => (w, r)
    | Look c => exec (c w) w
    | Assign k v c => match validate k v with Ok v' => exec (c (Ok tt)) (set_rc k v' w) | Err e => exec (c (Err e)) w end
    | Register o c => exec c (with_converter o w)
    | Filter l c => exec c (with_filters l w)
    | In m body c =>
        let (w1, r1) := enter m w in
        let (w2, r) := match r1 with Ok _ => exec body w1 | Err e => (w1, Err e) end in
        exec (c r) (leave m w w2)
    end.
End Run.

Definition raise_or_return (r : res unit) : prog := Ret r.
(** visualisation.py L37-41, the decorator [legwork_plot_style]. *)
Definition legwork_plot_style (func : prog) : prog := In StyleContext func raise_or_return.
(** A with statement. *)
Definition block (m : manager) (body : prog) : prog := In m body raise_or_return.

(** The plotting functions; [before], [draw] and [after] are what they call before, in and after their innermost block. *)
(** visualisation.py L44-170, [plot_1D_dist] (the block: L135-163). *)
Definition style_1D (before draw after : prog) : prog := legwork_plot_style (seq before (seq (block QuantitySupport draw) after)).
(** visualisation.py L173-302, [plot_2D_dist] (the block: L269-295). *)
Definition style_2D (before draw after : prog) : prog := legwork_plot_style (seq before (seq (block QuantitySupport draw) after)).
(** visualisation.py L305-399, [plot_sensitivity_curve] (the blocks: L375-384; the filter: L377-380). *)
Definition add_filter (c : prog) : prog := Look (fun w => Filter (1%nat :: g_filters w) c).
Definition style_curve (before draw after : prog) : prog :=
  legwork_plot_style (seq before (seq (block QuantitySupport (block CatchWarnings (add_filter draw))) after)).
(** visualisation.py L402-511, [plot_sources_on_sc]: the curve unless axes are supplied, then the points if there are any. *)
Definition style_on_sc (supplied detectable : bool) (curve middle points after : prog) : prog :=
  legwork_plot_style (seq (if supplied then skip else curve) (seq middle (if detectable then seq points after else skip))).
(** source.py L1436-1515 and L1320-1434, [Source.plot_sources_on_sc] and [Source.plot_source_variables]: calculations that do not
    touch the settings and may raise, [computed], around at most one call of a plotting function. *)
Definition style_method (computed : res unit) (call : option prog) (rest : res unit) : prog :=
  seq (Ret computed) (seq (match call with Some p => p | None => skip end) (Ret rest)).
