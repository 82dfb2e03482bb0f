(** StyleSpec.v -- vocabulary for global settings (C72, C90). *)
From Coq Require Import String List Bool ZArith.
From Verif Require Import Num Style.
Import ListNotations.
Open Scope string_scope.

(** The same style parameters: all of rcParams but the name of the backend, which is no style. *)
Definition same_style (w w' : globals) : Prop := forall k, k <> "backend" -> g_rc w' k = g_rc w k.
Definition same_rest (w w' : globals) : Prop := g_converter w' = g_converter w /\ g_filters w' = g_filters w.
(** What matplotlib, seaborn and the user's functions do leaves converters and filters alone. *)
Definition tidy validate (p : prog) : Prop := forall w, same_rest w (fst (exec validate p w)).
Definition keeps_filters validate (p : prog) : Prop := forall w, g_filters (fst (exec validate p w)) = g_filters w.
(** Any call tree of plotting functions: calculations that may raise, calls of the four decorated functions with anything inside
    them (also further calls of plotting functions), one after the other or in a try block, whose handler sees the outcome. *)
Inductive call_tree : prog -> Prop :=
| tree_done r : call_tree (Ret r)
| tree_look c : (forall w, call_tree (c w)) -> call_tree (Look c)
| tree_call body c : (forall r, call_tree (c r)) -> call_tree (bind (legwork_plot_style body) c).
(** The style is in force: each of its parameters has its value, as far as matplotlib accepts it. *)
Definition in_style (validate : string -> rcval -> res rcval) (w : globals) : Prop :=
  forall k v, List.In (k, v) style_params -> validate k v = Ok (g_rc w k).
(** [p] ends with [r] (it returns or raises) whatever the settings are. *)
Definition ends validate (p : prog) (r : res unit) : Prop := forall w, snd (exec validate p w) = r.
(** Steps one after the other end with the first exception. *)
Fixpoint first_error (l : list (res unit)) : res unit := match l with [] => Ok tt | Ok _ :: l => first_error l | Err e :: _ => Err e end.
Definition accepted (validate : string -> rcval -> res rcval) : Prop := forall k v, List.In (k, v) style_params -> exists v', validate k v = Ok v'.
