(** ReadsSpec.v -- what the values in sc_params stand for (C82). *)
From Coq Require Import String Reals List.
From Verif Require Import Num Np Psd Snr ScParams CurveSpec.
Import ListNotations.
Open Scope string_scope.

(** The value of the parameter [k]: the one supplied, otherwise the documented default. *)
Definition value_of (k : string) (d : dict) (v : pval) : Prop := lookup k d = Some v \/ (lookup k d = None /\ v = default_of k).
(** A Quantity stands for itself; times and lengths may be "auto". *)
Inductive stands_for : pval -> auto num -> Prop :=
| stands_auto : stands_for (PStr "auto") Auto
| stands_value q : stands_for (PVal q) (Given q).
(** None or one of the user's functions. *)
Inductive stands_for_curve (x : ext) : pval -> option psd_fun -> Prop :=
| stands_none : stands_for_curve x PNil None
| stands_fun i : stands_for_curve x (PFun i) (Some (x_psd_fun x i)).
(** The name of a confusion model, None, or one of the user's functions. *)
Inductive stands_for_noise (x : ext) : pval -> conf -> Prop :=
| stands_name s : stands_for_noise x (PStr s) (CName s)
| stands_no_noise : stands_for_noise x PNil CNone
| stands_noise i : stands_for_noise x (PFun i) (CFun (x_conf_fun x i)).
(** The arguments of power_spectral_density that the dictionary [d] stands for. *)
Definition reads (x : ext) (d : dict) (i : string) (c : option psd_fun) (t L : auto num) (b : bool) (cf : conf) : Prop :=
  (forall k, In k (keys d) -> In k documented) /\ value_of "instrument" d (PStr i) /\ value_of "approximate_R" d (PBool b) /\
  (exists v, value_of "custom_psd" d v /\ stands_for_curve x v c) /\ (exists v, value_of "t_obs" d v /\ stands_for v t) /\
  (exists v, value_of "L" d v /\ stands_for v L) /\ (exists v, value_of "confusion_noise" d v /\ stands_for_noise x v cf).
