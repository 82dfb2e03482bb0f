(** History.v -- what a user can do to one Source object, as a list of operations (source.py). *)
From Coq Require Import String Reals ZArith List Bool.
From Verif Require Import Num Np Utils Strain Psd Snr Interp Evol Harmonics ScParams Source.
Import ListNotations.
Open Scope num_scope.
Open Scope m_scope.

(** [sources.sc_params |= new] (L1518: the class inherits dict.__ior__, which writes the keys without any check and
    returns the same object; Python then assigns the result to sources.sc_params, L679-686). *)
Definition params_ior (x : ext) (new : dict) : M unit :=
  _ <<- modify (fun s => put_params (put_all new (s_params s)) s) ;;
  s <<- self ;;
  assign_params x (s_params s) (Some (s_params s)).
(** [sources.sc_params.setdefault(k, v)], inherited from dict. *)
Definition params_setdefault (k : string) (v : pval) : M unit :=
  modify (fun s => match lookup k (s_params s) with Some _ => s | None => put_params (put k v (s_params s)) s end).
(** [del sources.sc_params[k]], pop, popitem, clear: L1585-1590. *)
Definition params_remove : M unit := raise TypeError.

Inductive op :=
| SetItem (k : string) (v : pval) | Update (new : dict) | Assign (new : dict) | Ior (new : dict)
| SetDefault (k : string) (v : pval) | Remove | Toggle (b : bool) | SetSc | SetG (b : bool) | Tolerance (tol : num)
| SetA (a : pyval num unit) | Snr (a : snr_args) (n_step : nat) (which : option (list bool))
| SnrStationary (a : snr_args) (which : option (list bool))
| SnrEvolving (a : snr_args) (n_step : nat) (which : option (list bool))
| MergerTime (save : bool) (which : option (list bool)) (exact : bool) | Evolve (t : tevol).
Definition discard {A} (m : M A) : M unit := _ <<- m ;; ret tt.
Definition step (x : ext) (o : op) : M unit :=
  match o with
  | SetItem k v => params_setitem x k v
  | Update new => params_update x new
  | Assign new => s <<- self ;; assign_params x new (Some (s_params s))
  | Ior new => params_ior x new
  | SetDefault k v => params_setdefault k v
  | Remove => params_remove
  | Toggle b => modify (set_interpolate_sc b)
  | SetSc => set_sc x
  | SetG b => set_g x b
  | Tolerance tol => assign_gw_lum_tol x tol
  | SetA a => a_setter a
  | Snr a n which => discard (get_snr x a n which)
  | SnrStationary a which => discard (get_snr_stationary x a which)
  | SnrEvolving a n which => discard (get_snr_evolving x a n which)
  | MergerTime save which exact => discard (get_merger_time x save which exact)
  | Evolve t => evolve_sources x t
  end.
(** A history: every operation is carried out whatever the earlier ones returned. *)
Fixpoint run (x : ext) (ops : list op) (s : src) : src * list (res unit) :=
  match ops with
  | [] => (s, [])
  | o :: rest => let '(s1, r) := step x o s in let '(s2, rs) := run x rest s1 in (s2, r :: rs)
  end.
