(** ScParams.v -- sensitivity curve parameters: the dictionary behind Source.sc_params (source.py L30-37, L1518-1590)
    and the interpolated curve made from it (source.py L641-658). *)
From Coq Require Import String Reals ZArith List Bool.
From Verif Require Import Num Np Utils Psd Snr Interp Evol Harmonics.
Import ListNotations.
Open Scope num_scope.
Open Scope res_scope.
Open Scope string_scope.

(** Python values found in the dictionary: a string, None, a bool, a Quantity of the right dimension (SI value), a
    function (identified by a number, compared by identity). *)
Inductive pval := PStr (s : string) | PNil | PBool (b : bool) | PVal (x : num) | PFun (id : nat).
(** [a == b].  Values of different kinds differ (simplification: True == 1 and the like do not arise, a Quantity is
    not equal to a bare number). *)
Definition peqb (a b : pval) : bool :=
  match a, b with
  | PStr s, PStr t => String.eqb s t
  | PNil, PNil => true
  | PBool x, PBool y => Bool.eqb x y
  | PVal x, PVal y => neqb x y
  | PFun i, PFun j => Nat.eqb i j
  | _, _ => false
  end.

(** A dict with string keys, in insertion order. *)
Definition dict := list (string * pval).
Fixpoint lookup (k : string) (d : dict) : option pval :=
  match d with [] => None | (k', v) :: t => if String.eqb k k' then Some v else lookup k t end.
(** [d[k] = v]: an existing key keeps its place. *)
Fixpoint put (k : string) (v : pval) (d : dict) : dict :=
  match d with
  | [] => [(k, v)]
  | (k', v') :: t => if String.eqb k k' then (k', v) :: t else (k', v') :: put k v t
  end.
Definition put_all (new d : dict) : dict := fold_left (fun d kv => put (fst kv) (snd kv) d) new d.
Definition keys (d : dict) : list string := map fst d.
(** [d.get(k)]: None when absent. *)
Definition get_or_none (k : string) (d : dict) : pval := match lookup k d with Some v => v | None => PNil end.
(** [d1 == d2]: the same keys with equal values, whatever their order. *)
Definition dict_eqb (d1 d2 : dict) : bool :=
  (length d1 =? length d2)%nat &&
  forallb (fun kv => match lookup (fst kv) d2 with Some v => peqb (snd kv) v | None => false end) d1.

(** source.py L30-37, [DEFAULT_SC_PARAMS]. *)
Definition default_params : dict :=
  [("instrument", PStr "LISA"); ("custom_psd", PNil); ("t_obs", PStr "auto"); ("L", PStr "auto");
   ("approximate_R", PBool false); ("confusion_noise", PStr "auto")].
Definition known (k : string) : bool := existsb (String.eqb k) (keys default_params).
(** L1551-1558, [_check_keys]. *)
Definition check_keys (ks : list string) : res unit := if forallb known ks then Ok tt else Err KeyError.
(** L1543-1549, [__init__]: the defaults overwritten by what is supplied ([None] is [{}]). *)
Definition make_params (params : dict) : res dict :=
  _ <- check_keys (keys params) ;; Ok (put_all params default_params).

(** The world outside the Source class: the packaged files, scipy's routines, the user's functions (by identity), the
    completion order of a pool running k tasks, the interpolated g(n,e) of peters_g.npy (source.py L632-637) and the
    random draws for n inclinations and polarisations (L151-157). *)
Record ext := mkExt { x_psd : psd_env; x_jv : Z -> num -> num; x_quad : quad_t; x_odeint : odeint_t;
                      x_sched : nat -> list nat; x_lum : lum_info; x_g : Z -> num -> num;
                      x_psd_fun : nat -> psd_fun; x_conf_fun : nat -> freq_arg -> num -> res (list num);
                      x_inc : nat -> list num; x_pol : nat -> list num }.

(** How power_spectral_density uses each value (psd.py L311-339).
    The instrument is compared with known names; anything else ends in ValueError. *)
Definition name_of (v : pval) : string := match v with PStr s => s | _ => "" end.
(** Calling something that is not a function raises TypeError. *)
Definition custom_of (x : ext) (v : pval) : option psd_fun := match v with PFun i => Some (x_psd_fun x i) | _ => None end.
(** [if approximate_R]. *)
Definition truthy (v : pval) : bool :=
  match v with
  | PStr s => negb (String.eqb s "") | PNil => false | PBool b => b
  | PVal r => negb (neqb r (Fin 0)) | PFun _ => true
  end.
(** A confusion noise that is neither a string, None nor a function matches no model (ValueError). *)
Definition conf_of (x : ext) (v : pval) : conf :=
  match v with
  | PStr s => CName s | PNil => CNone | PFun i => CFun (x_conf_fun x i)
  | PBool _ | PVal _ => CName ""
  end.
(** Times and lengths: "auto" or a Quantity.  Simplification: anything else raises TypeError at once. *)
Definition quantity_of (v : pval) : res (auto num) :=
  match v with
  | PStr s => if String.eqb s "auto" then Ok Auto else Err TypeError
  | PVal r => Ok (Given r)
  | _ => Err TypeError
  end.
(** The value of a parameter in a call [f( **params)]: the default of power_spectral_density (psd.py L275-277) is the
    one of DEFAULT_SC_PARAMS. *)
Definition param (k : string) (d : dict) : pval :=
  match lookup k d with Some v => v | None => get_or_none k default_params end.
(** The keyword arguments without t_obs. *)
Definition kw_of (x : ext) (d : dict) : res psd_kwargs :=
  L <- quantity_of (param "L" d) ;;
  Ok (mkKw (name_of (param "instrument" d)) (custom_of x (param "custom_psd" d)) L (truthy (param "approximate_R" d))
           (conf_of x (param "confusion_noise" d))).
(** [psd.power_spectral_density(f, **params)]; an unexpected keyword raises TypeError. *)
Definition psd_of (x : ext) (d : dict) (f : list num) : res (list num) :=
  if negb (forallb known (keys d)) then Err TypeError
  else
    t_obs <- quantity_of (param "t_obs" d) ;;
    kw <- kw_of x d ;;
    power_spectral_density (x_psd x) f (kw_instrument kw) (kw_custom kw) t_obs (kw_L kw) (kw_approximate_R kw)
                           (kw_confusion kw).

(** source.py L649-656: the frequency grid and the interpolated curve.  interp1d raises ValueError when a custom curve
    returns another number of values. *)
Definition log10_2 : R := ln 2 / ln 10.
Definition curve_grid : list num := map Fin (logspace (-7) log10_2 (Z.to_nat 10000)).
Definition curve_of (x : ext) (d : dict) : res (num -> num) :=
  sc <- psd_of x d curve_grid ;;
  if (length sc =? length curve_grid)%nat then Ok (interp1d curve_grid sc (Fin 1e30) (Fin 1e30)) else Err ValueError.
