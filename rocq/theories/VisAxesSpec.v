(** VisAxesSpec.v -- vocabulary for labels, limits and keyword arguments of plots (C101-C104). *)
From Coq Require Import String Reals ZArith List Bool.
From Verif Require Import Num Np Utils Strain Evol Source Units VisAxes.
Import ListNotations.
Open Scope string_scope.
Open Scope R_scope.

(** The documented variables of a collection, with a name and a symbol. *)
Inductive named : string -> string -> string -> Prop :=
| named_m_1 : named "m_1" "Primary Mass" "$m_1$"
| named_m_2 : named "m_2" "Secondary Mass" "$m_2$"
| named_m_c : named "m_c" "Chirp Mass" "$\mathcal{M}_c$"
| named_ecc : named "ecc" "Eccentricity" "$e$"
| named_dist : named "dist" "Distance" "$D$"
| named_f_orb : named "f_orb" "Orbital Frequency" "$f_{\rm orb}$"
| named_f_GW : named "f_GW" "Gravitational Wave Frequency" "$f_{\rm GW}$"
| named_a : named "a" "Semi-major axis" "$a$"
| named_snr : named "snr" "Signal-to-noise Ratio" "$\rho$".
(** Their values and their units. *)
Inductive variable_of (c : pop) : string -> qarr -> Prop :=
| var_m_1 : variable_of c "m_1" (p_m_1 c)
| var_m_2 : variable_of c "m_2" (p_m_2 c)
| var_m_c : variable_of c "m_c" (p_m_c c)
| var_ecc : variable_of c "ecc" (mkArr (p_ecc c) (Some one_))
| var_dist : variable_of c "dist" (p_dist c)
| var_f_orb : variable_of c "f_orb" (p_f_orb c)
| var_f_GW : variable_of c "f_GW" (mkArr (map (fun f => nmul f (Fin 2)) (nums (p_f_orb c))) (in_u (p_f_orb c)))
| var_a : variable_of c "a" (p_a c)
| var_snr l : p_snr c = Some l -> variable_of c "snr" (mkArr l (Some one_)).
(** Eccentricities and SNRs have no unit. *)
Definition without_unit (k : string) : Prop := k = "ecc" \/ k = "snr".
(** A label that says that the numbers are the variable [k] in the unit [u], or (with [logs]) the logarithms of these numbers. *)
Inductive says (tex : unit_ -> string) (k : string) (u : unit_) : bool -> string -> Prop :=
| says_unit n s : named k n s -> ~ without_unit k -> says tex k u false (n ++ ", " ++ s ++ " [" ++ tex u ++ "]")
| says_bare n s : named k n s -> without_unit k -> says tex k u false (n ++ ", " ++ s)
| says_log_unit n s : named k n s -> ~ without_unit k -> says tex k u true (n ++ ", $\log_{10} ($" ++ s ++ " / " ++ tex u ++ ")")
| says_log_bare n s : named k n s -> without_unit k -> says tex k u true (n ++ ", $\log_{10} ($" ++ s ++ ")").
(** The axis has the label and counts in [u] (or holds plain numbers). *)
Definition labelled (a : axis) (l : string) : Prop := label a = Some l.
Definition counts_in (a : axis) (u : unit_) : Prop := unit_on a = None \/ unit_on a = Some u.
(** The numbers of the sources marked in [m]. *)
Definition numbers_of (v : qarr) (m : list bool) (l : list num) : Prop := take_mask m (nums v) = Ok l.

Definition known_1D (d : string) : Prop := d = "hist" \/ d = "kde" \/ d = "ecdf".
Definition known_2D (d : string) : Prop := d = "scatter" \/ d = "kde".

(** A number between the limits of an axis. *)
Definition between (v : num) (l : num * num) : Prop := nle (fst l) v = true /\ nle v (snd l) = true.

(** What is asked for is there; what is not is left alone. *)
Definition asked {A} (o before after : option A) : Prop := match o with Some a => after = Some a | None => after = before end.

(** The keyword arguments: those of the user, and the defaults for others. *)
Definition honours (kwargs defaults options : kw) : Prop :=
  (forall k v, get_kw k kwargs = Some v -> get_kw k options = Some v) /\
  (forall k v, get_kw k kwargs = None -> get_kw k defaults = Some v -> get_kw k options = Some v).
(** A Python dictionary: no key twice; and none of the names that the call itself uses. *)
Definition dictionary (d : kw) : Prop := NoDup (map fst d).
Definition free_of (names : list string) (d : kw) : Prop := forall k, List.In k names -> get_kw k d = None.

(** The documented defaults. *)
Definition documented_1D (d : string) : kw :=
  if String.eqb d "hist" then [("bins", OStr "fd"); ("density", OBool true)]
  else if String.eqb d "kde" then [("gridsize", ONum (Fin 200)); ("legend", OBool true)]
  else [("stat", OStr "proportion"); ("legend", OBool true)].
Definition documented_2D (d : string) : kw :=
  if String.eqb d "scatter" then []
  else [("gridsize", ONum (Fin 200)); ("legend", OBool true); ("levels", ONum (Fin 10)); ("thresh", ONum (Fin (2 / 100)))].
(** The keywords that the plots pass themselves. *)
Definition own_1D (d : string) : list string := (["weights"; "color"] ++ if String.eqb d "hist" then [] else ["log_scale"])%list.
Definition own_2D (d : string) : list string := if String.eqb d "scatter" then ["s"; "color"] else ["weights"; "color"; "log_scale"].
