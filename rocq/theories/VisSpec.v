(** VisSpec.v -- vocabulary for what plots show (C70, C71, C89). *)
From Coq Require Import String Reals ZArith List Bool.
From Verif Require Import Num Np Utils Strain Psd Snr Evol Harmonics ScParams Source SourceSpec CurveSpec MethodSpec Vis.
Import ListNotations.
Open Scope R_scope.

(** [ys]: those among [xs], in the same order, for which P holds. *)
Inductive those {A} (P : A -> Prop) : list A -> list A -> Prop :=
| those_none : those P [] []
| those_in a xs ys : P a -> those P xs ys -> those P (a :: xs) (a :: ys)
| those_out a xs ys : ~ P a -> those P xs ys -> those P (a :: xs) ys.

(** The plotted quantity: "ASD", the square root of the noise [p], or "h_c", the square root of frequency times noise. *)
Definition quantity (v : settings) : string := match v_quantity v with Some q => q | None => "ASD"%string end.
Definition amplitude (v : settings) (p : num -> num) (f : num) : num :=
  if String.eqb (quantity v) "h_c" then nsqrt (nmul f (p f)) else nsqrt (p f).
Definition known_quantity (v : settings) : Prop := quantity v = "ASD"%string \/ quantity v = "h_c"%string.
Definition frequencies (v : settings) : list num := match v_range v with Some l => l | None => default_range end.
(** The curve, drawn over the frequencies asked for and filled if asked for. *)
Definition curve_marks (v : settings) (p : num -> num) : list mark :=
  Line (frequencies v) (map (amplitude v p) (frequencies v)) ::
  match v_fill v with Some false => [] | _ => [Filled (frequencies v) (map (amplitude v p) (frequencies v))] end.
(** The curve is drawn unless axes are supplied. *)
Definition curve_if_new (ax : axes) (v : settings) (p : num -> num) : list mark := match ax with Supplied => [] | _ => curve_marks v p end.
Definition used_axes (ax : axes) : axes := match ax with Supplied => Supplied | _ => New end.
(** Points at (x, y) with weights, if any: a scatter plot with sizes in proportion to the weights, or a density. *)
Definition known_type (disttype : string) : Prop := disttype = "scatter"%string \/ disttype = "kde"%string.
Definition points (disttype : string) (size : num) (x y : list num) (w : option (list num)) : mark :=
  if String.eqb disttype "kde" then Density2 x y w
  else Scatter x y (match w with None => One size | Some l => Each (map (fun a => nmul a size) l) end).
(** A frequency and the noise there: positive, the noise maybe infinite. *)
Definition good_noise (p : num -> num) (f : num) : Prop := exists r, f = Fin r /\ 0 < r /\ (p f = PInf \/ exists v, p f = Fin v /\ 0 <= v).
(** The SNR is above the cutoff. *)
Definition above (cutoff v : num) : Prop := ngt v cutoff = true.
(** The frequency of the loudest harmonic of a source. *)
Definition dominant (r : row) : num := nmul (r_f r) (nZ (r_msh r)).
(** The sources shown and those that can not be shown: detectable ones that have not merged, stationary or not. *)
Definition plotted (s : src) (t : R) (cutoff : num) (r : row) : Prop := is_stationary s t r true /\ above cutoff (r_snr r) /\ r_merged r = false.
Definition circular_unplotted (s : src) (t : R) (cutoff : num) (r : row) : Prop :=
  is_circular s r /\ is_stationary s t r false /\ above cutoff (r_snr r) /\ r_merged r = false.
Definition eccentric_unplotted (s : src) (t : R) (cutoff : num) (r : row) : Prop :=
  is_eccentric s r /\ is_stationary s t r false /\ above cutoff (r_snr r) /\ r_merged r = false.
Definition weights_of {A} (o : option (list num)) (w : A -> num) (xs : list A) : option (list num) :=
  match o with None => None | Some _ => Some (map w xs) end.

(** The warnings among the marks. *)
Definition reports (l : list mark) : list report := flat_map (fun m => match m with Logged r => [r] | _ => [] end) l.
Definition about_circular (r : report) : bool := match r with CircularEvolving _ => true | _ => false end.
Definition about_eccentric (r : report) : bool := match r with EccentricEvolving _ => true | _ => false end.
(** A warning with the number of sources, if there are any. *)
Definition warned {A} (w : nat -> report) (zs : list A) : list report := match zs with [] => [] | _ => [w (length zs)] end.

(** The value of a plot variable for a source. *)
Inductive value_of (r : row) : string -> num -> Prop :=
| value_m_1 : value_of r "m_1" (r_m1 r)
| value_m_2 : value_of r "m_2" (r_m2 r)
| value_m_c : value_of r "m_c" (chirp_mass (r_m1 r) (r_m2 r))
| value_ecc : value_of r "ecc" (r_e r)
| value_dist : value_of r "dist" (r_d r)
| value_f_orb : value_of r "f_orb" (r_f r)
| value_f_GW : value_of r "f_GW" (nmul (r_f r) (Fin 2))
| value_a : value_of r "a" (get_a_from_f_orb (r_f r) (r_m1 r) (r_m2 r))
| value_snr : value_of r "snr" (r_snr r).
Definition documented_variables : list string := ["m_1"; "m_2"; "m_c"; "ecc"; "dist"; "f_orb"; "f_GW"; "a"; "snr"]%string.
(** The variable can be plotted: SNRs have been computed if it is the SNR. *)
Definition computed (s : src) (name : string) : Prop := name = "snr"%string -> s_snr s <> None.
(** The sources shown by plot_source_variables. *)
Definition shown (exclude_merged : bool) (r : row) : Prop := exclude_merged = true -> r_merged r = false.
(** What a plot of one variable draws. *)
Definition drawn_1D (disttype : string) (log : bool) (x : list num) (w : option (list num)) : list mark :=
  if String.eqb disttype "hist" then [Hist (if log then map nlog10 x else x) w]
  else if String.eqb disttype "kde" then [Density log x w] else if String.eqb disttype "ecdf" then [Ecdf log x w] else [].
