(** Psd.v -- model of src/legwork/psd.py (SI values: Hz, m, s, 1/Hz).
    All frequency arrays are one-dimensional lists; every built-in function acts entry by entry. *)
From Coq Require Import String Reals ZArith List Bool.
From Verif Require Import Num Np.
Import ListNotations.
Open Scope num_scope.
Open Scope res_scope.

(** The outside world: the packaged file R.npy (None: it cannot be found) and scipy's splrep/splev (L46-49), which
    turn tabulated abscissae and values into an interpolating function. *)
Record psd_env := mkEnv { r_file : option (list num * list num);
                          spline : list num -> list num -> num -> num }.
(** np.load of the packaged file (L40): a missing file is a FileNotFoundError. *)
Definition np_load_R (w : psd_env) : res (list num * list num) :=
  match r_file w with Some t => Ok t | None => Err FileNotFoundErr end.

(** psd.py L53-71, [approximate_response_function], for one frequency. *)
Definition approximate_response (fstar f : num) : num := #(3/10) / (#1 + #0.6 * (f / fstar) ^^ 2).
Definition approximate_response_function (f : list num) (fstar : num) : list num := map (approximate_response fstar) f.

(** psd.py L18-50, [load_response_function].  The handler at L41 is for FileExistsError.  (The warning at L42 is not
    represented.) *)
Definition load_response_function (w : psd_env) (f : list num) (fstar : num) : res (list num) :=
  match np_load_R w with
  | Err FileExistsErr => Ok (approximate_response_function f fstar)
  | Err e => Err e
  | Ok (f_R, R) => Ok (map (spline w (map (fun x => x * fstar) f_R) R) f)
  end.

(** Arguments that may be the string "auto". *)
Inductive auto (A : Type) : Type := Auto | Given (a : A).
Arguments Auto {A}.
Arguments Given {A} a.
Definition resolve {A} (d : A) (x : auto A) : A := match x with Auto => d | Given a => a end.

(** psd.py L342-378, [get_confusion_noise_robson19], for one frequency; [ind] is computed at L373. *)
Definition robson_lengths : list num := map (fun y => Fin (y * yr)) [0.5; 1.0; 2.0; 4.0]%R.
Definition robson_alpha : list R := [0.133; 0.171; 0.165; 0.138]%R.
Definition robson_beta : list R := [243.0; 292.0; 299.0; -221.0]%R.
Definition robson_kappa : list R := [482.0; 1020.0; 611.0; 521.0]%R.
Definition robson_gamma : list R := [917.0; 1680.0; 1340.0; 1680.0]%R.
Definition robson_fk : list R := [2.58e-3; 2.15e-3; 1.73e-3; 1.13e-3]%R.
Definition nearest_length (t_obs : num) (lengths : list num) : nat := argmin (map (fun l => nabs (t_obs - l)) lengths).
Definition robson19_at (ind : nat) (f : num) : num :=
  let alpha := nth ind robson_alpha 0%R in let beta := Fin (nth ind robson_beta 0%R) in
  let kappa := Fin (nth ind robson_kappa 0%R) in let gamma := Fin (nth ind robson_gamma 0%R) in
  let fk := Fin (nth ind robson_fk 0%R) in
  #9e-45 * f ** (-7/3) * nexp (- (f ** alpha) + beta * f * nsin (kappa * f)) * (#1 + ntanh (gamma * (fk - f))).
Definition robson19_elem (t_obs f : num) : num := robson19_at (nearest_length t_obs robson_lengths) f.
Definition get_confusion_noise_robson19 (f : list num) (t_obs : num) : list num := map (robson19_elem t_obs) f.

(** psd.py L381-432, [get_confusion_noise_huang20], for one frequency.  L419-426 sum a_i x^i, L429 overwrites
    frequencies outside [1e-4, 1] Hz, L432 squares. *)
Definition huang_lengths : list num := map (fun y => Fin (y * yr)) [0.5; 1.0; 2.0; 4.0; 5.0]%R.
Definition huang_coefficients : list (list R) :=
  [[-18.6; -18.6; -18.6; -18.6; -18.6];
   [-1.22; -1.13; -1.45; -1.43; -1.51];
   [0.009; -0.945; 0.315; -0.687; -0.71];
   [-1.87; -1.02; -1.19; 0.24; -1.13];
   [0.65; 4.05; -4.48; -0.15; -0.83];
   [3.6; -4.5; 10.8; -1.8; 13.2];
   [-4.6; -0.5; -9.4; -3.2; -19.1]]%R.
Fixpoint huang_sum (ind : nat) (x : num) (i : Z) (rows : list (list R)) (acc : num) : num :=
  match rows with
  | [] => acc
  | r :: rs => huang_sum ind x (i + 1) rs (acc + Fin (nth ind r 0%R) * x ^^ i)
  end.
Definition huang20_root (ind : nat) (f : num) : num :=
  let s := n10pow (huang_sum ind (nlog10 (f / #1e-3)) 0 huang_coefficients (Fin 0)) in
  if nlt f #1e-4 || ngt f #1 then Fin 0 else s.
Definition huang20_elem (t_obs f : num) : num := huang20_root (nearest_length t_obs huang_lengths) f ^^ 2.
Definition get_confusion_noise_huang20 (f : list num) (t_obs : num) : list num := map (huang20_elem t_obs) f.

(** psd.py L435-455, [get_confusion_noise_thiele21], for one frequency; np.poly1d evaluates by Horner's rule from the
    highest coefficient. *)
Definition thiele_coefficients : list R := [-540.315450; -554.061115; -233.748834; -44.021504; -3.112634]%R.
Definition horner (coefs : list R) (x : num) : num := fold_left (fun y c => y * x + Fin c) coefs (Fin 0).
Definition thiele21_elem (f : num) : num := n10pow (horner (rev thiele_coefficients) (nlog10 f)) * Fin (4 * yr).
Definition get_confusion_noise_thiele21 (f : list num) : list num := map thiele21_elem f.

(** psd.py L458-496, [get_confusion_noise_karnesis21], for one frequency (L477: t_obs in years). *)
Definition karnesis21_at (t f : num) : num :=
  let f_1 := t ** (-0.15) * n10pow #(-2.72) in
  let f_knee := t ** (-0.37) * n10pow #(-2.49) in
  #1.15e-44 / #2 * f ** (-7/3) * nexp (- ((f / f_1) ** 1.56)) * (#1 + ntanh ((f_knee - f) / #0.00067)).
Definition karnesis21_elem (t_obs f : num) : num := karnesis21_at (t_obs / Fin yr) f.
Definition get_confusion_noise_karnesis21 (f : list num) (t_obs : num) : list num := map (karnesis21_elem t_obs) f.

(** The argument handed to a custom confusion noise function: a bare float array or a Quantity in Hz. *)
Inductive freq_arg := Bare (f : list num) | Quantity (f : list num).
(** Values of [confusion_noise]: a string, None or a callable noise(f, t_obs) returning a Quantity in 1/Hz. *)
Inductive conf := CName (s : string) | CNone | CFun (c : freq_arg -> num -> res (list num)).

(** psd.py L499-541, [get_confusion_noise]; [m = None] is Python's None. *)
Definition get_confusion_noise (f : list num) (m : option string) (t_obs : auto num) : res (list num) :=
  match m with
  | None => Ok (map (fun _ => Fin 0) f)
  | Some s =>
      if String.eqb s "robson19" then Ok (get_confusion_noise_robson19 f (resolve (Fin (4 * yr)) t_obs))
      else if String.eqb s "huang20" then Ok (get_confusion_noise_huang20 f (resolve (Fin (5 * yr)) t_obs))
      else if String.eqb s "thiele21" then
        match t_obs with
        | Auto => Ok (get_confusion_noise_thiele21 f)
        | Given t => if neqb t (Fin (4 * yr)) then Ok (get_confusion_noise_thiele21 f) else Err ValueError
        end
      else if String.eqb s "karnesis21" then Ok (get_confusion_noise_karnesis21 f (resolve (Fin (4 * yr)) t_obs))
      else Err ValueError
  end.

(** L131-134 / L188-191 / L261-264: [arg] is how the calling function holds the frequencies at that point. *)
Definition confusion_of (arg : list num -> freq_arg) (f : list num) (t_obs : num) (c : conf) : res (list num) :=
  match c with
  | CName s => get_confusion_noise f (Some s) (Given t_obs)
  | CNone => get_confusion_noise f None (Given t_obs)
  | CFun c => c (arg f) t_obs
  end.

(** np.where(np.logical_and(f >= lo, f <= hi), a, b) for one entry. *)
Definition in_band (lo hi f : num) : bool := nge f lo && nle f hi.
Definition band (lo hi f a b : num) : num := if in_band lo hi f then a else b.

(** psd.py L116-121 and L140 without the confusion noise, for one frequency. *)
Definition lisa_oms (f : num) : num := #1.5e-11 ^^ 2 * (#1 + (#2e-3 / f) ^^ 4).
Definition lisa_acc (f : num) : num := #3e-15 ^^ 2 * (#1 + (#0.4e-3 / f) ^^ 2) * (#1 + (f / #8e-3) ^^ 4).
Definition lisa_noise (L fstar f R : num) : num :=
  (#1 / L ^^ 2 * (lisa_oms f + #2 * (#1 + ncos (f / fstar) ^^ 2) * lisa_acc f / (#2 * Fin PI * f) ^^ 4)) / R.

(** psd.py L74-144, [lisa_psd]. *)
Definition lisa_psd (w : psd_env) (f : list num) (t_obs L : num) (approximate_R : bool) (c : conf) : res (list num) :=
  let f := map (fun x => band #1e-7 #2 x x #1e-8) f in
  let fstar := Fin clight / (#2 * Fin PI * L) in
  R <- (if approximate_R then Ok (approximate_response_function f fstar) else load_response_function w f fstar) ;;
  cn <- confusion_of Bare f t_obs c ;;
  base <- bzip (lisa_noise L fstar) f R ;;
  psd <- bzip nadd base cn ;;
  bzip (fun x p => band #1e-7 #2 x p PInf) f psd.

(** [psd += cn] (L192) writes into [psd]: [cn] may be stretched to the length of [psd], but not the other way round. *)
Definition in_place {A} (n : nat) (v : res (list A)) : res (list A) :=
  l <- v ;; if (length l =? n)%nat then Ok l else Err ValueError.
(** psd.py L147-194, [tianqin_psd] ([approximate_R] is ignored). *)
Definition tianqin_noise (L f : num) : num :=
  let fstar := Fin clight / (#2 * Fin PI * L) in
  #10 / (#3 * L ^^ 2) * (#4 * #1e-30 / (#2 * Fin PI * f) ^^ 4 * (#1 + #1e-4 / f) + #1e-24)
  * (#1 + #0.6 * (f / fstar) ^^ 2).
Definition tianqin_psd (f : list num) (t_obs L : num) (c : conf) : res (list num) :=
  cn <- confusion_of Quantity f t_obs c ;;
  in_place (length f) (bzip nadd (map (tianqin_noise L) f) cn).

(** psd.py L197-272, [decigo_psd] ([L] and [approximate_R] are ignored). *)
Definition decigo_noise (f : num) : num :=
  let fp := #7.36 in
  #6.53e-48 * (#1 + (f / fp) ^^ 2) + #4.8e-51 * f ^^ (-4) * (#1 + (f / fp) ^^ 2) ^^ (-1) + #5.33e-52 * f ^^ (-4).
Definition decigo_psd (f : list num) (t_obs : num) (c : conf) (f_low f_high : num) : res (list num) :=
  let f := map (fun x => band f_low f_high x x #1e-8) f in
  cn <- confusion_of Bare f t_obs c ;;
  psd <- bzip nadd (map decigo_noise f) cn ;;
  bzip (fun x p => band f_low f_high x p PInf) f psd.
Definition decigo_f_low : num := #1e-3.
Definition decigo_f_high : num := #1e2.

(** A custom_psd callable: it is handed the frequencies, L and t_obs (possibly still "auto"), approximate_R and the
    confusion noise. *)
Definition psd_fun := list num -> auto num -> auto num -> bool -> conf -> res (list num).

(** Default arm lengths L314 and L322. *)
Definition lisa_L : num := #2.5e9.
Definition tianqin_L : num := nsqrt #3 * #1e5 * #1e3.

(** ["auto"] as a confusion noise argument. *)
Definition resolve_conf (d : string) (c : conf) : conf :=
  match c with CName s => if String.eqb s "auto" then CName d else c | _ => c end.

(** psd.py L275-339, [power_spectral_density]. *)
Definition power_spectral_density (w : psd_env) (f : list num) (instrument : string) (custom_psd : option psd_fun)
           (t_obs L : auto num) (approximate_R : bool) (c : conf) : res (list num) :=
  if String.eqb instrument "LISA" then
    lisa_psd w f (resolve (Fin (4 * yr)) t_obs) (resolve lisa_L L) approximate_R (resolve_conf "karnesis21" c)
  else if String.eqb instrument "TianQin" then
    tianqin_psd f (resolve (Fin (5 * yr)) t_obs) (resolve tianqin_L L) (resolve_conf "huang20" c)
  else if String.eqb instrument "DECIGO" then
    decigo_psd f (resolve (Fin (4 * yr)) t_obs) (resolve_conf "karnesis21" c) decigo_f_low decigo_f_high
  else if String.eqb instrument "custom" then
    match custom_psd with Some p => p f L t_obs approximate_R c | None => Err TypeError end
  else Err ValueError.
