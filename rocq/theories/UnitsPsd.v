(** UnitsPsd.v -- psd.py with astropy quantities (the SI version is Psd.v).

    Frequency arrays are lists of values, each with its own unit (in astropy an array carries one unit). *)
From Coq Require Import String Reals ZArith List Bool.
From Verif Require Import Num Np Psd Units UnitsEvol.
Import ListNotations.
Open Scope list_scope.
Open Scope R_scope.
Open Scope res_scope.

Definition kilometer : unit_ := mkUnit 1000 length_dim.
(** [u.Hz**(-1)], also the unit of [x / u.Hz]. *)
Definition per_hertz : unit_ := upowi hertz (-1).
Definition per_sqrt_hertz : unit_ := upow hertz (-1/2).

(** [f.to(u.Hz).value] for an array, [f * u.Hz], [x.value]. *)
Definition in_hertz (f : list val) : res (list num) := mapM (fun v => to_value v hertz) f.
Definition times_hertz (f : list num) : list val := map (fun x => Qy x hertz) f.
Definition value (v : val) : res num := match v with Pl _ => Err AttributeError | Qy x _ => Ok x end.

(** [a == b]: quantities of different dimensions are not equal. *)
Definition veqb (a b : val) : bool := match vcompare neqb a b with Ok b => b | Err _ => false end.

(** [np.abs(t_obs - lengths).argmin()] (L373, L416); [lengths] is in years. *)
Definition nearest_length_q (t_obs : val) (lengths : list R) : res nat :=
  d <- mapM (fun l => vsub t_obs (Qy (Fin l) year)) lengths ;;
  Ok (argmin (map (fun v => nabs (mag v)) d)).

(** psd.py L342-378, [get_confusion_noise_robson19]. *)
Definition get_confusion_noise_robson19_q (f : list val) (t_obs : val) : res (list val) :=
  f <- in_hertz f ;;
  ind <- nearest_length_q t_obs [0.5; 1.0; 2.0; 4.0] ;;
  Ok (map (fun x => Qy (robson19_at ind x) per_hertz) f).

(** psd.py L381-432, [get_confusion_noise_huang20]. *)
Definition get_confusion_noise_huang20_q (f : list val) (t_obs : val) : res (list val) :=
  ind <- nearest_length_q t_obs [0.5; 1.0; 2.0; 4.0; 5.0] ;;
  f <- in_hertz f ;;
  Ok (map (fun x => vpowi (Qy (huang20_root ind x) per_sqrt_hertz) 2) f).

(** psd.py L435-455, [get_confusion_noise_thiele21]; its mission length [4 * u.yr] is converted to seconds. *)
Definition get_confusion_noise_thiele21_q (f : list val) : res (list val) :=
  f <- in_hertz f ;;
  t <- to_value (Qy (Fin 4) year) second ;;
  Ok (map (fun x => Qy (n10pow (horner (rev thiele_coefficients) (nlog10 x)) * t)%num per_hertz) f).

(** psd.py L458-496, [get_confusion_noise_karnesis21]. *)
Definition get_confusion_noise_karnesis21_q (f : list val) (t_obs : val) : res (list val) :=
  f <- in_hertz f ;;
  t <- to_value t_obs year ;;
  Ok (map (fun x => Qy (karnesis21_at t x) per_hertz) f).

(** psd.py L499-541, [get_confusion_noise]. *)
Definition get_confusion_noise_q (f : list val) (m : option string) (t_obs : auto val) : res (list val) :=
  match m with
  | None => f <- in_hertz f ;; Ok (map (fun _ => Qy (Fin 0) per_hertz) f)
  | Some s =>
      if String.eqb s "robson19" then get_confusion_noise_robson19_q f (resolve (Qy (Fin 4) year) t_obs)
      else if String.eqb s "huang20" then get_confusion_noise_huang20_q f (resolve (Qy (Fin 5) year) t_obs)
      else if String.eqb s "thiele21" then
        match t_obs with
        | Auto => get_confusion_noise_thiele21_q f
        | Given t => if veqb t (Qy (Fin 4) year) then get_confusion_noise_thiele21_q f else Err ValueError
        end
      else if String.eqb s "karnesis21" then get_confusion_noise_karnesis21_q f (resolve (Qy (Fin 4) year) t_obs)
      else Err ValueError
  end.

(** What a custom confusion noise function receives as frequencies, and the values of [confusion_noise]. *)
Inductive freq_q := BareQ (f : list num) | QuantityQ (f : list val).
Inductive conf_q := CNameQ (s : string) | CNoneQ | CFunQ (c : freq_q -> val -> res (list val)).

(** L131-134 and L261-264: the frequencies are bare numbers at that point, and only the number of the result is used,
    whatever its unit. *)
Definition confusion_bare (f : list num) (t_obs : val) (c : conf_q) : res (list num) :=
  cn <- match c with
        | CNameQ s => get_confusion_noise_q (times_hertz f) (Some s) (Given t_obs)
        | CNoneQ => get_confusion_noise_q (times_hertz f) None (Given t_obs)
        | CFunQ c => c (BareQ f) t_obs
        end ;;
  mapM value cn.
(** L188-191 *)
Definition confusion_with_unit (f : list val) (t_obs : val) (c : conf_q) : res (list val) :=
  match c with
  | CNameQ s => get_confusion_noise_q f (Some s) (Given t_obs)
  | CNoneQ => get_confusion_noise_q f None (Given t_obs)
  | CFunQ c => c (QuantityQ f) t_obs
  end.

(** [const.c / (2 * np.pi * L)] *)
Definition f_star_q (L : val) : val := vdiv cq (vmul (vmul (lit 2) (lit PI)) L).

(** psd.py L74-144, [lisa_psd]. *)
Definition lisa_psd_q (w : psd_env) (f : list val) (t_obs L : val) (approximate_R : bool) (c : conf_q) : res (list val) :=
  f <- in_hertz f ;;
  let f := map (fun x => band #1e-7 #2 x x #1e-8) f in
  fstar <- to_value (f_star_q L) hertz ;;
  R <- (if approximate_R then Ok (approximate_response_function f fstar) else load_response_function w f fstar) ;;
  cn <- confusion_bare f t_obs c ;;
  L <- to_value L meter ;;
  base <- bzip (lisa_noise L fstar) f R ;;
  psd <- bzip nadd base cn ;;
  psd <- bzip (fun x p => band #1e-7 #2 x p PInf) f psd ;;
  Ok (map (fun x => Qy x per_hertz) psd).

(** psd.py L147-194, [tianqin_psd]; L181-186 for one frequency. *)
Definition tianqin_noise_q (L f : val) : res val :=
  let fstar := f_star_q L in
  let Sa := Qy #1e-30 (umul (umul (upowi meter 2) (upowi second (-4))) (upowi hertz (-1))) in
  let Sx := Qy #1e-24 (umul (upowi meter 2) (upowi hertz (-1))) in
  knee <- vadd (lit 1) (vdiv (Qy #1e-4 hertz) f) ;;
  noise <- vadd (vmul (vdiv (vmul (lit 4) Sa) (vpowi (vmul (vmul (lit 2) (lit PI)) f) 4)) knee) Sx ;;
  response <- vadd (lit 1) (vmul (lit 0.6) (vpowi (vdiv f fstar) 2)) ;;
  Ok (vmul (vmul (vdiv (lit 10) (vmul (lit 3) (vpowi L 2))) noise) response).
Definition tianqin_psd_q (f : list val) (t_obs L : val) (c : conf_q) : res (list val) :=
  psd <- mapM (tianqin_noise_q L) f ;;
  cn <- confusion_with_unit f t_obs c ;;
  psd <- in_place (length psd) (bzipM vadd psd cn) ;;
  mapM (fun v => to v per_hertz) psd.

(** psd.py L197-272, [decigo_psd]. *)
Definition decigo_psd_q (f : list val) (t_obs : val) (c : conf_q) (f_low f_high : val) : res (list val) :=
  f <- in_hertz f ;;
  lo <- to_value f_low hertz ;;
  hi <- to_value f_high hertz ;;
  let f := map (fun x => band lo hi x x #1e-8) f in
  cn <- confusion_bare f t_obs c ;;
  psd <- bzip nadd (map decigo_noise f) cn ;;
  psd <- bzip (fun x p => band lo hi x p PInf) f psd ;;
  Ok (map (fun x => Qy x per_hertz) psd).
Definition decigo_f_low_q : val := Qy #1e-3 hertz.
Definition decigo_f_high_q : val := Qy #1e2 hertz.

(** A custom_psd callable. *)
Definition psd_fun_q := list val -> auto val -> auto val -> bool -> conf_q -> res (list val).
Definition resolve_conf_q (d : string) (c : conf_q) : conf_q :=
  match c with CNameQ s => if String.eqb s "auto" then CNameQ d else c | _ => c end.

(** Default arm lengths, L314 and L322. *)
Definition lisa_L_q : val := Qy #2.5e9 meter.
Definition tianqin_L_q : val := Qy (nsqrt #3 * #1e5)%num kilometer.

(** psd.py L275-339, [power_spectral_density]. *)
Definition power_spectral_density_q (w : psd_env) (f : list val) (instrument : string) (custom_psd : option psd_fun_q)
           (t_obs L : auto val) (approximate_R : bool) (c : conf_q) : res (list val) :=
  if String.eqb instrument "LISA" then
    lisa_psd_q w f (resolve (Qy (Fin 4) year) t_obs) (resolve lisa_L_q L) approximate_R (resolve_conf_q "karnesis21" c)
  else if String.eqb instrument "TianQin" then
    tianqin_psd_q f (resolve (Qy (Fin 5) year) t_obs) (resolve tianqin_L_q L) (resolve_conf_q "huang20" c)
  else if String.eqb instrument "DECIGO" then
    decigo_psd_q f (resolve (Qy (Fin 4) year) t_obs) (resolve_conf_q "karnesis21" c) decigo_f_low_q decigo_f_high_q
  else if String.eqb instrument "custom" then
    match custom_psd with Some p => p f L t_obs approximate_R c | None => Err TypeError end
  else Err ValueError.
