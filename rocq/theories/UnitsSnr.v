(** UnitsSnr.v -- snr.py with astropy quantities (the SI version is Snr.v).

    Arrays are lists of values, each with its own unit (in astropy an array carries one unit); the eccentricities are
    plain numbers.  Where Snr.v simplifies (interpolation and custom functions acting entry by entry), so does this file. *)
From Coq Require Import String Reals ZArith List Bool.
From Verif Require Import Num Np Utils Strain Psd Evol Snr Units UnitsEvol UnitsPsd.
Import ListNotations.
Open Scope list_scope.
Open Scope R_scope.
Open Scope res_scope.

(** The [**kwargs] handed to psd.power_spectral_density. *)
Record psd_kwargs_q := mkKwQ { kwq_instrument : string; kwq_custom : option psd_fun_q; kwq_L : auto val;
                               kwq_approximate_R : bool; kwq_confusion : conf_q }.

(** snr.py L64-67, L139-143, L225-229, L334-337. *)
Definition noise_q (w : psd_env) (kw : psd_kwargs_q) (sc : option (val -> val)) (t_obs : val) (f : list val) : res (list val) :=
  match sc with
  | Some s => Ok (map s f)
  | None => power_spectral_density_q w f (kwq_instrument kw) (kwq_custom kw) (Given t_obs) (kwq_L kw) (kwq_approximate_R kw)
                                     (kwq_confusion kw)
  end.
Definition noise2_q w kw sc t_obs (f : list (list val)) : res (list (list val)) :=
  n <- noise_q w kw sc t_obs (concat f) ;; Ok (regroup f n).
Definition noise3_q w kw sc t_obs (f : list (list (list val))) : res (list (list (list val))) :=
  let flat := concat (map (@concat val) f) in
  n <- noise_q w kw sc t_obs flat ;;
  if (length n =? length flat)%nat then Ok (regroup3 f n) else Err ValueError.

Definition no_sky_args : sky_q := mkSkyQ None None None.

(** snr.py L12-70, [snr_circ_stationary].  [np.zeros_like(f_orb).value] needs a quantity.  The strain is a bare number
    (its units are gone after h_0_n). *)
Definition snr_circ_stationary_q (w : psd_env) (jv : Z -> num -> num) (gi : option (Z -> num -> num))
           (m_c f_orb dist : list val) (t_obs : val) (s : sky_q) (sc : option (val -> val)) (kw : psd_kwargs_q)
  : res (list num) :=
  if negb (forallb is_quantity f_orb) then Err AttributeError
  else
    h <- h_0_n_q jv gi m_c (newaxis f_orb) (newaxis (map (fun _ => Fin 0) f_orb)) [2%Z] dist s ;;
    let h_0_circ_2 := map (fun x => x ^^ 2)%num (concat (map (@concat num) h)) in
    let h_f_src := map (fun x => vmul (Pl x) t_obs) h_0_circ_2 in
    h_f_lisa_2 <- noise_q w kw sc t_obs (map (vmul (lit 2)) f_orb) ;;
    snr <- bzip (fun a b => vpow (vdiv a b) (1/2)) h_f_src h_f_lisa_2 ;;
    mapM decompose_value snr.

(** snr.py L73-157, [snr_ecc_stationary].  The units go away at L145, before the sum and the square root. *)
Definition snr_ecc_stationary_q (w : psd_env) (jv : Z -> num -> num) (gi : option (Z -> num -> num))
           (m_c f_orb : list val) (ecc : list num) (dist : list val) (t_obs : val) (harmonics_required : nat)
           (sc : option (val -> val)) (ret_max ret_snr2 : bool) (kw : psd_kwargs_q) : res snr_ret :=
  let n_range := arange1 harmonics_required in
  h <- h_0_n_q jv gi m_c (newaxis f_orb) (newaxis ecc) n_range dist no_sky_args ;;
  let h := map (@concat num) h in
  if negb (length h =? length m_c)%nat then Err ValueError
  else
    let h_f_src := map (map (fun x => vmul (Pl (x ^^ 2)%num) t_obs)) h in
    let f_n := map (fun f => map (fun k => vmul (Pl (nZ k)) f) n_range) f_orb in
    h_f_lisa <- noise2_q w kw sc t_obs f_n ;;
    snr_n_2 <- bzip2 vdiv h_f_src h_f_lisa ;;
    snr_n_2 <- mapM (mapM decompose_value) snr_n_2 ;;
    returned ret_max ret_snr2 snr_n_2.

(** L215-217 and L320-323.  np.where(..., -1 * u.Hz, f) is in Hz.  (The callers exclude empty rows.) *)
Definition is_merged_q (f : val) : bool := veqb f (Qy (Fin 100) hertz).
Definition replace_merged_q (marked : list bool) (f : list val) : res (list val) :=
  m <- map2M (fun (b : bool) x => if b then Ok (Qy (Fin (-1)) hertz) else to x hertz) marked f ;;
  mx <- match m with [] => Ok (Qy NaN hertz) | _ => row_max_q m end ;;
  mapM (fun x => if is_merged_q x then store x mx else Ok x) f.

(** np.trapezoid(y, x) for one row; an integral over a single point is zero. *)
Fixpoint trapz_q (y x : list val) : res val :=
  match y, x with
  | y0 :: ys, x0 :: xs =>
      match ys, xs with
      | y1 :: _, x1 :: _ =>
          dx <- vsub x1 x0 ;;
          my <- vadd y1 y0 ;;
          r <- trapz_q ys xs ;;
          vadd (vmul dx (vdiv my (lit 2))) r
      | _, _ => Ok (Qy (Fin 0) (umul (unit_of x0) (unit_of y0)))
      end
  | _, _ => Ok (Qy (Fin 0) one_)
  end.

(** snr.py L160-234, [snr_circ_evolving]. *)
Definition snr_circ_evolving_q (w : psd_env) (jv : Z -> num -> num) (gi : option (Z -> num -> num)) (quad : quad_t)
           (m_1 m_2 f_orb_i dist : list val) (t_obs : val) (n_step : nat) (t_merge : option (list val))
           (sc : option (val -> val)) (kw : psd_kwargs_q) : res (list num) :=
  m_c <- bzipM chirp_mass_q m_1 m_2 ;;
  t_merge <- match t_merge with
             | None => get_t_merge_circ_arr_q None (Some m_1) (Some m_2) None (Some f_orb_i)
             | Some t => Ok t
             end ;;
  t_evol <- mapM (fun t => d <- vsub t (Qy (Fin 1) second) ;; vsum nmin d t_obs) t_merge ;;
  out <- evol_circ_q quad (TArrQ t_evol) n_step SNoneQ PNone (PQArr m_1 tt) (PQArr m_2 tt) PNone (PQArr f_orb_i tt)
                     ["f_orb"%string] ;;
  match out with
  | SingleQ (E2Q f_evol) =>
      if has_empty_row f_evol then Err ValueError
      else
      f_evol <- mapM (fun r => replace_merged_q (map is_merged_q r) r) f_evol ;;
      h <- h_c_n_q jv gi m_c f_evol (map (map (fun _ => Fin 0)) f_evol) [2%Z] dist no_sky_args ;;
      let h_c_n_2 := map (fun r => map (fun x => x ^^ 2)%num (concat r)) h in
      if negb (length h_c_n_2 =? length m_c)%nat then Err ValueError
      else
        let f2 := map (map (vmul (lit 2))) f_evol in
        h_f_lisa_2 <- noise2_q w kw sc t_obs f2 ;;
        h_c_lisa_2 <- bzip2 (fun f n => vmul (vpowi f 2) n) f2 h_f_lisa_2 ;;
        y <- bzip2 (fun a b => vdiv (Pl a) b) h_c_n_2 h_c_lisa_2 ;;
        snr <- bzipM (fun y x => v <- trapz_q y x ;; Ok (vpow v (1/2))) y f2 ;;
        mapM decompose_value snr
  | _ => Err TypeError
  end.

(** np.trapezoid(y, x, axis=1) of 3-D arrays. *)
Definition nowhere : val := Qy NaN one_.
Definition trapz_axis1_q (nh : nat) (y x : list (list val)) : res (list val) :=
  mapM (fun k => trapz_q (column nowhere k y) (column nowhere k x)) (seq 0 nh).

(** Sum of a row; L346-356 of [snr_ecc_evolving]: here the units go away last, and the loudest harmonic is looked up
    among the numbers in the common unit of the array. *)
Definition sum_q (row : list val) : res val :=
  match row with
  | [] => Ok (Qy (Fin 0) one_)
  | v :: _ => fold_left (fun a v => a <- a ;; vadd a v) row (Ok (Qy (Fin 0) (unit_of v)))
  end.
Definition returned_q (ret_max_snr_harmonic ret_snr2_by_harmonic : bool) (snr_n_2 : list (list val)) : res snr_ret :=
  if ret_snr2_by_harmonic then
    r <- mapM (mapM decompose_value) snr_n_2 ;; Ok (Snr2 r)
  else
    snr_2 <- mapM sum_q snr_n_2 ;;
    snr <- mapM (fun v => decompose_value (vpow v (1/2))) snr_2 ;;
    if ret_max_snr_harmonic then
      h <- argmax_axis1 (map (map mag) snr_n_2) ;; Ok (SnrMax snr h)
    else Ok (Snr snr).

(** snr.py L237-356, [snr_ecc_evolving]. *)
Definition t_before_ecc_q : val := Qy (Fin (1/10)) year.
Definition snr_ecc_evolving_q (w : psd_env) (jv : Z -> num -> num) (gi : option (Z -> num -> num)) (quad : quad_t)
           (odeint : odeint_t) (sched : list nat) (m_1 m_2 f_orb_i dist : list val) (ecc : list num) (harmonics_required : nat)
           (t_obs : val) (n_step : nat) (t_merge : option (list val)) (sc : option (val -> val)) (n_proc : nat)
           (ret_max ret_snr2 : bool) (kw : psd_kwargs_q) : res snr_ret :=
  m_c <- bzipM chirp_mass_q m_1 m_2 ;;
  t_merge <- match t_merge with
             | None => get_t_merge_ecc_q quad ecc None (Some f_orb_i) None (Some m_1) (Some m_2)
                                         small_e_tol_default large_e_tol_default true
             | Some t => Ok t
             end ;;
  t_evol <- mapM (fun t => d <- vsub t t_before_ecc_q ;; m <- vsum nmin d t_obs ;; to m second) t_merge ;;
  out <- evol_ecc_q quad odeint sched (PArr ecc) (TArrQ t_evol) n_step SNoneQ PNone (PQArr m_1 tt) (PQArr m_2 tt) PNone
                    (PQArr f_orb_i tt) ["ecc"%string; "f_orb"%string] n_proc true true t_before_ecc_q (Some t_merge) ;;
  match fst out with
  | ManyQ [E2Q e_evol; E2Q f_evol] =>
      if has_empty_row f_evol then Err ValueError
      else
      let e_evol := map (map mag) e_evol in
      f_evol <- map2M (fun e f => replace_merged_q (map2 (fun e x => neqb e (Fin 0) && is_merged_q x) e f) f) e_evol f_evol ;;
      let harms := arange1 harmonics_required in
      let f_n := map (map (fun f => map (fun k => vmul (Pl (nZ k)) f) harms)) f_evol in
      h <- h_c_n_q jv gi m_c f_evol e_evol harms dist no_sky_args ;;
      let h_c_n_2 := map (map (map (fun x => x ^^ 2)%num)) h in
      h_f_lisa <- noise3_q w kw sc t_obs f_n ;;
      h_c_lisa_2 <- bzip3 (fun f n => vmul (vpowi f 2) n) f_n h_f_lisa ;;
      y <- bzip3 (fun a b => vdiv (Pl a) b) h_c_n_2 h_c_lisa_2 ;;
      snr_n_2 <- bzipM (trapz_axis1_q harmonics_required) y f_n ;;
      returned_q ret_max ret_snr2 snr_n_2
  | _ => Err TypeError
  end.

(** source.py L656: the curve a Source object hands to these functions, [interp_sc(f.to(u.Hz)) / u.Hz].  (Frequencies of
    another dimension, where [to] raises UnitConversionError, are not covered: the value there is [nowhere].) *)
Definition source_curve_q (interp_sc : num -> num) (f : val) : val :=
  match to_value f hertz with Ok x => Qy (interp_sc x) per_hertz | Err _ => nowhere end.
