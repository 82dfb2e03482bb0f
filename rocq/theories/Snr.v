(** Snr.v -- model of src/legwork/snr.py (SI values; decompose().value is the identity). *)
From Coq Require Import String Reals ZArith List Bool.
From Verif Require Import Num Np Utils Strain Psd Evol.
Import ListNotations.
Open Scope num_scope.
Open Scope res_scope.

(** The [**kwargs] handed to psd.power_spectral_density: instrument, custom_psd, L, approximate_R, confusion_noise. *)
Record psd_kwargs := mkKw { kw_instrument : string; kw_custom : option psd_fun; kw_L : auto num;
                            kw_approximate_R : bool; kw_confusion : conf }.
(** The defaults of psd.power_spectral_density (psd.py L275-277). *)
Definition default_kw : psd_kwargs := mkKw "LISA" None Auto false (CName "auto").

(** snr.py L64-67, L139-143, L225-229, L334-337: the noise power at an array of frequencies.  The interpolation
    routine is taken to act entry by entry. *)
Definition noise (w : psd_env) (kw : psd_kwargs) (sc : option (num -> num)) (t_obs : num) (f : list num) : res (list num) :=
  match sc with
  | Some s => Ok (map s f)
  | None => power_spectral_density w f (kw_instrument kw) (kw_custom kw) (Given t_obs) (kw_L kw) (kw_approximate_R kw)
                                   (kw_confusion kw)
  end.

(** [flat.reshape(shape.shape)] for a 2-D array [shape].  (L142-143, L229 hand the 2-D array itself to
    power_spectral_density; a custom curve or confusion noise is taken to act entry by entry there.) *)
Fixpoint regroup {A B} (shape : list (list A)) (flat : list B) : list (list B) :=
  match shape with
  | [] => []
  | r :: rs => firstn (length r) flat :: regroup rs (skipn (length r) flat)
  end.
(** ... and for a 3-D array. *)
Fixpoint regroup3 {A B} (shape : list (list (list A))) (flat : list B) : list (list (list B)) :=
  match shape with
  | [] => []
  | r :: rs => regroup r flat :: regroup3 rs (skipn (length (concat r)) flat)
  end.
Definition noise2 w kw sc t_obs (f : list (list num)) : res (list (list num)) :=
  n <- noise w kw sc t_obs (concat f) ;; Ok (regroup f n).
(** L338 reshapes in every case; an array of another size cannot be reshaped. *)
Definition noise3 w kw sc t_obs (f : list (list (list num))) : res (list (list (list num))) :=
  let flat := concat (map (@concat num) f) in
  n <- noise w kw sc t_obs flat ;;
  if (length n =? length flat)%nat then Ok (regroup3 f n) else Err ValueError.

(** What the eccentric functions return (snr.py L147-157, L346-356): the SNRs, the SNRs with the loudest harmonics, or
    SNR^2 by source and harmonic. *)
Inductive snr_ret := Snr (snr : list num) | SnrMax (snr : list num) (harmonic : list Z) | Snr2 (snr2 : list (list num)).
Definition loudest (row : list num) : Z := (Z.of_nat (argmax row) + 1)%Z.
(** np.argmax over an axis of length 0 raises ValueError (unless there are no rows). *)
Definition argmax_axis1 (rows : list (list num)) : res (list Z) :=
  if existsb (fun r : list num => match r with [] => true | _ => false end) rows then Err ValueError
  else Ok (map loudest rows).
Definition returned (ret_max_snr_harmonic ret_snr2_by_harmonic : bool) (snr_n_2 : list (list num)) : res snr_ret :=
  if ret_snr2_by_harmonic then Ok (Snr2 snr_n_2)
  else
    let snr := map (fun r => nsqrt (nsum r)) snr_n_2 in
    if ret_max_snr_harmonic then
      h <- argmax_axis1 snr_n_2 ;; Ok (SnrMax snr h)
    else Ok (Snr snr).

(** snr.py L12-70, [snr_circ_stationary]. *)
Definition snr_circ_stationary (w : psd_env) (jv : Z -> num -> num) (gi : option (Z -> num -> num))
           (m_c f_orb dist : list num) (t_obs : num) (s : sky) (sc : option (num -> num)) (kw : psd_kwargs)
  : res (list num) :=
  h <- h_0_n jv gi m_c (newaxis f_orb) (newaxis (map (fun _ => Fin 0) f_orb)) [2%Z] dist s ;;
  let h_0_circ_2 := map (fun x => x ^^ 2) (concat (map (@concat num) h)) in
  let h_f_src := map (fun x => x * t_obs) h_0_circ_2 in
  h_f_lisa_2 <- noise w kw sc t_obs (map (nmul (#2)) f_orb) ;;
  bzip (fun a b => nsqrt (a / b)) h_f_src h_f_lisa_2.

(** snr.py L73-157, [snr_ecc_stationary]. *)
Definition snr_ecc_stationary (w : psd_env) (jv : Z -> num -> num) (gi : option (Z -> num -> num))
           (m_c f_orb ecc dist : list num) (t_obs : num) (harmonics_required : nat) (sc : option (num -> num))
           (ret_max ret_snr2 : bool) (kw : psd_kwargs) : res snr_ret :=
  let n_range := arange1 harmonics_required in
  h <- h_0_n jv gi m_c (newaxis f_orb) (newaxis ecc) n_range dist no_sky ;;
  (* L134: reshape(len(m_c), harmonics_required) *)
  let h := map (@concat num) h in
  if negb (length h =? length m_c)%nat then Err ValueError
  else
    let h_f_src := map (map (fun x => x ^^ 2 * t_obs)) h in
    let f_n := map (fun f => map (fun k => nZ k * f) n_range) f_orb in
    h_f_lisa <- noise2 w kw sc t_obs f_n ;;
    snr_n_2 <- bzip2 ndiv h_f_src h_f_lisa ;;
    returned ret_max ret_snr2 snr_n_2.

(** L215-217 and L320-323: entries equal to the merger frequency (100 Hz) are replaced by the largest frequency of the
    row, [marked] telling which entries count as -1 Hz in that maximum.  [max] of an empty row raises ValueError. *)
Definition replace_merged (marked : list bool) (f : list num) : list num :=
  let mx := row_max (map2 (fun (b : bool) x => if b then Fin (-1) else x) marked f) in
  map (fun x => if neqb x f_merged then mx else x) f.
Definition has_empty_row {A} (f : list (list A)) : bool := existsb (fun r => match r with [] => true | _ => false end) f.

(** snr.py L160-234, [snr_circ_evolving].  The function takes no sky arguments. *)
Definition snr_circ_evolving (w : psd_env) (jv : Z -> num -> num) (gi : option (Z -> num -> num)) (quad : quad_t)
           (m_1 m_2 f_orb_i dist : list num) (t_obs : num) (n_step : nat) (t_merge : option (list num))
           (sc : option (num -> num)) (kw : psd_kwargs) : res (list num) :=
  m_c <- bzip chirp_mass m_1 m_2 ;;
  t_merge <- match t_merge with
             | None => get_t_merge_circ None (Some m_1) (Some m_2) None (Some f_orb_i)
             | Some t => Ok t
             end ;;
  let t_evol := map (fun t => nmin (t - #1) t_obs) t_merge in
  out <- evol_circ quad (TArr t_evol) n_step SNone PNone (PQArr m_1 tt) (PQArr m_2 tt) PNone (PQArr f_orb_i tt) ["f_orb"%string] ;;
  match out with
  | Single (E2 f_evol) =>
      if has_empty_row f_evol then Err ValueError
      else
        let f_evol := map (fun r => replace_merged (map (fun x => neqb x f_merged) r) r) f_evol in
        h <- h_c_n jv gi m_c f_evol (map (map (fun _ => Fin 0)) f_evol) [2%Z] dist no_sky ;;
        let h_c_n_2 := map (fun r => map (fun x => x ^^ 2) (concat r)) h in
        (* L222: reshape(len(m_c), n_step) *)
        if negb (length h_c_n_2 =? length m_c)%nat then Err ValueError
        else
          let f2 := map (map (nmul (#2))) f_evol in
          h_f_lisa_2 <- noise2 w kw sc t_obs f2 ;;
          h_c_lisa_2 <- bzip2 (fun f n => f ^^ 2 * n) f2 h_f_lisa_2 ;;
          y <- bzip2 ndiv h_c_n_2 h_c_lisa_2 ;;
          bzip (fun y x => nsqrt (trapz y x)) y f2
  | _ => Err TypeError
  end.

(** np.trapezoid(y, x, axis=1) of 3-D arrays: for every source and harmonic an integral over the timesteps. *)
Definition column {A} (d : A) (k : nat) (rows : list (list A)) : list A := map (fun r => nth k r d) rows.
Definition trapz_axis1 (nh : nat) (y x : list (list num)) : list num :=
  map (fun k => trapz (column NaN k y) (column NaN k x)) (seq 0 nh).

(** snr.py L237-356, [snr_ecc_evolving]; t_before = 0.1 yr (L313). *)
Definition t_before_ecc : num := Fin (yr / 10).
Definition snr_ecc_evolving (w : psd_env) (jv : Z -> num -> num) (gi : option (Z -> num -> num)) (quad : quad_t)
           (odeint : odeint_t) (sched : list nat) (m_1 m_2 f_orb_i dist ecc : list num) (harmonics_required : nat)
           (t_obs : num) (n_step : nat) (t_merge : option (list num)) (sc : option (num -> num)) (n_proc : nat)
           (ret_max ret_snr2 : bool) (kw : psd_kwargs) : res snr_ret :=
  m_c <- bzip chirp_mass m_1 m_2 ;;
  t_merge <- match t_merge with
             | None => get_t_merge_ecc quad ecc None (Some f_orb_i) None (Some m_1) (Some m_2)
                                       small_e_tol_default large_e_tol_default true
             | Some t => Ok t
             end ;;
  let t_evol := map (fun t => nmin (t - t_before_ecc) t_obs) t_merge in
  out <- evol_ecc quad odeint sched (PArr ecc) (TArr t_evol) n_step SNone PNone (PQArr m_1 tt) (PQArr m_2 tt) PNone
                  (PQArr f_orb_i tt) ["ecc"%string; "f_orb"%string] n_proc true true t_before_ecc (Some t_merge) ;;
  match fst out with
  | Many [E2 e_evol; E2 f_evol] =>
      if has_empty_row f_evol then Err ValueError
      else
        let f_evol := map2 (fun e f => replace_merged (map2 (fun e x => neqb e (Fin 0) && neqb x f_merged) e f) f) e_evol f_evol in
        let harms := arange1 harmonics_required in
        let f_n := map (map (fun f => map (fun k => nZ k * f) harms)) f_evol in
        h <- h_c_n jv gi m_c f_evol e_evol harms dist no_sky ;;
        let h_c_n_2 := map (map (map (fun x => x ^^ 2))) h in
        h_f_lisa <- noise3 w kw sc t_obs f_n ;;
        h_c_lisa_2 <- bzip3 (fun f n => f ^^ 2 * n) f_n h_f_lisa ;;
        y <- bzip3 ndiv h_c_n_2 h_c_lisa_2 ;;
        snr_n_2 <- bzip (trapz_axis1 harmonics_required) y f_n ;;
        returned ret_max ret_snr2 snr_n_2
  | _ => Err TypeError
  end.
