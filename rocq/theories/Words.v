(** Words.v -- the harmonic numbers as numpy holds them: integers of [b] bits (64; 32 on Windows before numpy 2.0) that wrap around.
    The other files take them to be integers without bounds. *)
From Coq Require Import String Reals ZArith List Bool.
From Verif Require Import Num Np Utils Strain Psd Evol Snr.
Import ListNotations.
Open Scope num_scope.
Open Scope res_scope.

(** The integer of [b] bits, with sign, that numpy stores for the result [z] of an integer operation. *)
Definition wrap (b z : Z) : Z := ((z + 2 ^ (b - 1)) mod 2 ^ b - 2 ^ (b - 1))%Z.

(** utils.py L38-63, [peters_g] for an array [n] of integers, one entry: n - 2, ..., n + 2, n**4 and 3 * n**2 are integer operations. *)
Definition peters_g_w (b : Z) (jv : Z -> num -> num) (n : Z) (e : num) : num :=
  let x := nZ n * e in
  let n_ k := wrap b (n + k) in
  let bracket_1 := jv (n_ (-2)%Z) x - #2 * e * jv (n_ (-1)%Z) x + #2 / nZ n * jv n x + #2 * e * jv (n_ 1%Z) x - jv (n_ 2%Z) x in
  let bracket_2 := jv (n_ (-2)%Z) x - #2 * jv n x + jv (n_ 2%Z) x in
  let bracket_3 := jv n x in
  nZ (wrap b (n^4)) / #32 * (bracket_1 ^^ 2 + (#1 - e ^^ 2) * bracket_2 ^^ 2 + #4 / nZ (wrap b (3 * wrap b (n^2))) * bracket_3 ^^ 2).
(** strain.py L129-137 / L221-229: the power g(n, e).  An interpolation routine takes the harmonics as they are. *)
Definition g_value_w (b : Z) jv (gi : option (Z -> num -> num)) (n : Z) (e : num) : num :=
  match gi with
  | None => peters_g_w b jv n e
  | Some g => let v := g n e in if nlt v (Fin 0) then Fin 0 else v
  end.
(** strain.py L130/L137 and L222/L229. *)
Definition h0_dep_w (b : Z) jv gi (n : Z) (e : num) : num := nsqrt (g_value_w b jv gi n e) / nZ n.
Definition hc_dep_w (b : Z) jv gi (n : Z) (e : num) : num := nsqrt (g_value_w b jv gi n e / nZ n).
(** strain.py L57-146, [h_0_n], as in Strain.v. *)
Definition h_0_n_w (b : Z) (jv : Z -> num -> num) (gi : option (Z -> num -> num))
           (m_c : list num) (f_orb ecc : list (list num)) (n : list Z) (dist : list num) (s : sky)
  : res (list (list (list num))) :=
  if existsb (fun k => (k <? 1)%Z) n then Err ValueError
  else
    mf <- bzip2 (fun m f => (m, f)) (newaxis m_c) f_orb ;;
    indep <- bzip2 (fun (q : num * num) d => h0_indep (fst q) (snd q) d) mf (newaxis dist) ;;
    h <- bzip3 nmul (newaxis2 indep) (n_dependent (h0_dep_w b jv gi) n ecc) ;;
    modulate s h.
(** strain.py L149-238, [h_c_n], as in Strain.v. *)
Definition h_c_n_w (b : Z) (jv : Z -> num -> num) (gi : option (Z -> num -> num))
           (m_c : list num) (f_orb ecc : list (list num)) (n : list Z) (dist : list num) (s : sky)
  : res (list (list (list num))) :=
  if existsb (fun k => (k <? 1)%Z) n then Err ValueError
  else
    md <- bzip2 (fun m d => (m, d)) (newaxis m_c) (newaxis dist) ;;
    mdf <- bzip2 (fun (q : num * num) f => (q, f)) md f_orb ;;
    indep <- bzip2 (fun (q : num * num * num) e => hc_indep (fst (fst q)) (snd q) e (snd (fst q))) mdf ecc ;;
    h <- bzip3 nmul (newaxis2 indep) (n_dependent (hc_dep_w b jv gi) n ecc) ;;
    modulate s h.

(** snr.py L73-157, [snr_ecc_stationary], as in Snr.v. *)
Definition snr_ecc_stationary_w (b : Z) (w : psd_env) (jv : Z -> num -> num) (gi : option (Z -> num -> num))
           (m_c f_orb ecc dist : list num) (t_obs : num) (harmonics_required : nat) (sc : option (num -> num))
           (ret_max ret_snr2 : bool) (kw : psd_kwargs) : res snr_ret :=
  let n_range := arange1 harmonics_required in
  h <- h_0_n_w b jv gi m_c (newaxis f_orb) (newaxis ecc) n_range dist no_sky ;;
  let h := map (@concat num) h in
  if negb (length h =? length m_c)%nat then Err ValueError
  else
    let h_f_src := map (map (fun x => x ^^ 2 * t_obs)) h in
    let f_n := map (fun f => map (fun k => nZ k * f) n_range) f_orb in
    h_f_lisa <- noise2 w kw sc t_obs f_n ;;
    snr_n_2 <- bzip2 ndiv h_f_src h_f_lisa ;;
    returned ret_max ret_snr2 snr_n_2.

(** snr.py L237-356, [snr_ecc_evolving], as in Snr.v. *)
Definition snr_ecc_evolving_w (b : Z) (w : psd_env) (jv : Z -> num -> num) (gi : option (Z -> num -> num)) (quad : quad_t)
           (odeint : odeint_t) (sched : list nat) (m_1 m_2 f_orb_i dist ecc : list num) (harmonics_required : nat)
           (t_obs : num) (n_step : nat) (t_merge : option (list num)) (sc : option (num -> num)) (n_proc : nat)
           (ret_max ret_snr2 : bool) (kw : psd_kwargs) : res snr_ret :=
  m_c <- bzip chirp_mass m_1 m_2 ;;
  t_merge <- match t_merge with
             | None => get_t_merge_ecc quad ecc None (Some f_orb_i) None (Some m_1) (Some m_2)
                                       small_e_tol_default large_e_tol_default true
             | Some t => Ok t
             end ;;
  let t_evol := map (fun t => nmin (t - t_before_ecc) t_obs) t_merge in
  out <- evol_ecc quad odeint sched (PArr ecc) (TArr t_evol) n_step SNone PNone (PQArr m_1 tt) (PQArr m_2 tt) PNone
                  (PQArr f_orb_i tt) ["ecc"%string; "f_orb"%string] n_proc true true t_before_ecc (Some t_merge) ;;
  match fst out with
  | Many [E2 e_evol; E2 f_evol] =>
      if has_empty_row f_evol then Err ValueError
      else
        let f_evol := map2 (fun e f => replace_merged (map2 (fun e x => neqb e (Fin 0) && neqb x f_merged) e f) f) e_evol f_evol in
        let harms := arange1 harmonics_required in
        let f_n := map (map (fun f => map (fun k => nZ k * f) harms)) f_evol in
        h <- h_c_n_w b jv gi m_c f_evol e_evol harms dist no_sky ;;
        let h_c_n_2 := map (map (map (fun x => x ^^ 2))) h in
        h_f_lisa <- noise3 w kw sc t_obs f_n ;;
        h_c_lisa_2 <- bzip3 (fun f n => f ^^ 2 * n) f_n h_f_lisa ;;
        y <- bzip3 ndiv h_c_n_2 h_c_lisa_2 ;;
        snr_n_2 <- bzip (trapz_axis1 harmonics_required) y f_n ;;
        returned ret_max ret_snr2 snr_n_2
  | _ => Err TypeError
  end.
