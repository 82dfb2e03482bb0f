(** Strain.v -- model of src/legwork/strain.py (SI values; decompose().value at L146/L238 is the identity). *)
From Coq Require Import Reals ZArith List Bool.
From Verif Require Import Num Np Utils.
Import ListNotations.
Open Scope num_scope.
Open Scope res_scope.

(** strain.py L12-54, [amplitude_modulation] for one source: latitude, longitude, polarisation, inclination. *)
Definition amplitude_modulation_elem (lat lon psi inc : num) : num :=
  let theta := Fin (PI/2) - lat in
  let phi := lon in
  let a_plus := (#1 + ncos inc ^^ 2) / #2 in
  let a_cross := ncos inc in
  let term1 := a_plus ^^ 2 * F_plus_squared theta phi psi in
  let term2 := a_cross ^^ 2 * F_cross_squared theta phi psi in
  #(5/4) * (term1 + term2).

(** Optional sky arguments.  [position] is a SkyCoord (list of (lat, lon)). *)
Record sky := mkSky { position : option (list (num * num));
                      polarisation : option (list num);
                      inclination : option (list num) }.
Definition no_sky : sky := mkSky None None None.

(** strain.py L12-54 on arrays.  L42 reads [position.lat] (AttributeError on None), L45 takes np.cos of
    [inclination] and L47 multiplies [polarisation] (TypeError on None). *)
Definition amplitude_modulation (s : sky) : res (list num) :=
  match position s with
  | None => Err AttributeError
  | Some pos =>
      match inclination s with
      | None => Err TypeError
      | Some inc =>
          match polarisation s with
          | None => Err TypeError
          | Some psi =>
              pp <- bzip (fun (p : num * num) x => (p, x)) pos psi ;;
              bzip (fun (q : num * num * num) i =>
                      amplitude_modulation_elem (fst (fst q)) (snd (fst q)) (snd q) i) pp inc
          end
      end
  end.

(** L141/L233: [position is not None or polarisation is not None or inclination is not None]. *)
Definition is_some {A} (o : option A) : bool := match o with Some _ => true | None => false end.
Definition sky_given (s : sky) : bool :=
  is_some (position s) || is_some (polarisation s) || is_some (inclination s).

(** The power g(n, e): L129-137 / L221-229.  [gi] is the optional interpolation routine, taken to act entry by
    entry; negative interpolated values are overwritten by 0 (L135/L227). *)
Definition g_value (jv : Z -> num -> num) (gi : option (Z -> num -> num)) (n : Z) (e : num) : num :=
  match gi with
  | None => peters_g jv n e
  | Some g => let v := g n e in if nlt v (Fin 0) then Fin 0 else v
  end.

(** L121-122: the harmonic-independent part of h_0. *)
Definition h0_prefac : num := nsqrt (#(Rpower 2 (28/3) / 5)) * Fin Ggrav ** (5/3) / Fin clight ^^ 4.
Definition h0_indep (m_c f_orb dist : num) : num :=
  h0_prefac * m_c ** (5/3) * (Fin PI * f_orb) ** (2/3) / dist.
(** L130/L137 *)
Definition h0_dep (jv : Z -> num -> num) (gi : option (Z -> num -> num)) (n : Z) (e : num) : num :=
  nsqrt (g_value jv gi n e) / nZ n.

(** L213-214: the harmonic-independent part of h_c. *)
Definition hc_prefac : num :=
  nsqrt (#(Rpower 2 (5/3) / (3 * Rpower PI (4/3)))) * Fin Ggrav ** (5/6) / Fin clight ** (3/2).
Definition hc_indep (m_c f_orb ecc dist : num) : num :=
  hc_prefac * m_c ** (5/6) / dist * f_orb ** (-1/6) / nsqrt (peters_f ecc).
(** L222/L229 *)
Definition hc_dep (jv : Z -> num -> num) (gi : option (Z -> num -> num)) (n : Z) (e : num) : num :=
  nsqrt (g_value jv gi n e / nZ n).

(** L141-144 / L233-236: multiply by the square root of the modulation, broadcast over times and harmonics. *)
Definition modulate (s : sky) (h : list (list (list num))) : res (list (list (list num))) :=
  if sky_given s then
    amp <- amplitude_modulation s ;;
    bzip3 (fun a x => nsqrt a * x) (map (fun a => [[a]]) amp) h
  else Ok h.

(** [n_dependent_part]: n has shape (1,1,z) and ecc shape (x,y,1). *)
Definition n_dependent (dep : Z -> num -> num) (n : list Z) (ecc : list (list num)) : list (list (list num)) :=
  map (map (fun e => map (fun k => dep k e) n)) ecc.

(** strain.py L57-146, [h_0_n], after ensure_array (L103) and the dimension extension (L111-114): f_orb and ecc
    are 2-D (sources x timesteps); m_c and dist 1-D.  The result has shape (sources, timesteps, harmonics). *)
Definition h_0_n (jv : Z -> num -> num) (gi : option (Z -> num -> num))
           (m_c : list num) (f_orb ecc : list (list num)) (n : list Z) (dist : list num) (s : sky)
  : res (list (list (list num))) :=
  if existsb (fun k => (k <? 1)%Z) n then Err ValueError
  else
    mf <- bzip2 (fun m f => (m, f)) (newaxis m_c) f_orb ;;
    indep <- bzip2 (fun (q : num * num) d => h0_indep (fst q) (snd q) d) mf (newaxis dist) ;;
    h <- bzip3 nmul (newaxis2 indep) (n_dependent (h0_dep jv gi) n ecc) ;;
    modulate s h.

(** strain.py L149-238, [h_c_n]. *)
Definition h_c_n (jv : Z -> num -> num) (gi : option (Z -> num -> num))
           (m_c : list num) (f_orb ecc : list (list num)) (n : list Z) (dist : list num) (s : sky)
  : res (list (list (list num))) :=
  if existsb (fun k => (k <? 1)%Z) n then Err ValueError
  else
    md <- bzip2 (fun m d => (m, d)) (newaxis m_c) (newaxis dist) ;;
    mdf <- bzip2 (fun (q : num * num) f => (q, f)) md f_orb ;;
    indep <- bzip2 (fun (q : num * num * num) e => hc_indep (fst (fst q)) (snd q) e (snd (fst q))) mdf ecc ;;
    h <- bzip3 nmul (newaxis2 indep) (n_dependent (hc_dep jv gi) n ecc) ;;
    modulate s h.

(** The same computations for one source, one timestep and one harmonic, with an optional modulation value.
    (Not a function of LEGWORK: the reference against which C33 compares the array code.) *)
Definition mod_elem (amp : option num) (x : num) : num :=
  match amp with Some a => nsqrt a * x | None => x end.
Definition h0_elem jv gi m f e (n : Z) d amp : num := mod_elem amp (h0_indep m f d * h0_dep jv gi n e).
Definition hc_elem jv gi m f e (n : Z) d amp : num := mod_elem amp (hc_indep m f e d * hc_dep jv gi n e).
