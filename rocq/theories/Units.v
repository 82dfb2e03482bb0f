(** Units.v -- model of the astropy quantities LEGWORK computes with, and the unit-carrying versions of the functions
    that Utils.v and Evol.v model on SI values.

    A unit is its size in SI base units and the exponents of the base units.  Simplifications: the exponents (rational
    in astropy) are real numbers here; the base units are the seven of the SI and the radian; one number at a time (an
    astropy array carries a single unit, and every operation below acts on its entries one by one); no rounding. *)
From Coq Require Import Reals ZArith List Bool.
From Verif Require Import Num Np Utils Strain Evol.
Import ListNotations.
Open Scope R_scope.
Open Scope res_scope.

(** ** Dimensions and units *)

Record dim := mkDim { d_m : R; d_kg : R; d_s : R; d_rad : R; d_A : R; d_K : R; d_mol : R; d_cd : R }.

Definition dmap2 (f : R -> R -> R) (a b : dim) : dim :=
  mkDim (f (d_m a) (d_m b)) (f (d_kg a) (d_kg b)) (f (d_s a) (d_s b)) (f (d_rad a) (d_rad b))
        (f (d_A a) (d_A b)) (f (d_K a) (d_K b)) (f (d_mol a) (d_mol b)) (f (d_cd a) (d_cd b)).
(** Dimension of a product, of a quotient, and of a power. *)
Definition dmul : dim -> dim -> dim := dmap2 Rplus.
Definition ddiv : dim -> dim -> dim := dmap2 Rminus.
Definition dpow (d : dim) (p : R) : dim := dmap2 (fun x _ => p * x) d d.

Definition dimensionless : dim := mkDim 0 0 0 0 0 0 0 0.
Definition length_dim : dim := mkDim 1 0 0 0 0 0 0 0.
Definition mass_dim : dim := mkDim 0 1 0 0 0 0 0 0.
Definition time_dim : dim := mkDim 0 0 1 0 0 0 0 0.
Definition frequency_dim : dim := mkDim 0 0 (-1) 0 0 0 0 0.
Definition angle_dim : dim := mkDim 0 0 0 1 0 0 0 0.

Definition dim_eqb (a b : dim) : bool :=
  Reqb (d_m a) (d_m b) && Reqb (d_kg a) (d_kg b) && Reqb (d_s a) (d_s b) && Reqb (d_rad a) (d_rad b) &&
  Reqb (d_A a) (d_A b) && Reqb (d_K a) (d_K b) && Reqb (d_mol a) (d_mol b) && Reqb (d_cd a) (d_cd b).

(** A unit: its size (how many SI base units it is) and its dimension. *)
Record unit_ := mkUnit { u_size : R; u_dim : dim }.
Definition umul (u w : unit_) : unit_ := mkUnit (u_size u * u_size w) (dmul (u_dim u) (u_dim w)).
Definition udiv (u w : unit_) : unit_ := mkUnit (u_size u / u_size w) (ddiv (u_dim u) (u_dim w)).
Definition upow (u : unit_) (p : R) : unit_ := mkUnit (Rpower (u_size u) p) (dpow (u_dim u) p).
Definition upowi (u : unit_) (k : Z) : unit_ := mkUnit (powerRZ (u_size u) k) (dpow (u_dim u) (IZR k)).

(** The units that appear in the code (astropy.units; Msun is GM_sun / G, IAU 2015 and CODATA 2018). *)
Definition one_ : unit_ := mkUnit 1 dimensionless.
Definition meter : unit_ := mkUnit 1 length_dim.
Definition second : unit_ := mkUnit 1 time_dim.
Definition hertz : unit_ := mkUnit 1 frequency_dim.
Definition radian : unit_ := mkUnit 1 angle_dim.
Definition au : unit_ := mkUnit AU length_dim.
Definition msun : unit_ := mkUnit (132712440000000000000 / Ggrav) mass_dim.
Definition year : unit_ := mkUnit yr time_dim.
Definition gigayear : unit_ := mkUnit Gyr time_dim.
Definition hertz_per_year : unit_ := udiv hertz year.
Definition m4_per_s : unit_ := udiv (upowi meter 4) second.

(** ** Values and their arithmetic *)

(** A Python number, or an astropy Quantity. *)
Inductive val : Type :=
| Pl (x : num)
| Qy (x : num) (u : unit_).

Definition is_quantity (v : val) : bool := match v with Pl _ => false | Qy _ _ => true end.
Definition mag (v : val) : num := match v with Pl x => x | Qy x _ => x end.
Definition unit_of (v : val) : unit_ := match v with Pl _ => one_ | Qy _ u => u end.

(** [a * b], [a / b]: the numbers and the units are multiplied (divided); numbers count as dimensionless. *)
Definition vmul (a b : val) : val :=
  match a, b with
  | Pl x, Pl y => Pl (x * y)
  | _, _ => Qy (mag a * mag b) (umul (unit_of a) (unit_of b))
  end.
Definition vdiv (a b : val) : val :=
  match a, b with
  | Pl x, Pl y => Pl (x / y)
  | _, _ => Qy (mag a / mag b) (udiv (unit_of a) (unit_of b))
  end.
(** [v ** p] for a fractional literal, [v ** k] for an integer literal. *)
Definition vpow (v : val) (p : R) : val :=
  match v with Pl x => Pl (x ** p) | Qy x u => Qy (x ** p) (upow u p) end.
Definition vpowi (v : val) (k : Z) : val :=
  match v with Pl x => Pl (x ^^ k) | Qy x u => Qy (x ^^ k) (upowi u k) end.

(** astropy/units/quantity_helper: a plain 0, inf or nan may stand for a quantity of any unit. *)
Definition arbitrary_unit (x : num) : bool :=
  match x with Fin r => Reqb r 0 | _ => true end.

(** [a + b] and [a - b] (astropy/units/quantity_helper/helpers.py, get_converters_and_unit): the right operand is
    converted to the unit of the left one; a plain number is dimensionless, or 0, inf or nan; UnitConversionError
    otherwise. *)
Definition vsum (op : num -> num -> num) (a b : val) : res val :=
  match a, b with
  | Pl x, Pl y => Ok (Pl (op x y))
  | Qy x u, Qy y w =>
      if dim_eqb (u_dim w) (u_dim u) then Ok (Qy (op x (y * Fin (u_size w / u_size u))%num) u) else Err UnitError
  | Pl x, Qy y u =>
      if dim_eqb (u_dim u) dimensionless then Ok (Qy (op x (y * Fin (u_size u))%num) one_)
      else if arbitrary_unit x then Ok (Qy (op x y) u) else Err UnitError
  | Qy x u, Pl y =>
      if dim_eqb (u_dim u) dimensionless then Ok (Qy (op (x * Fin (u_size u))%num y) one_)
      else if arbitrary_unit y then Ok (Qy (op x y) u) else Err UnitError
  end.
Definition vadd := vsum nadd.
Definition vsub := vsum nsub.

(** [v.to(u)]: UnitConversionError when the dimensions differ; a number has no attribute [to]. *)
Definition to (v : val) (u : unit_) : res val :=
  match v with
  | Pl _ => Err AttributeError
  | Qy x w => if dim_eqb (u_dim w) (u_dim u) then Ok (Qy (x * Fin (u_size w / u_size u)) u) else Err UnitError
  end.
(** [v.decompose().value]: the number in SI base units, whatever they are. *)
Definition decompose_value (v : val) : res num :=
  match v with Pl _ => Err AttributeError | Qy x u => Ok (x * Fin (u_size u))%num end.
(** [v.to(u).value] *)
Definition to_value (v : val) (u : unit_) : res num := q <- to v u ;; Ok (mag q).

(** "simplify units if present": [if isinstance(v, Quantity): v = v.to(u)]. *)
Definition simplify (v : val) (u : unit_) : res val := if is_quantity v then to v u else Ok v.

(** Literals. *)
Definition lit (r : R) : val := Pl (Fin r).
(** astropy.constants G and c. *)
Definition Gq : val := Qy (Fin Ggrav) (mkUnit 1 (mkDim 3 (-1) (-2) 0 0 0 0 0)).
Definition cq : val := Qy (Fin clight) (mkUnit 1 (mkDim 1 0 (-1) 0 0 0 0 0)).

(** ** utils.py *)

(** utils.py L13-35, [chirp_mass]. *)
Definition chirp_mass_q (m_1 m_2 : val) : res val :=
  s <- vadd m_1 m_2 ;;
  simplify (vdiv (vpow (vmul m_1 m_2) (3/5)) (vpow s (1/5))) msun.

(** utils.py L66-92, [peters_f]. *)
Definition peters_f_q (e : val) : res val :=
  s <- vadd (lit 1) (vmul (lit (73/24)) (vpowi e 2)) ;;
  numerator <- vadd s (vmul (lit (37/96)) (vpowi e 4)) ;;
  d <- vsub (lit 1) (vpowi e 2) ;;
  Ok (vdiv numerator (vpow d (7/2))).

(** utils.py L95-123, [get_a_from_f_orb]. *)
Definition get_a_from_f_orb_q (f_orb m_1 m_2 : val) : res val :=
  s <- vadd m_1 m_2 ;;
  simplify (vpow (vdiv (vmul Gq s) (vpowi (vmul (vmul (lit 2) (lit PI)) f_orb) 2)) (1/3)) au.

(** utils.py L126-154, [get_f_orb_from_a]. *)
Definition get_f_orb_from_a_q (a m_1 m_2 : val) : res val :=
  s <- vadd m_1 m_2 ;;
  simplify (vdiv (vpow (vdiv (vmul Gq s) (vpowi a 3)) (1/2)) (vmul (lit 2) (lit PI))) hertz.

(** utils.py L157-179, [beta]. *)
Definition beta_q (m_1 m_2 : val) : res val :=
  s <- vadd m_1 m_2 ;;
  simplify (vmul (vmul (vmul (vdiv (vmul (lit (64/5)) (vpowi Gq 3)) (vpowi cq 5)) m_1) m_2) s) m4_per_s.

(** utils.py L182-204, [c_0]. *)
Definition c_0_q (a_i ecc_i : val) : res val :=
  d <- vsub (lit 1) (vpowi ecc_i 2) ;;
  s <- vadd (lit 1) (vmul (lit (121/304)) (vpowi ecc_i 2)) ;;
  simplify (vmul (vmul (vmul a_i d) (vpow ecc_i (-12/19))) (vpow s (-870/2299))) au.

(** utils.py L207-231, [get_a_from_ecc]. *)
Definition get_a_from_ecc_q (ecc c0 : val) : res val :=
  d <- vsub (lit 1) (vpowi ecc 2) ;;
  s <- vadd (lit 1) (vmul (lit (121/304)) (vpowi ecc 2)) ;;
  simplify (vmul (vdiv (vmul c0 (vpow ecc (12/19))) d) (vpow s (870/2299))) au.

(** utils.py L234-265, [fn_dot], for one harmonic. *)
Definition fn_dot_q (m_c f_orb e : val) (n : Z) : res val :=
  if (n <? 1)%Z then Err ValueError
  else
    p <- peters_f_q e ;;
    simplify
      (vmul (vmul (vdiv (vmul (vdiv (vmul (lit 48) (Pl (nZ n))) (vmul (lit 5) (lit PI)))
                              (vpow (vmul Gq m_c) (5/3)))
                        (vpowi cq 5))
                  (vpow (vmul (vmul (lit 2) (lit PI)) f_orb) (11/3)))
            p) hertz_per_year.

(** ** evol.py *)

(** evol.py L69-116, [check_mass_freq_input] (Evol.check_mass_freq_input) with quantities, and L441-475,
    [get_t_merge_circ]. *)
Definition check_q := check_mass_freq_input beta_q get_a_from_f_orb_q.
Definition get_t_merge_circ_q (beta m_1 m_2 a_i f_orb_i : option val) : res val :=
  ba <- check_q beta m_1 m_2 a_i f_orb_i ;;
  to (vdiv (vpowi (snd ba) 4) (vmul (lit 4) (fst ba))) gigayear.

(** ** strain.py, for one source, one timestep and one harmonic *)

(** strain.py L12-54, [amplitude_modulation]: the values of np.cos and np.sin for angles (an argument that is a plain
    number is in radians). *)
Definition to_radians (v : val) : res num :=
  match v with Pl x => Ok x | Qy _ _ => to_value v radian end.
Definition amplitude_modulation_q (lat lon psi inc : val) : res num :=
  theta <- vsub (Qy (Fin (PI/2)) radian) lat ;;
  theta <- to_radians theta ;;
  phi <- to_radians lon ;;
  psi <- to_radians psi ;;
  inc <- to_radians inc ;;
  let a_plus := ((Fin 1 + ncos inc ^^ 2) / Fin 2)%num in
  let a_cross := ncos inc in
  Ok (Fin (5/4) * (a_plus ^^ 2 * F_plus_squared theta phi psi + a_cross ^^ 2 * F_cross_squared theta phi psi))%num.

(** The arrays of strain.py are lists of values here, each with its own unit (in astropy one unit per array).
    Optional sky arguments, as in Strain.sky. *)
Record sky_q := mkSkyQ { position_q : option (list (val * val));
                         polarisation_q : option (list val);
                         inclination_q : option (list val) }.
Definition amplitude_modulation_arr_q (s : sky_q) : res (list num) :=
  match position_q s with
  | None => Err AttributeError
  | Some pos =>
      match inclination_q s with
      | None => Err TypeError
      | Some inc =>
          match polarisation_q s with
          | None => Err TypeError
          | Some psi =>
              pp <- bzip (fun (p : val * val) x => (p, x)) pos psi ;;
              amp <- bzip (fun (q : val * val * val) i =>
                      amplitude_modulation_q (fst (fst q)) (snd (fst q)) (snd q) i) pp inc ;;
              mapM (fun r => r) amp
          end
      end
  end.
Definition sky_given_q (s : sky_q) : bool :=
  is_some (position_q s) || is_some (polarisation_q s) || is_some (inclination_q s).

(** strain.py L121-122 and L213-214, the parts that carry units.  The eccentricity is a plain number. *)
Definition h0_indep_q (m_c f_orb dist : val) : val :=
  let prefac := vdiv (vmul (Pl (nsqrt (Fin (Rpower 2 (28/3) / 5)))) (vpow Gq (5/3))) (vpowi cq 4) in
  vdiv (vmul (vmul prefac (vpow m_c (5/3))) (vpow (vmul (lit PI) f_orb) (2/3))) dist.
Definition hc_indep_q (m_c f_orb : val) (ecc : num) (dist : val) : val :=
  let prefac := vdiv (vmul (Pl (nsqrt (Fin (Rpower 2 (5/3) / (3 * Rpower PI (4/3)))))) (vpow Gq (5/6)))
                     (vpow cq (3/2)) in
  vdiv (vmul (vdiv (vmul prefac (vpow m_c (5/6))) dist) (vpow f_orb (-1/6))) (Pl (nsqrt (peters_f ecc))).

(** L141-144 / L233-236. *)
Definition modulate_q (s : sky_q) (h : list (list (list val))) : res (list (list (list val))) :=
  if sky_given_q s then
    amp <- amplitude_modulation_arr_q s ;;
    bzip3 (fun a x => vmul (Pl (nsqrt a)) x) (map (fun a => [[a]]) amp) h
  else Ok h.

(** strain.py L57-146, [h_0_n], and L149-238, [h_c_n], after ensure_array and the dimension extension. *)
Definition h_0_n_q (jv : Z -> num -> num) (gi : option (Z -> num -> num))
           (m_c : list val) (f_orb : list (list val)) (ecc : list (list num)) (n : list Z) (dist : list val)
           (s : sky_q) : res (list (list (list num))) :=
  if existsb (fun k => (k <? 1)%Z) n then Err ValueError
  else
    mf <- bzip2 (fun m f => (m, f)) (newaxis m_c) f_orb ;;
    indep <- bzip2 (fun (q : val * val) d => h0_indep_q (fst q) (snd q) d) mf (newaxis dist) ;;
    h <- bzip3 (fun v x => vmul v (Pl x)) (newaxis2 indep) (n_dependent (h0_dep jv gi) n ecc) ;;
    h <- modulate_q s h ;;
    mapM (mapM (mapM decompose_value)) h.
Definition h_c_n_q (jv : Z -> num -> num) (gi : option (Z -> num -> num))
           (m_c : list val) (f_orb : list (list val)) (ecc : list (list num)) (n : list Z) (dist : list val)
           (s : sky_q) : res (list (list (list num))) :=
  if existsb (fun k => (k <? 1)%Z) n then Err ValueError
  else
    md <- bzip2 (fun m d => (m, d)) (newaxis m_c) (newaxis dist) ;;
    mdf <- bzip2 (fun (q : val * val) f => (q, f)) md f_orb ;;
    indep <- bzip2 (fun (q : val * val * val) e => hc_indep_q (fst (fst q)) (snd q) e (snd (fst q))) mdf ecc ;;
    h <- bzip3 (fun v x => vmul v (Pl x)) (newaxis2 indep) (n_dependent (hc_dep jv gi) n ecc) ;;
    h <- modulate_q s h ;;
    mapM (mapM (mapM decompose_value)) h.
