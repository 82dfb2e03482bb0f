(** UnitsEvol.v -- evol.py with astropy quantities (the SI version is Evol.v).

    Arrays are lists of values, each with its own unit (in astropy an array carries one unit).  Simplifications: the
    eccentricities are plain numbers; when both the shapes and the units of two arrays disagree, the model reports the
    shapes first (astropy reports the units first); an array without entries has no unit; warnings are not modelled. *)
From Coq Require Import String Reals ZArith List Bool.
From Verif Require Import Num Np Utils Evol Units.
Import ListNotations.
Open Scope list_scope.
Open Scope R_scope.
Open Scope res_scope.

(** ** Comparisons, maxima and assignments *)

(** [a >= b], [a <= b]: the right operand is converted to the unit of the left one, as for sums. *)
Definition vcompare (op : num -> num -> bool) (a b : val) : res bool :=
  match a, b with
  | Pl x, Pl y => Ok (op x y)
  | Qy x u, Qy y w =>
      if dim_eqb (u_dim w) (u_dim u) then Ok (op x (y * Fin (u_size w / u_size u))%num) else Err UnitError
  | Pl x, Qy y u =>
      if dim_eqb (u_dim u) dimensionless then Ok (op x (y * Fin (u_size u))%num)
      else if arbitrary_unit x then Ok (op x y) else Err UnitError
  | Qy x u, Pl y =>
      if dim_eqb (u_dim u) dimensionless then Ok (op (x * Fin (u_size u))%num y)
      else if arbitrary_unit y then Ok (op x y) else Err UnitError
  end.
Definition vge := vcompare nge.
Definition vle := vcompare nle.

(** x.max() of a row. *)
Definition row_max_q (l : list val) : res val :=
  match l with
  | [] => Err ValueError
  | x :: t => fold_left (fun m y => m <- m ;; vsum nmax m y) t (Ok x)
  end.

(** [x[i] = v]: Quantity.__setitem__ converts [v] to the unit of [x] (a plain number is dimensionless, or 0, inf or
    nan); a plain array takes the bare number. *)
Definition store (target v : val) : res val :=
  match target, v with
  | Qy _ u, Qy _ _ => to v u
  | Qy _ u, Pl x =>
      if dim_eqb dimensionless (u_dim u) then Ok (Qy (x / Fin (u_size u))%num u)
      else if arbitrary_unit x then Ok (Qy x u) else Err UnitError
  | Pl _, _ => Ok (Pl (mag v))
  end.

(** Broadcasting of two 2-D arrays with an operation that may fail. *)
Definition bzip2M {A B C} (f : A -> B -> res C) (a1 : list (list A)) (a2 : list (list B)) : res (list (list C)) :=
  bzipM (bzipM f) a1 a2.

(** ** Masses, frequencies, separations *)

(** utils.beta and utils.get_a_from_f_orb on arrays; evol.py L69-116. *)
Definition beta_arr_q (m_1 m_2 : list val) : res (list val) := bzipM beta_q m_1 m_2.
Definition get_a_arr_q (f m_1 m_2 : list val) : res (list val) :=
  mm <- bzip (fun x y => (x, y)) m_1 m_2 ;;
  bzipM (fun (q : val * val) x => get_a_from_f_orb_q x (fst q) (snd q)) mm f.
Definition check_arr_q := check_mass_freq_input beta_arr_q get_a_arr_q.

(** ** Merger times *)

(** evol.py L441-475, [get_t_merge_circ], for arrays. *)
Definition t_merge_circ_q (beta a_i : val) : val := vdiv (vpowi a_i 4) (vmul (lit 4) beta).
Definition get_t_merge_circ_arr_q (beta m_1 m_2 a_i f_orb_i : option (list val)) : res (list val) :=
  ba <- check_arr_q beta m_1 m_2 a_i f_orb_i ;;
  bzipM (fun b a => to (t_merge_circ_q b a) gigayear) (fst ba) (snd ba).

(** The formulas of L582-598, on one entry. *)
Definition t_small_q (c0 beta : val) (e : num) : val :=
  vmul (vdiv (vpowi c0 4) (vmul (lit 4) beta)) (Pl (e ** (48/19))).
Definition t_large_q (c0 beta : val) (e : num) : val :=
  vmul (vmul (vmul (vmul (vdiv (vpowi c0 4) (vmul (lit 4) beta)) (Pl (e ** (48/19)))) (lit (768/425)))
             (Pl ((Fin 1 - e ^^ 2) ** (-1/2))))
       (Pl ((Fin 1 + Fin (121/304) * e ^^ 2) ** (3480/2299))).
Definition t_exact_q (quad : quad_t) (c0 beta : val) (e : num) : res val :=
  prefac <- to (vdiv (vmul (lit (12/19)) (vpowi c0 4)) beta) gigayear ;;
  Ok (vmul prefac (Pl (quad peters_5_14 (Fin 0) e))).
Definition t_fit_q (beta a_i : val) (e : num) : res val :=
  t <- to (t_merge_circ_q beta a_i) gigayear ;;
  Ok (vmul t (Pl (t_merge_mandel_fit e))).

(** [t_merge[mask] = f(x[mask], beta[mask], ecc[mask])] for the array [t_merge] in Gyr, with [f] on one entry. *)
Definition fill (mask : list bool) (f : val -> val -> num -> res val) (xs beta : list val) (ecc : list num)
           (t : list val) : res (list val) :=
  vals <- map2M (fun (xb : val * val) e => f (fst xb) (snd xb) e)
                (map2 pair (select mask xs) (select mask beta)) (select mask ecc) ;;
  vals <- mapM (store (Qy (Fin 0) gigayear)) vals ;;
  Ok (scatter mask vals t).

(** evol.py L507-615, [get_t_merge_ecc] with an array of eccentricities, after check_mass_freq_input. *)
Definition get_t_merge_ecc_core_q (quad : quad_t) (ecc : list num) (a_i beta : list val) (small large : num)
           (exact : bool) : res (list val) :=
  if forallb (fun e => neqb e (Fin 0)) ecc then bzipM (fun b a => to (t_merge_circ_q b a) gigayear) beta a_i
  else if negb ((length a_i =? length ecc)%nat && (length beta =? length ecc)%nat) then Err IndexError
  else
    let circular := map (fun e => neqb e (Fin 0)) ecc in
    let small_e := map (fun e => ngt e (Fin 0) && nlt e small) ecc in
    let large_e := map (fun e => ngt e large) ecc in
    let other_e := map (fun e => nge e small && nle e large) ecc in
    let not_circ := map negb circular in
    vals <- map2M (fun a e => v <- c_0_q a (Pl e) ;; store a v) (select not_circ a_i) (select not_circ ecc) ;;
    let c0 := scatter not_circ vals (map (fun a => match a with Pl _ => Pl (Fin 0) | Qy _ u => Qy (Fin 0) u end) a_i) in
    let t := map (fun _ => Qy (Fin 0) gigayear) ecc in
    t <- fill circular (fun a b _ => Ok (t_merge_circ_q b a)) a_i beta ecc t ;;
    t <- fill small_e (fun c b e => Ok (t_small_q c b e)) c0 beta ecc t ;;
    t <- fill large_e (fun c b e => Ok (t_large_q c b e)) c0 beta ecc t ;;
    t <- (if exact then fill other_e (t_exact_q quad) c0 beta ecc t
          else fill other_e (fun a b e => t_fit_q b a e) a_i beta ecc t) ;;
    mapM (fun v => to v gigayear) t.
Definition get_t_merge_ecc_q (quad : quad_t) (ecc : list num) (a_i f_orb_i beta m_1 m_2 : option (list val))
           (small large : num) (exact : bool) : res (list val) :=
  ba <- check_arr_q beta m_1 m_2 a_i f_orb_i ;;
  get_t_merge_ecc_core_q quad ecc (snd ba) (fst ba) small large exact.

(** The scalar case, L555-556 and L600-615. *)
Definition get_t_merge_ecc_sc_q (quad : quad_t) (e : num) (a_i f_orb_i beta m_1 m_2 : option val)
           (small large : num) (exact : bool) : res val :=
  ba <- check_q beta m_1 m_2 a_i f_orb_i ;;
  let beta := fst ba in let a_i := snd ba in
  if neqb e (Fin 0) then to (t_merge_circ_q beta a_i) gigayear
  else
    c0 <- c_0_q a_i (Pl e) ;;
    t <- (if nlt e small then Ok (t_small_q c0 beta e)
          else if ngt e large then Ok (t_large_q c0 beta e)
          else if exact then Ok (vmul (vdiv (vmul (lit (12/19)) (vpowi c0 4)) beta) (Pl (quad peters_5_14 (Fin 0) e)))
          else t_fit_q beta a_i e) ;;
    to t gigayear.

(** ** Time steps *)
Inductive tevol_q := TNoneQ | TScalarQ (t : val) | TArrQ (l : list val).
Inductive tsteps_q := SNoneQ | S1Q (l : list val) | S2Q (l : list (list val)).

(** evol.py L119-167, [create_timesteps_array].  [t_evol.value] and [timesteps.value] need quantities;
    np.linspace(0 * u.s, t_evol, n_step) is in seconds. *)
Definition create_timesteps_array_q (quad : quad_t) (a_i beta : list val) (ecc_i : list num) (t_evol : tevol_q)
           (n_step : nat) (timesteps : tsteps_q) : res (list (list val)) :=
  match timesteps with
  | SNoneQ =>
      t <- match t_evol with
           | TNoneQ => get_t_merge_ecc_q quad ecc_i (Some a_i) None (Some beta) None None
                                         small_e_tol_default large_e_tol_default true
           | TScalarQ t => if is_quantity t then Ok (np_repeat t (length a_i)) else Err AttributeError
           | TArrQ l => if forallb is_quantity l then Ok l else Err AttributeError
           end ;;
      mapM (fun stop => s <- to stop second ;; Ok (map (fun x => Qy x second) (linspace0 (mag s) n_step))) t
  | S1Q l => if forallb is_quantity l then Ok (np_repeat l (length a_i)) else Err AttributeError
  | S2Q l => Ok l
  end.

(** ** Output *)
Inductive evo_q := E1Q (l : list val) | E2Q (l : list (list val)).
Inductive outputs_q := SingleQ (e : evo_q) | ManyQ (l : list evo_q).
Definition shape_q (single : bool) (x : list (list val)) : evo_q := if single then E1Q (concat x) else E2Q x.
Definition pack_q (l : list evo_q) : res outputs_q :=
  match l with [] => Err IndexError | [x] => Ok (SingleQ x) | _ => Ok (ManyQ l) end.
(** [x.to(u)] for a 2-D array. *)
Definition convert (u : unit_) (x : list (list val)) : res (list (list val)) := mapM (mapM (fun v => to v u)) x.

(** L243-247 / L414-418 for one entry: [1e-30 * a_evol.unit] marks merged binaries. *)
Definition marker : R := 1 / 1000000000000000000000000000000.
Definition freq_of_a_q (m_1 m_2 a : val) : res val :=
  match a with
  | Pl _ => Err AttributeError
  | Qy x u =>
      let a_not0 := if neqb x (Fin 0) then Qy (Fin marker) u else a in
      f <- get_f_orb_from_a_q a_not0 m_1 m_2 ;;
      Ok (if neqb (mag a_not0) (Fin marker) then Qy (Fin 100) hertz else f)
  end.
Definition freq_rows_q (m_1 m_2 : list val) (a : list (list val)) : res (list (list val)) :=
  mm <- bzip (fun x y => (x, y)) m_1 m_2 ;;
  bzip2M (fun (q : val * val) x => freq_of_a_q (fst q) (snd q) x) (newaxis mm) a.

(** L236-238 for one entry. *)
Definition circ_a_elem_q (a_i four_beta_t : val) : res val :=
  difference <- vsub (vpowi a_i 4) four_beta_t ;;
  match difference with
  | Pl _ => Err AttributeError
  | Qy x u => Ok (vpow (Qy (if nle x (Fin 0) then Fin 0 else x) u) (1/4))
  end.

Definition arr_of_q (v : pyval val unit) : option (list val) :=
  match v with PQArr l _ | PArr l => Some l | _ => None end.

(** evol.py L170-264, [evol_circ]. *)
Definition evol_circ_q (quad : quad_t) (t_evol : tevol_q) (n_step : nat) (timesteps : tsteps_q)
           (beta m_1 m_2 a_i f_orb_i : pyval val unit) (output_vars : list string) : res outputs_q :=
  match ensure_array [m_1; m_2; beta; a_i; f_orb_i] with
  | ([m_1; m_2; beta; a_i; f_orb_i], single_source) =>
      let m_1 := arr_of_q m_1 in let m_2 := arr_of_q m_2 in
      ba <- check_arr_q (arr_of_q beta) m_1 m_2 (arr_of_q a_i) (arr_of_q f_orb_i) ;;
      let beta := fst ba in let a_i := snd ba in
      let want_f := any_in ["f_orb"%string; "f_GW"%string] output_vars in
      if want_f && negb (match m_1, m_2 with Some _, Some _ => true | _, _ => false end) then Err ValueError
      else
        ts <- create_timesteps_array_q quad a_i beta (map (fun _ => Fin 0) a_i) t_evol n_step timesteps ;;
        bt <- bzip2 (fun b t => vmul (vmul (lit 4) b) t) (newaxis beta) ts ;;
        a_evol <- bzip2M circ_a_elem_q (newaxis a_i) bt ;;
        f_evol <- (if want_f then match m_1, m_2 with
                                  | Some x, Some y => freq_rows_q x y a_evol
                                  | _, _ => Err ValueError
                                  end
                   else Ok []) ;;
        evolution <- mapM (fun var =>
                if String.eqb var "timesteps" then x <- convert year ts ;; Ok [shape_q single_source x]
                else if String.eqb var "a" then x <- convert au a_evol ;; Ok [shape_q single_source x]
                else if String.eqb var "f_orb" then x <- convert hertz f_evol ;; Ok [shape_q single_source x]
                else if String.eqb var "f_GW" then
                  x <- convert hertz f_evol ;; Ok [shape_q single_source (map (map (vmul (lit 2))) x)]
                else Ok []) output_vars ;;
        pack_q (concat evolution)
  | _ => Err TypeError
  end.

(** L366-389: the in-place correction of the timesteps. *)
Definition too_close_row_q (t_merge t_before : val) (row : list val) : res (list bool) :=
  limit <- vsub t_merge t_before ;;
  close <- mapM (fun t => vge t limit) row ;;
  Ok (match close with [] => [] | _ :: rest => false :: rest end).
Definition clamp_row_q (mask : list bool) (row : list val) : res (list val) :=
  marked <- map2M (fun (b : bool) t => if b then store t (Qy (Fin (-1)) gigayear) else Ok t) mask row ;;
  previous <- row_max_q marked ;;
  map2M (fun (b : bool) t => if b then store t previous else Ok t) mask marked.
Definition avoid_merger_clamp_q (t_merge : list val) (t_before : val) (ts : list (list val))
  : res (list (list val)) :=
  masks <- bzipM (fun row tm => too_close_row_q tm t_before row) ts t_merge ;;
  if existsb (fun row : list val => match row with [] => true | _ => false end) ts then Err IndexError
  else if existsb (existsb (fun b => b)) masks then
    if (length masks =? length ts)%nat then map2M clamp_row_q masks ts else Err IndexError
  else Ok ts.

(** evol.py L267-438, [evol_ecc]; as Evol.evol_ecc, the second component is the caller's [timesteps] afterwards.
    The eccentricities are ensure_array'd on their own (the function treats its arguments one by one). *)
Definition evol_ecc_q (quad : quad_t) (odeint : odeint_t) (sched : list nat)
           (ecc_i : pyval num unit) (t_evol : tevol_q) (n_step : nat) (timesteps : tsteps_q)
           (beta m_1 m_2 a_i f_orb_i : pyval val unit) (output_vars : list string) (n_proc : nat)
           (avoid_merger exact_t_merge : bool) (t_before : val) (t_merge : option (list val))
  : res (outputs_q * tsteps_q) :=
  match ensure_array [m_1; m_2; beta; a_i; f_orb_i], ensure_array [ecc_i] with
  | ([m_1; m_2; beta; a_i; f_orb_i], single_1), ([ecc_i], single_2) =>
      let single_source := single_1 || single_2 in
      let m_1 := arr_of_q m_1 in let m_2 := arr_of_q m_2 in
      ba <- check_arr_q (arr_of_q beta) m_1 m_2 (arr_of_q a_i) (arr_of_q f_orb_i) ;;
      let beta := fst ba in let a_i := snd ba in
      let want_f := any_in ["f_orb"%string; "f_GW"%string] output_vars in
      if want_f && negb (match m_1, m_2 with Some _, Some _ => true | _, _ => false end) then Err ValueError
      else
        match arr_of ecc_i with
        | None => Err TypeError
        | Some ecc =>
            c0 <- bzipM (fun a e => c_0_q a (Pl e)) a_i ecc ;;
            ts0 <- create_timesteps_array_q quad a_i beta ecc t_evol n_step timesteps ;;
            ts <- (if avoid_merger then
                     tm <- match t_merge with
                           | None => tm <- get_t_merge_ecc_q quad ecc (Some a_i) None (Some beta) None None
                                             small_e_tol_default large_e_tol_default exact_t_merge ;;
                                     mapM (fun v => to v gigayear) tm
                           | Some tm => Ok tm
                           end ;;
                     avoid_merger_clamp_q tm t_before ts0
                   else Ok ts0) ;;
            c0 <- mapM (fun v => to_value v meter) c0 ;;
            beta <- mapM (fun v => to_value v m4_per_s) beta ;;
            times <- mapM (mapM (fun v => to_value v second)) ts ;;
            let tasks := zip4 ecc times beta c0 in
            ecc_evol <- (if (1 <? n_proc)%nat then
                           match all_done (pool_map (integrate_de_dt odeint) tasks sched) with
                           | Some l => Ok l
                           | None => Err OSErr
                           end
                         else if negb ((length ecc <=? length times)%nat && (length ecc <=? length beta)%nat
                                       && (length ecc <=? length c0)%nat) then Err IndexError
                         else Ok (map (fun q => let '(e, t, b, c) := q in odeint (de_dt b c) e t) tasks)) ;;
            let ecc_evol := map (map nan_to_num) ecc_evol in
            let want_a := any_in ["a"%string; "f_orb"%string; "f_GW"%string] output_vars in
            a_evol <- (if want_a
                       then bzip2M (fun e c => get_a_from_ecc_q (Pl e) (Qy c meter)) ecc_evol (newaxis c0)
                       else Ok []) ;;
            f_evol <- (if want_f then match m_1, m_2 with
                                      | Some x, Some y => freq_rows_q x y a_evol
                                      | _, _ => Err ValueError
                                      end
                       else Ok []) ;;
            evolution <- mapM (fun var =>
                if String.eqb var "timesteps" then
                  x <- convert year (map (map (fun t => Qy t second)) times) ;; Ok [shape_q single_source x]
                else if String.eqb var "ecc" then Ok [shape_q single_source (map (map Pl) ecc_evol)]
                else if String.eqb var "a" then x <- convert au a_evol ;; Ok [shape_q single_source x]
                else if String.eqb var "f_orb" then x <- convert hertz f_evol ;; Ok [shape_q single_source x]
                else if String.eqb var "f_GW" then
                  x <- convert hertz f_evol ;; Ok [shape_q single_source (map (map (vmul (lit 2))) x)]
                else Ok []) output_vars ;;
            out <- pack_q (concat evolution) ;;
            Ok (out, match timesteps with S2Q _ => S2Q ts | x => x end)
        end
  | _, _ => Err TypeError
  end.

(** ** Approximate circular frequency evolution *)

(** evol.py L618-659, [evolve_f_orb_circ]. *)
Definition inner_part_q (f m_c t : val) (e : num) : res val :=
  p <- peters_f_q (Pl e) ;;
  vsub (vpow f (-8/3))
       (vmul (vmul (vdiv (vmul (vmul (lit (Rpower 2 (32/3))) (Pl (Fin PI ** (8/3)))) t) (vmul (lit 5) (vpowi cq 5)))
                   (vpow (vmul Gq m_c) (5/3))) p).
Definition evolve_f_orb_circ_q (f_orb_i m_c t_evol : list val) (ecc_i : list num) (merge_f : val) : res (list val) :=
  let f_orb_f := np_repeat merge_f (length f_orb_i) in
  te <- bzip (fun t e => (t, e)) t_evol ecc_i ;;
  mte <- bzip (fun m (q : val * num) => (m, q)) m_c te ;;
  inner <- bzipM (fun f (q : val * (val * num)) => inner_part_q f (fst q) (fst (snd q)) (snd (snd q))) f_orb_i mte ;;
  inspiral <- mapM (fun x => vge x (lit 0)) inner ;;
  if negb (length inner =? length f_orb_i)%nat then Err IndexError
  else
    vals <- mapM (fun x => store merge_f (vpow x (-3/8))) (select inspiral inner) ;;
    Ok (scatter inspiral vals f_orb_f).

(** evol.py L662-709, [determine_stationarity]. *)
Definition determine_stationarity_q (f_orb_i t_evol : list val) (ecc_i : list num) (m_1 m_2 m_c : option (list val))
           (stat_tol : num) : res (list bool) :=
  mc <- match m_c with
        | Some m => Ok m
        | None => match m_1, m_2 with
                  | Some x, Some y => bzipM chirp_mass_q x y
                  | _, _ => Err ValueError
                  end
        end ;;
  f_orb_f <- evolve_f_orb_circ_q f_orb_i mc t_evol ecc_i (Qy (Fin 1000000000) hertz) ;;
  bzipM (fun ff fi => d <- vsub ff fi ;; vle (vdiv d fi) (Pl stat_tol)) f_orb_f f_orb_i.
