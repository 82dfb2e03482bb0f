(** Evol.v -- model of src/legwork/evol.py (SI values). *)
From Coq Require Import String Reals ZArith List Bool.
From Verif Require Import Num Np Utils.
Import ListNotations.
Open Scope num_scope.
Open Scope res_scope.

(** ** External numerical routines (parameters, never axioms) *)
(** scipy.integrate.quad(f, a, b)[0] *)
Definition quad_t := (num -> num) -> num -> num -> num.
(** scipy.integrate.odeint(rhs, y0, times).flatten(); the rhs of [de_dt] does not use its time argument. *)
Definition odeint_t := (num -> num) -> num -> list num -> list num.

(** evol.py L19-48, [de_dt] (the [times] argument is unused by the code and dropped). *)
Definition de_dt (beta c_0 e : num) : num :=
  #(-19/12) * beta / c_0 ^^ 4 * (e ** (-29/19) * (#1 - e ^^ 2) ** (3/2))
  / (#1 + #(121/304) * e ^^ 2) ** (1181/2299).

(** evol.py L51-66, [integrate_de_dt]. *)
Definition integrate_de_dt (odeint : odeint_t) (args : num * list num * num * num) : list num :=
  let '(ecc_i, timesteps, beta, c_0) := args in odeint (de_dt beta c_0) ecc_i timesteps.

(** evol.py L69-116, [check_mass_freq_input], for scalars or arrays ([A]); [beta_of] and [a_of] are utils.beta and
    utils.get_a_from_f_orb at that type. *)
Definition check_mass_freq_input {A : Type} (beta_of : A -> A -> res A) (a_of : A -> A -> A -> res A)
           (beta m_1 m_2 a_i f_orb_i : option A) : res (A * A) :=
  b <- match beta, m_1, m_2 with
       | None, None, _ | None, _, None => Err ValueError
       | None, Some x, Some y => beta_of x y
       | Some b, _, _ => Ok b
       end ;;
  a <- match a_i, f_orb_i with
       | None, None => Err ValueError
       | None, Some f =>
           match m_1, m_2 with
           | None, _ | _, None => Err ValueError
           | Some x, Some y => a_of f x y
           end
       | Some a, _ => Ok a
       end ;;
  Ok (b, a).

(** utils.beta and utils.get_a_from_f_orb on arrays. *)
Definition beta_arr (m_1 m_2 : list num) : res (list num) := bzip beta m_1 m_2.
Definition get_a_arr (f m_1 m_2 : list num) : res (list num) :=
  mm <- bzip (fun x y => (x, y)) m_1 m_2 ;;
  bzip (fun (q : num * num) x => get_a_from_f_orb x (fst q) (snd q)) mm f.
Definition check_arr := check_mass_freq_input beta_arr get_a_arr.
Definition check_sc := check_mass_freq_input (fun x y => Ok (beta x y)) (fun f x y => Ok (get_a_from_f_orb f x y)).

(** evol.py L441-475, [get_t_merge_circ]: element, scalar call and array call. *)
Definition t_merge_circ_elem (beta a_i : num) : num := a_i ^^ 4 / (#4 * beta).
Definition get_t_merge_circ_sc (beta m_1 m_2 a_i f_orb_i : option num) : res num :=
  ba <- check_sc beta m_1 m_2 a_i f_orb_i ;;
  Ok (t_merge_circ_elem (fst ba) (snd ba)).
Definition get_t_merge_circ (beta m_1 m_2 a_i f_orb_i : option (list num)) : res (list num) :=
  ba <- check_arr beta m_1 m_2 a_i f_orb_i ;;
  bzip t_merge_circ_elem (fst ba) (snd ba).

(** evol.py L478-504, [t_merge_mandel_fit]. *)
Definition mandel_coefficients : list R :=
  [ -120317749/100000; 567211219/100000; -113935479/10000; 127306422/10000; -866281737/100000;
    369447796/100000; -979864734/1000000; 154873214/1000000; -132267683/10000000;
    532494018/1000000000; 993382093/1000000000 ]%R.
Definition mandel_correction (e : num) : num :=
  nsum (map (fun i => Fin (nth i mandel_coefficients 0%R)
                      * e ^^ (Z.of_nat (length mandel_coefficients) - (Z.of_nat i + 1))%Z)
            (seq 0 (length mandel_coefficients))).
Definition t_merge_mandel_fit (e : num) : num :=
  (#1 + (#(27/100) * e ^^ 10) + (#(33/100) * e ^^ 20) + (#(20/100) * e ^^ 1000))
  * (#1 - e ^^ 2) ** (7/2) / mandel_correction e.

(** evol.py L558-561, the integrand of Peters Eq. 5.14. *)
Definition peters_5_14 (e : num) : num :=
  e ** (29/19) * (#1 + #(121/304) * e ^^ 2) ** (1181/2299) / (#1 - e ^^ 2) ** (3/2).

(** L582/L606, L585-588/L608-610, L592-594/L612, L596-598/L614: the four formulas, on one element. *)
Definition t_small (c0 beta e : num) : num := c0 ^^ 4 / (#4 * beta) * e ** (48/19).
Definition t_large (c0 beta e : num) : num :=
  c0 ^^ 4 / (#4 * beta) * e ** (48/19) * #(768/425) * (#1 - e ^^ 2) ** (-1/2)
  * (#1 + #(121/304) * e ^^ 2) ** (3480/2299).
Definition t_exact (quad : quad_t) (c0 beta e : num) : num :=
  (#(12/19) * c0 ^^ 4 / beta) * quad peters_5_14 (Fin 0) e.
Definition t_fit (beta a e : num) : num := t_merge_circ_elem beta a * t_merge_mandel_fit e.

(** evol.py L507-615, [get_t_merge_ecc], array of eccentricities (L563-598), after check_mass_freq_input (L552).
    Masks of another length than the indexed array raise IndexError. *)
Definition get_t_merge_ecc_core (quad : quad_t) (ecc a_i beta : list num) (small large : num) (exact : bool)
  : res (list num) :=
  if forallb (fun e => neqb e (Fin 0)) ecc then bzip t_merge_circ_elem beta a_i
  else if negb ((length a_i =? length ecc)%nat && (length beta =? length ecc)%nat) then Err IndexError
  else
    let circular := map (fun e => neqb e (Fin 0)) ecc in
    let small_e := map (fun e => ngt e (Fin 0) && nlt e small) ecc in
    let large_e := map (fun e => ngt e large) ecc in
    let other_e := map (fun e => nge e small && nle e large) ecc in
    let not_circ := map negb circular in
    let c0 := scatter not_circ (map2 c_0 (select not_circ a_i) (select not_circ ecc)) (map (fun _ => Fin 0) a_i) in
    let t0 := map (fun _ => Fin 0) ecc in
    let t1 := scatter circular (map2 t_merge_circ_elem (select circular beta) (select circular a_i)) t0 in
    let t2 := scatter small_e (map2 (fun cb e => t_small (fst cb) (snd cb) e)
                                    (map2 pair (select small_e c0) (select small_e beta)) (select small_e ecc)) t1 in
    let t3 := scatter large_e (map2 (fun cb e => t_large (fst cb) (snd cb) e)
                                    (map2 pair (select large_e c0) (select large_e beta)) (select large_e ecc)) t2 in
    let t4 := if exact
              then scatter other_e (map2 (fun cb e => t_exact quad (fst cb) (snd cb) e)
                                    (map2 pair (select other_e c0) (select other_e beta)) (select other_e ecc)) t3
              else scatter other_e (map2 (fun ab e => t_fit (snd ab) (fst ab) e)
                                    (map2 pair (select other_e a_i) (select other_e beta)) (select other_e ecc)) t3 in
    Ok t4.
Definition get_t_merge_ecc (quad : quad_t) (ecc : list num) (a_i f_orb_i beta m_1 m_2 : option (list num))
           (small large : num) (exact : bool) : res (list num) :=
  ba <- check_arr beta m_1 m_2 a_i f_orb_i ;;
  get_t_merge_ecc_core quad ecc (snd ba) (fst ba) small large exact.

(** The scalar case, L555-556 and L600-614. *)
Definition get_t_merge_ecc_sc_core (quad : quad_t) (e a_i beta : num) (small large : num) (exact : bool) : num :=
  if neqb e (Fin 0) then t_merge_circ_elem beta a_i
  else
    let c0 := c_0 a_i e in
    if nlt e small then t_small c0 beta e
    else if ngt e large then t_large c0 beta e
    else if exact then t_exact quad c0 beta e
    else t_fit beta a_i e.
Definition get_t_merge_ecc_sc (quad : quad_t) (e : num) (a_i f_orb_i beta m_1 m_2 : option num)
           (small large : num) (exact : bool) : res num :=
  ba <- check_sc beta m_1 m_2 a_i f_orb_i ;;
  Ok (get_t_merge_ecc_sc_core quad e (snd ba) (fst ba) small large exact).

(** A Python list of eccentricities: [ecc_i == 0.0] is False, the list enters the array branch (L564) and
    [ecc_i > 0.0] (L567) raises TypeError. *)
Definition get_t_merge_ecc_list (ecc : list num) (a_i f_orb_i beta m_1 m_2 : option (list num)) : res (list num) :=
  ba <- check_arr beta m_1 m_2 a_i f_orb_i ;; Err TypeError.

(** Default tolerances, L508. *)
Definition small_e_tol_default : num := #(15/100).
Definition large_e_tol_default : num := #(1 - 1/10000).

(** ** Time steps *)
Inductive tevol := TNone | TScalar (t : num) | TArr (l : list num).
Inductive tsteps := SNone | S1 (l : list num) | S2 (l : list (list num)).

(** evol.py L119-167, [create_timesteps_array]; [a_i], [beta] and [ecc_i] are arrays (in evol_circ and evol_ecc they
    always are, after ensure_array). *)
Definition create_timesteps_array (quad : quad_t) (a_i beta ecc_i : list num) (t_evol : tevol) (n_step : nat)
           (timesteps : tsteps) : res (list (list num)) :=
  match timesteps with
  | SNone =>
      t <- match t_evol with
           | TNone => get_t_merge_ecc quad ecc_i (Some a_i) None (Some beta) None None
                                      small_e_tol_default large_e_tol_default true
           | TScalar t => Ok (np_repeat t (length a_i))
           | TArr l => Ok l
           end ;;
      Ok (map (fun stop => linspace0 stop n_step) t)
  | S1 l => Ok (np_repeat l (length a_i))
  | S2 l => Ok l
  end.

(** ** Output *)
Inductive evo := E1 (l : list num) | E2 (l : list (list num)).
Inductive outputs := Single (e : evo) | Many (l : list evo).

(** [x.flatten() if single_source else x] *)
Definition shape (single : bool) (x : list (list num)) : evo := if single then E1 (concat x) else E2 x.

(** L264/L438: [evolution if len(evolution) > 1 else evolution[0]]. *)
Definition pack (l : list evo) : res outputs :=
  match l with [] => Err IndexError | [x] => Ok (Single x) | _ => Ok (Many l) end.

(** np.isin(output_vars, names).any() *)
Definition any_in (names vars : list string) : bool :=
  existsb (fun v => existsb (String.eqb v) names) vars.

(** Dimensionful marker for merged binaries, L243/L414 (1e-30 of the unit, AU), and the frequency, L247/L418. *)
Definition AU : R := 149597870700.
Definition tiny : R := AU / 1000000000000000000000000000000.
Definition f_merged : num := #100.
(** L243-247 / L414-418 for one entry. *)
Definition freq_of_a (m_1 m_2 a : num) : num :=
  let a_not0 := if neqb a (Fin 0) then Fin tiny else a in
  let f := get_f_orb_from_a a_not0 m_1 m_2 in
  if neqb a_not0 (Fin tiny) then f_merged else f.
Definition freq_rows (m_1 m_2 : list num) (a : list (list num)) : res (list (list num)) :=
  mm <- bzip (fun x y => (x, y)) m_1 m_2 ;;
  bzip2 (fun (q : num * num) x => freq_of_a (fst q) (snd q) x) (newaxis mm) a.

(** L236-238 for one entry. *)
Definition circ_a_elem (a_i beta t : num) : num :=
  let difference := a_i ^^ 4 - #4 * beta * t in
  let difference := if nle difference (Fin 0) then Fin 0 else difference in
  difference ** (1/4).

(** Values after ensure_array. *)
Definition arr_of (v : pyval num unit) : option (list num) :=
  match v with PQArr l _ | PArr l => Some l | _ => None end.

(** evol.py L170-264, [evol_circ].  [output_vars] is the list of names (a bare string is a one-element list, L226). *)
Definition evol_circ (quad : quad_t) (t_evol : tevol) (n_step : nat) (timesteps : tsteps)
           (beta m_1 m_2 a_i f_orb_i : pyval num unit) (output_vars : list string) : res outputs :=
  match ensure_array [m_1; m_2; beta; a_i; f_orb_i] with
  | ([m_1; m_2; beta; a_i; f_orb_i], single_source) =>
      let m_1 := arr_of m_1 in let m_2 := arr_of m_2 in
      ba <- check_arr (arr_of beta) m_1 m_2 (arr_of a_i) (arr_of f_orb_i) ;;
      let beta := fst ba in let a_i := snd ba in
      let want_f := any_in ["f_orb"%string; "f_GW"%string] output_vars in
      if want_f && negb (match m_1, m_2 with Some _, Some _ => true | _, _ => false end) then Err ValueError
      else
        ts <- create_timesteps_array quad a_i beta (map (fun _ => Fin 0) a_i) t_evol n_step timesteps ;;
        bt <- bzip2 (fun b t => (b, t)) (newaxis beta) ts ;;
        a_evol <- bzip2 (fun a (q : num * num) => circ_a_elem a (fst q) (snd q)) (newaxis a_i) bt ;;
        f_evol <- (if want_f then match m_1, m_2 with
                                  | Some x, Some y => freq_rows x y a_evol
                                  | _, _ => Err ValueError
                                  end
                   else Ok []) ;;
        pack (flat_map (fun var =>
                if String.eqb var "timesteps" then [shape single_source ts]
                else if String.eqb var "a" then [shape single_source a_evol]
                else if String.eqb var "f_orb" then [shape single_source f_evol]
                else if String.eqb var "f_GW" then [shape single_source (map (map (nmul (#2))) f_evol)]
                else []) output_vars)
  | _ => Err TypeError
  end.

(** L373-389: the in-place correction of the timesteps of one source. *)
Definition too_close_row (t_merge t_before : num) (row : list num) : list bool :=
  match row with
  | [] => []
  | _ :: rest => false :: map (fun t => nge t (t_merge - t_before)) rest
  end.
Definition clamp_row (mask : list bool) (row : list num) : list num :=
  let marked := map2 (fun (b : bool) t => if b then Fin (- Gyr)%R else t) mask row in
  let previous := row_max marked in
  map2 (fun (b : bool) t => if b then previous else t) mask marked.
(** L361-389 on all sources; [check[:, 0]] (L377) raises IndexError when there are no columns,
    and so does a mask with another number of rows (one row of timesteps for several merger times) in L387. *)
Definition avoid_merger_clamp (t_merge : list num) (t_before : num) (ts : list (list num)) : res (list (list num)) :=
  masks <- bzip (fun row tm => too_close_row tm t_before row) ts t_merge ;;
  if existsb (fun row : list num => match row with [] => true | _ => false end) ts then Err IndexError
  else if existsb (existsb (fun b => b)) masks then
    if (length masks =? length ts)%nat then Ok (map2 clamp_row masks ts) else Err IndexError
  else Ok ts.

(** np.nan_to_num(x, nan=0.0) (L405): infinities become the largest double. *)
Definition dbl_max : R := (2 - / 2 ^ 52) * 2 ^ 1023.
Definition nan_to_num (x : num) : num :=
  match x with NaN => Fin 0 | PInf => Fin dbl_max | NInf => Fin (- dbl_max)%R | _ => x end.

(** L397-399: MultiPool.map.  A schedule is the sequence of task indices in the order in which workers complete
    them; every completed task writes its own slot of the result list. *)
Fixpoint set_nth {A} (i : nat) (x : A) (l : list A) : list A :=
  match l, i with
  | [], _ => []
  | _ :: t, O => x :: t
  | y :: t, S j => y :: set_nth j x t
  end.
Definition pool_map {A B} (f : A -> B) (tasks : list A) (schedule : list nat) : list (option B) :=
  fold_left (fun slots i => match nth_error tasks i with
                            | Some a => set_nth i (Some (f a)) slots
                            | None => slots
                            end) schedule (map (fun _ => None) tasks).
(** The pool returns once every slot is filled. *)
Fixpoint all_done {B} (slots : list (option B)) : option (list B) :=
  match slots with
  | [] => Some []
  | Some b :: t => match all_done t with Some l => Some (b :: l) | None => None end
  | None :: _ => None
  end.

(** Python's zip of the four per-source lists. *)
Fixpoint zip4 (e : list num) (ts : list (list num)) (b c : list num) : list (num * list num * num * num) :=
  match e, ts, b, c with
  | e1 :: es, t1 :: tss, b1 :: bs, c1 :: cs => (e1, t1, b1, c1) :: zip4 es tss bs cs
  | _, _, _, _ => []
  end.

(** evol.py L267-438, [evol_ecc].  The second component of the result is the contents, after the call, of the
    caller's 2-D [timesteps] array (L357 returns that very object and L387-389 write into it).
    [sched] is the completion order of the pool (only used if n_proc > 1); an incomplete schedule (pool never
    finishes) is reported as OSErr.  Warnings (L368-380) are not modelled. *)
Definition evol_ecc (quad : quad_t) (odeint : odeint_t) (sched : list nat)
           (ecc_i : pyval num unit) (t_evol : tevol) (n_step : nat) (timesteps : tsteps)
           (beta m_1 m_2 a_i f_orb_i : pyval num unit) (output_vars : list string) (n_proc : nat)
           (avoid_merger exact_t_merge : bool) (t_before : num) (t_merge : option (list num))
  : res (outputs * tsteps) :=
  match ensure_array [m_1; m_2; beta; a_i; f_orb_i; ecc_i] with
  | ([m_1; m_2; beta; a_i; f_orb_i; ecc_i], single_source) =>
      let m_1 := arr_of m_1 in let m_2 := arr_of m_2 in
      ba <- check_arr (arr_of beta) m_1 m_2 (arr_of a_i) (arr_of f_orb_i) ;;
      let beta := fst ba in let a_i := snd ba in
      let want_f := any_in ["f_orb"%string; "f_GW"%string] output_vars in
      if want_f && negb (match m_1, m_2 with Some _, Some _ => true | _, _ => false end) then Err ValueError
      else
        match arr_of ecc_i with
        | None => Err TypeError
        | Some ecc =>
            c0 <- bzip c_0 a_i ecc ;;
            ts0 <- create_timesteps_array quad a_i beta ecc t_evol n_step timesteps ;;
            ts <- (if avoid_merger then
                     tm <- match t_merge with
                           | None => get_t_merge_ecc quad ecc (Some a_i) None (Some beta) None None
                                       small_e_tol_default large_e_tol_default exact_t_merge
                           | Some tm => Ok tm
                           end ;;
                     avoid_merger_clamp tm t_before ts0
                   else Ok ts0) ;;
            let tasks := zip4 ecc ts beta c0 in
            ecc_evol <- (if (1 <? n_proc)%nat then
                           match all_done (pool_map (integrate_de_dt odeint) tasks sched) with
                           | Some l => Ok l
                           | None => Err OSErr
                           end
                         else if negb ((length ecc <=? length ts)%nat && (length ecc <=? length beta)%nat
                                       && (length ecc <=? length c0)%nat) then Err IndexError
                         else Ok (map (fun q => let '(e, t, b, c) := q in odeint (de_dt b c) e t) tasks)) ;;
            let ecc_evol := map (map nan_to_num) ecc_evol in
            let want_a := any_in ["a"%string; "f_orb"%string; "f_GW"%string] output_vars in
            a_evol <- (if want_a then bzip2 get_a_from_ecc ecc_evol (newaxis c0) else Ok []) ;;
            f_evol <- (if want_f then match m_1, m_2 with
                                      | Some x, Some y => freq_rows x y a_evol
                                      | _, _ => Err ValueError
                                      end
                       else Ok []) ;;
            out <- pack (flat_map (fun var =>
                     if String.eqb var "timesteps" then [shape single_source ts]
                     else if String.eqb var "ecc" then [shape single_source ecc_evol]
                     else if String.eqb var "a" then [shape single_source a_evol]
                     else if String.eqb var "f_orb" then [shape single_source f_evol]
                     else if String.eqb var "f_GW" then [shape single_source (map (map (nmul (#2))) f_evol)]
                     else []) output_vars) ;;
            Ok (out, match timesteps with S2 _ => S2 ts | x => x end)
        end
  | _ => Err TypeError
  end.

(** ** Approximate circular frequency evolution *)
(** evol.py L618-659, [evolve_f_orb_circ]: inner part (L651-652) for one source. *)
Definition inner_part (f m_c t e : num) : num :=
  f ** (-8/3) - Fin (Rpower 2 (32/3)) * Fin PI ** (8/3) * t / (#5 * Fin clight ^^ 5)
                * (Fin Ggrav * m_c) ** (5/3) * peters_f e.
Definition evolve_f_orb_circ (f_orb_i m_c t_evol ecc_i : list num) (merge_f : num) : res (list num) :=
  let f_orb_f := np_repeat merge_f (length f_orb_i) in
  te <- bzip (fun t e => (t, e)) t_evol ecc_i ;;
  mte <- bzip (fun m (q : num * num) => (m, q)) m_c te ;;
  inner <- bzip (fun f (q : num * (num * num)) => inner_part f (fst q) (fst (snd q)) (snd (snd q))) f_orb_i mte ;;
  if negb (length inner =? length f_orb_i)%nat then Err IndexError
  else
    let inspiral := map (fun x => nge x (Fin 0)) inner in
    Ok (scatter inspiral (map (fun x => x ** (-3/8)) (select inspiral inner)) f_orb_f).

(** evol.py L662-709, [determine_stationarity] (merge_f is the default 1e9 Hz). *)
Definition merge_f_default : num := #1000000000.
Definition determine_stationarity (f_orb_i t_evol ecc_i : list num) (m_1 m_2 m_c : option (list num))
           (stat_tol : num) : res (list bool) :=
  mc <- match m_c with
        | Some m => Ok m
        | None => match m_1, m_2 with
                  | Some x, Some y => bzip chirp_mass x y
                  | _, _ => Err ValueError
                  end
        end ;;
  f_orb_f <- evolve_f_orb_circ f_orb_i mc t_evol ecc_i merge_f_default ;;
  bzip (fun ff fi => nle ((ff - fi) / fi) stat_tol) f_orb_f f_orb_i.
