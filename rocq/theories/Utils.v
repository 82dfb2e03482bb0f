(** Utils.v -- model of src/legwork/utils.py (element-wise, SI values; see Units.v for the unit-carrying layer). *)
From Coq Require Import Reals ZArith List Bool.
From Verif Require Import Num.
Import ListNotations.
Open Scope num_scope.

(** utils.py L13-35, [chirp_mass]: (m_1 * m_2)**(3/5) / (m_1 + m_2)**(1/5).
    Unit conversion (L32-33) is in Units.v. *)
Definition chirp_mass (m_1 m_2 : num) : num :=
  (m_1 * m_2) ** (3/5) / (m_1 + m_2) ** (1/5).

(** A harmonic number (Python int) as a float. *)
Definition nZ (n : Z) : num := Fin (IZR n).

(** utils.py L38-63, [peters_g].  [jv] is scipy.special.jv at integer orders (oracle). *)
Definition peters_g (jv : Z -> num -> num) (n : Z) (e : num) : num :=
  let x := nZ n * e in
  let bracket_1 := jv (n-2)%Z x - #2 * e * jv (n-1)%Z x + #2 / nZ n * jv n x
                   + #2 * e * jv (n+1)%Z x - jv (n+2)%Z x in
  let bracket_2 := jv (n-2)%Z x - #2 * jv n x + jv (n+2)%Z x in
  let bracket_3 := jv n x in
  nZ (n^4)%Z / #32 * (bracket_1 ^^ 2 + (#1 - e ^^ 2) * bracket_2 ^^ 2
                      + #4 / (#3 * nZ (n^2)%Z) * bracket_3 ^^ 2).

(** utils.py L66-92, [peters_f]. *)
Definition peters_f (e : num) : num :=
  let numerator := #1 + #(73/24) * e ^^ 2 + #(37/96) * e ^^ 4 in
  let denominator := (#1 - e ^^ 2) ** (7/2) in
  numerator / denominator.

(** utils.py L95-123, [get_a_from_f_orb]. *)
Definition get_a_from_f_orb (f_orb m_1 m_2 : num) : num :=
  (Fin Ggrav * (m_1 + m_2) / (#2 * Fin PI * f_orb) ^^ 2) ** (1/3).

(** utils.py L126-154, [get_f_orb_from_a]. *)
Definition get_f_orb_from_a (a m_1 m_2 : num) : num :=
  (Fin Ggrav * (m_1 + m_2) / a ^^ 3) ** (1/2) / (#2 * Fin PI).

(** utils.py L157-179, [beta]. *)
Definition beta (m_1 m_2 : num) : num :=
  #(64/5) * Fin Ggrav ^^ 3 / Fin clight ^^ 5 * m_1 * m_2 * (m_1 + m_2).

(** utils.py L182-204, [c_0]. *)
Definition c_0 (a_i ecc_i : num) : num :=
  a_i * (#1 - ecc_i ^^ 2) * ecc_i ** (-12/19) * (#1 + #(121/304) * ecc_i ^^ 2) ** (-870/2299).

(** utils.py L207-231, [get_a_from_ecc]. *)
Definition get_a_from_ecc (ecc c0 : num) : num :=
  c0 * ecc ** (12/19) / (#1 - ecc ^^ 2) * (#1 + #(121/304) * ecc ^^ 2) ** (870/2299).

(** utils.py L234-265, [fn_dot], for one source and a list of harmonics
    (L256: ValueError if any harmonic is below 1). *)
Definition fn_dot_elem (m_c f_orb e : num) (n : Z) : num :=
  (#48 * nZ n) / (#5 * Fin PI) * (Fin Ggrav * m_c) ** (5/3) / Fin clight ^^ 5
  * (#2 * Fin PI * f_orb) ** (11/3) * peters_f e.
Definition fn_dot (m_c f_orb e : num) (n : list Z) : res (list num) :=
  if existsb (fun k => (k <? 1)%Z) n then Err ValueError
  else Ok (map (fn_dot_elem m_c f_orb e) n).

(** utils.py L315-337, [D_plus_squared]. *)
Definition D_plus_squared (theta phi : num) : num :=
  let term_1 := #158 * ncos theta ^^ 2 in
  let term_2 := #7 * ncos theta ^^ 4 in
  let term_3 := #(-162) * nsin (#2 * phi) ^^ 2 * (#1 + ncos theta ^^ 2) ^^ 2 in
  #(3/2048) * (#487 + term_1 + term_2 + term_3).

(** utils.py L340-363, [D_cross_squared]. *)
Definition D_cross_squared (theta phi : num) : num :=
  let term_1 := #120 * nsin theta ^^ 2 in
  let term_2 := ncos theta ^^ 2 in
  let term_3 := #162 * nsin (#2 * phi) ^^ 2 * ncos theta ^^ 2 in
  #(3/512) * (term_1 + term_2 + term_3).

(** utils.py L366-389, [D_plus_D_cross]. *)
Definition D_plus_D_cross (theta phi : num) : num :=
  let term_1 := ncos theta * nsin (#2 * phi) in
  let term_2 := #2 * ncos phi ^^ 2 - #1 in
  let term_3 := #1 + ncos theta ^^ 2 in
  #(243/512) * term_1 * term_2 * term_3.

(** utils.py L392-418, [F_plus_squared]. *)
Definition F_plus_squared (theta phi psi : num) : num :=
  let term_1 := ncos (#2 * psi) ^^ 2 * D_plus_squared theta phi in
  let term_2 := - nsin (#4 * psi) * D_plus_D_cross theta phi in
  let term_3 := nsin (#2 * psi) ^^ 2 * D_cross_squared theta phi in
  #(1/4) * (term_1 + term_2 + term_3).

(** utils.py L421-447, [F_cross_squared]. *)
Definition F_cross_squared (theta phi psi : num) : num :=
  let term_1 := ncos (#2 * psi) ^^ 2 * D_cross_squared theta phi in
  let term_2 := nsin (#4 * psi) * D_plus_D_cross theta phi in
  let term_3 := nsin (#2 * psi) ^^ 2 * D_plus_squared theta phi in
  #(1/4) * (term_1 + term_2 + term_3).

(** ** [ensure_array], utils.py L268-312

    Python values seen by [ensure_array]: None; a Quantity wrapping an ndarray or a scalar; an ndarray; a list;
    anything else (a "scalar").  [A] is the element type, [U] the type of units.  An ndarray of any shape is
    represented by its (flattened) contents. *)
Inductive pyval (A U : Type) : Type :=
| PNone
| PQArr (l : list A) (u : U)
| PQScalar (x : A) (u : U)
| PArr (l : list A)
| PList (l : list A)
| POther (x : A).
Arguments PNone {A U}.
Arguments PQArr {A U} l u.
Arguments PQScalar {A U} x u.
Arguments PArr {A U} l.
Arguments PList {A U} l.
Arguments POther {A U} x.

(** The attributes the code tests: [args[i] is not None], [isinstance(_, Quantity)],
    [isinstance(_.value, np.ndarray)] / [isinstance(_, np.ndarray)], [isinstance(_, list)]. *)
Definition py_exists {A U} (v : pyval A U) : bool := match v with PNone => false | _ => true end.
Definition py_has_units {A U} (v : pyval A U) : bool :=
  match v with PQArr _ _ | PQScalar _ _ => true | _ => false end.
Definition py_is_array {A U} (v : pyval A U) : bool :=
  match v with PQArr _ _ | PArr _ => true | _ => false end.
Definition py_is_list {A U} (v : pyval A U) : bool := match v with PList _ => true | _ => false end.

(** np.asarray([x]) * unit, np.asarray([x]) and np.asarray(l). *)
Definition np_wrap {A U} (v : pyval A U) : pyval A U :=
  match v with PQScalar x u => PQArr [x] u | POther x => PArr [x] | _ => v end.
Definition np_asarray {A U} (v : pyval A U) : pyval A U :=
  match v with PList l => PArr l | _ => v end.

(** One iteration of the loop at L292-311. *)
Definition ensure_array_one {A U} (v : pyval A U) : pyval A U * bool :=
  if py_exists v && py_has_units v then
    if negb (py_is_array v) then (np_wrap v, true) else (v, false)
  else if py_exists v && negb (py_has_units v) then
    if negb (py_is_array v) then
      if negb (py_is_list v) then (np_wrap v, true) else (np_asarray v, false)
    else (v, false)
  else (v, false).

(** The loop: results in order, and the sticky flag [any_not_arrays]. *)
Fixpoint ensure_array {A U} (args : list (pyval A U)) : list (pyval A U) * bool :=
  match args with
  | [] => ([], false)
  | v :: rest =>
      let '(w, flag) := ensure_array_one v in
      let '(ws, flags) := ensure_array rest in
      (w :: ws, flag || flags)
  end.
