(** Float.v -- the closed formulae of utils.py and strain.py as expressions, with their value in double precision.

    Num.v idealises doubles as extended reals; here the same formulae are evaluated operation by operation with rounding.  Arrays are
    left out (the operations act entry by entry), and so are conversions of units (Units.v): the numbers are SI values. *)
From Coq Require Import Reals ZArith List Bool.
From Verif Require Import Num Utils.
Import ListNotations.
Open Scope R_scope.

(** astropy's c.G and c.c, and np.pi. *)
Inductive constant := CG | CC | CPi.
Definition value (c : constant) : R := match c with CG => Ggrav | CC => clight | CPi => PI end.
(** Python expressions: arguments, integers, constants, decimals p/q such as 0.6, operations; [Pow a p q] is [a**(p/q)] ([a**p] if
    q = 1), [Cos a] is [np.cos(a)]. *)
Inductive ex :=
| Inp (i : nat) | Int (z : Z) | Con (c : constant) | Dec (p q : Z)
| Add (a b : ex) | Sub (a b : ex) | Mul (a b : ex) | Div (a b : ex) | Pow (a : ex) (p q : Z) | Cos (a : ex).
Declare Scope ex_scope.
Delimit Scope ex_scope with ex.
Bind Scope ex_scope with ex.
Infix "+" := Add : ex_scope.
Infix "-" := Sub : ex_scope.
Infix "*" := Mul : ex_scope.
Infix "/" := Div : ex_scope.

(** The exact value. *)
Fixpoint exact (v : nat -> R) (e : ex) : R :=
  match e with
  | Inp i => v i | Int z => IZR z | Con c => value c | Dec p q => IZR p / IZR q
  | Add a b => exact v a + exact v b | Sub a b => exact v a - exact v b
  | Mul a b => exact v a * exact v b | Div a b => exact v a / exact v b
  | Pow a p q => Rpower (exact v a) (IZR p / IZR q) | Cos a => cos (exact v a)
  end.
(** The value in the model of Num.v. *)
Fixpoint modelled (v : nat -> num) (e : ex) : num :=
  match e with
  | Inp i => v i | Int z => Fin (IZR z) | Con c => Fin (value c) | Dec p q => Fin (IZR p / IZR q)
  | Add a b => nadd (modelled v a) (modelled v b) | Sub a b => nsub (modelled v a) (modelled v b)
  | Mul a b => nmul (modelled v a) (modelled v b) | Div a b => ndiv (modelled v a) (modelled v b)
  | Pow a p q => if (q =? 1)%Z then npowi (modelled v a) p else npowr (modelled v a) (IZR p / IZR q)
  | Cos a => ncos (modelled v a)
  end.
(** Double precision: rounding, and the library's pow and cos. *)
Record doubles := mkDoubles { rnd : R -> R; pow_ : R -> R -> R; cos_ : R -> R }.
(** The value that is computed: every operation rounds its result; small integers are doubles; constants and exponents such as 3/5 are
    rounded too. *)
Fixpoint computed (d : doubles) (v : nat -> R) (e : ex) : R :=
  match e with
  | Inp i => v i | Int z => IZR z | Con c => rnd d (value c) | Dec p q => rnd d (IZR p / IZR q)
  | Add a b => rnd d (computed d v a + computed d v b) | Sub a b => rnd d (computed d v a - computed d v b)
  | Mul a b => rnd d (computed d v a * computed d v b) | Div a b => rnd d (computed d v a / computed d v b)
  | Pow a p q => pow_ d (computed d v a) (rnd d (IZR p / IZR q)) | Cos a => cos_ d (computed d v a)
  end.

(** The arguments of a call. *)
Definition args (l : list R) (i : nat) : R := nth i l 1.

Local Open Scope ex_scope.
(** utils.py L29, [chirp_mass m_1 m_2]. *)
Definition chirp_mass_ex : ex := let m_1 := Inp 0 in let m_2 := Inp 1 in Pow (m_1 * m_2) 3 5 / Pow (m_1 + m_2) 1 5.
(** utils.py L87-90, [peters_f e]. *)
Definition peters_f_of (e : ex) : ex :=
  (Int 1 + (Int 73 / Int 24) * Pow e 2 1 + (Int 37 / Int 96) * Pow e 4 1) / Pow (Int 1 - Pow e 2 1) 7 2.
Definition peters_f_ex : ex := peters_f_of (Inp 0).
(** utils.py L117, [get_a_from_f_orb f_orb m_1 m_2]. *)
Definition get_a_ex : ex :=
  let f_orb := Inp 0 in let m_1 := Inp 1 in let m_2 := Inp 2 in
  Pow (Con CG * (m_1 + m_2) / Pow (Int 2 * Con CPi * f_orb) 2 1) 1 3.
(** utils.py L148, [get_f_orb_from_a a m_1 m_2]. *)
Definition get_f_ex : ex :=
  let a := Inp 0 in let m_1 := Inp 1 in let m_2 := Inp 2 in
  Pow (Con CG * (m_1 + m_2) / Pow a 3 1) 1 2 / (Int 2 * Con CPi).
(** utils.py L173, [beta m_1 m_2]. *)
Definition beta_ex : ex :=
  let m_1 := Inp 0 in let m_2 := Inp 1 in Int 64 / Int 5 * Pow (Con CG) 3 1 / Pow (Con CC) 5 1 * m_1 * m_2 * (m_1 + m_2).
(** utils.py L198, [c_0 a_i ecc_i]. *)
Definition c_0_ex : ex :=
  let a_i := Inp 0 in let ecc_i := Inp 1 in
  a_i * (Int 1 - Pow ecc_i 2 1) * Pow ecc_i (-12) 19 * Pow (Int 1 + (Int 121 / Int 304) * Pow ecc_i 2 1) (-870) 2299.
(** utils.py L225, [get_a_from_ecc ecc c_0]. *)
Definition get_a_from_ecc_ex : ex :=
  let ecc := Inp 0 in let c_0 := Inp 1 in
  c_0 * Pow ecc 12 19 / (Int 1 - Pow ecc 2 1) * Pow (Int 1 + (Int 121 / Int 304) * Pow ecc 2 1) 870 2299.
(** utils.py L259, [fn_dot m_c f_orb e n] for one harmonic. *)
Definition fn_dot_ex (n : Z) : ex :=
  let m_c := Inp 0 in let f_orb := Inp 1 in let e := Inp 2 in
  (Int 48 * Int n) / (Int 5 * Con CPi) * Pow (Con CG * m_c) 5 3 / Pow (Con CC) 5 1 * Pow (Int 2 * Con CPi * f_orb) 11 3 * peters_f_of e.
(** strain.py L121-122, L130, L139: [h_0_n], with the power g(n, e) given. *)
Definition h_0_ex (n : Z) : ex :=
  let m_c := Inp 0 in let f_orb := Inp 1 in let dist := Inp 2 in let g := Inp 3 in
  (Pow (Pow (Int 2) 28 3 / Int 5) 1 2 * Pow (Con CG) 5 3 / Pow (Con CC) 4 1 * Pow m_c 5 3 * Pow (Con CPi * f_orb) 2 3 / dist) * (Pow g 1 2 / Int n).
(** strain.py L213-214, L222, L231: [h_c_n], with the power g(n, e) given. *)
Definition h_c_ex (n : Z) : ex :=
  let m_c := Inp 0 in let f_orb := Inp 1 in let dist := Inp 2 in let g := Inp 3 in let e := Inp 4 in
  (Pow (Pow (Int 2) 5 3 / (Int 3 * Pow (Con CPi) 4 3)) 1 2 * Pow (Con CG) 5 6 / Pow (Con CC) 3 2 * Pow m_c 5 6 / dist * Pow f_orb (-1) 6
   / Pow (peters_f_of e) 1 2) * Pow (g / Int n) 1 2.
(** utils.py L57-61, [peters_g n e], with the values of jv(n-2), ..., jv(n+2) given. *)
Definition peters_g_ex (n : Z) : ex :=
  let e := Inp 0 in let j0 := Inp 1 in let j1 := Inp 2 in let j2 := Inp 3 in let j3 := Inp 4 in let j4 := Inp 5 in
  let bracket_1 := j0 - Int 2 * e * j1 + Int 2 / Int n * j2 + Int 2 * e * j3 - j4 in
  let bracket_2 := j0 - Int 2 * j2 + j4 in
  let bracket_3 := j2 in
  Int (n ^ 4) / Int 32 * (Pow bracket_1 2 1 + (Int 1 - Pow e 2 1) * Pow bracket_2 2 1 + Int 4 / Int (3 * n ^ 2) * Pow bracket_3 2 1).
(** psd.py L71, L116-121, L124, L140: LISA's noise at [f] for arm length [L] and response [R], and the approximate response. *)
Definition fstar_ex (L : ex) : ex := Con CC / (Int 2 * Con CPi * L).
Definition approximate_R_ex : ex := let f := Inp 0 in let L := Inp 1 in (Int 3 / Int 10) / (Int 1 + Dec 6 10 * Pow (f / fstar_ex L) 2 1).
Definition lisa_oms_ex (f : ex) : ex := Pow (Dec 15 (10 ^ 12)) 2 1 * (Int 1 + Pow (Dec 2 (10 ^ 3) / f) 4 1).
Definition lisa_acc_ex (f : ex) : ex := Pow (Dec 3 (10 ^ 15)) 2 1 * (Int 1 + Pow (Dec 4 (10 ^ 4) / f) 2 1) * (Int 1 + Pow (f / Dec 8 (10 ^ 3)) 4 1).
Definition lisa_ex : ex :=
  let f := Inp 0 in let L := Inp 1 in let R := Inp 2 in
  Int 1 / Pow L 2 1 * (lisa_oms_ex f + Int 2 * (Int 1 + Pow (Cos (f / fstar_ex L)) 2 1) * lisa_acc_ex f / Pow (Int 2 * Con CPi * f) 4 1) / R.
(** psd.py L181-185: TianQin's noise. *)
Definition tianqin_ex : ex :=
  let f := Inp 0 in let L := Inp 1 in
  Int 10 / (Int 3 * Pow L 2 1) * (Int 4 * Dec 1 (10 ^ 30) / Pow (Int 2 * Con CPi * f) 4 1 * (Int 1 + Dec 1 (10 ^ 4) / f) + Dec 1 (10 ^ 24))
  * (Int 1 + Dec 6 10 * Pow (f / fstar_ex L) 2 1).
(** psd.py L239, L249-258, L268: DECIGO's noise. *)
Definition decigo_ex : ex :=
  let f := Inp 0 in let fp := Dec 736 100 in
  Dec 653 (10 ^ 50) * (Int 1 + Pow (f / fp) 2 1) + Dec 48 (10 ^ 52) * Pow f (-4) 1 * Pow (Int 1 + Pow (f / fp) 2 1) (-1) 1
  + Dec 533 (10 ^ 54) * Pow f (-4) 1.
(** snr.py L61-68: [snr_circ_stationary], with the strain and the noise given. *)
Definition snr_circ_ex : ex := let h := Inp 0 in let t_obs := Inp 1 in let noise := Inp 2 in Pow (Pow h 2 1 * t_obs / noise) 1 2.
(** evol.py L473, [get_t_merge_circ]. *)
Definition t_merge_ex : ex := let beta := Inp 0 in let a_i := Inp 1 in Pow a_i 4 1 / (Int 4 * beta).
(** The last timestep of an evolution without evolution time, evol.py L155-160: the merger time, converted to Gyr in [get_t_merge_circ]
    and back to seconds by np.linspace. *)
Definition gyr_s : Z := 31557600000000000.
Definition last_time_ex : ex := t_merge_ex * Dec 1 gyr_s * Int gyr_s.
(** evol.py L236-238: the separation [evol_circ] computes. *)
Definition difference_ex : ex := let beta := Inp 0 in let a_i := Inp 1 in let t := Inp 2 in Pow a_i 4 1 - Int 4 * beta * t.
Definition circ_a_computed (d : doubles) (beta a_i t : R) : R :=
  let difference := computed d (args [beta; a_i; t]) difference_ex in
  let difference := if Rle_dec difference 0 then 0%R else difference in
  pow_ d difference (rnd d (1 / 4)%R).

(** np.sum, snr.py L151 and L349: numpy adds the entries pairwise in blocks, in an order that depends on the shape, the axis and the
    processor.  Any order and any bracketing is covered: a tree whose leaves are the positions of the entries. *)
Inductive order := Entry (i : nat) | Plus (a b : order).
Fixpoint positions (t : order) : list nat := match t with Entry i => [i] | Plus a b => positions a ++ positions b end.
Fixpoint sum_computed (d : doubles) (v : nat -> R) (t : order) : R :=
  match t with Entry i => v i | Plus a b => rnd d (sum_computed d v a + sum_computed d v b) end.
(** snr.py L151: [np.sum(snr_n_2, axis=1)**0.5]. *)
Definition root_computed (d : doubles) (v : nat -> R) (t : order) : R := pow_ d (sum_computed d v t) (rnd d (1 / 2)).
