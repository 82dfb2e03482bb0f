(** Num.v -- Python exceptions as values, and IEEE doubles idealised as extended reals.

    LEGWORK (src/legwork/*.py) computes with numpy float64 values.  A float64 is modelled here as an exact
    real number or one of +inf, -inf, nan, with numpy's rules for the special values.
    Simplifications: no rounding, no overflow/underflow, every zero is +0. *)
From Coq Require Import Reals ZArith List Bool String.
Import ListNotations.
Open Scope R_scope.

(** ** Exceptions as values *)

(** The Python exception classes that LEGWORK code (or a library call it makes) raises. *)
Inductive exn : Set :=
| ValueError | KeyError | TypeError | IndexError | AttributeError | AssertionError
| FileExistsErr | FileNotFoundErr | NotImplementedErr | UnitError | OSErr.

Inductive res (A : Type) : Type :=
| Ok (a : A)
| Err (e : exn).
Arguments Ok {A} a.
Arguments Err {A} e.

Definition rbind {A B} (m : res A) (f : A -> res B) : res B :=
  match m with Ok a => f a | Err e => Err e end.
Definition rmap {A B} (f : A -> B) (m : res A) : res B :=
  match m with Ok a => Ok (f a) | Err e => Err e end.

Declare Scope res_scope.
Delimit Scope res_scope with res.
Notation "x <- m ;; k" := (rbind m (fun x => k))
  (at level 61, m at next level, right associativity) : res_scope.
Open Scope res_scope.

(** ** Boolean comparisons of reals *)
Definition Rleb (x y : R) : bool := if Rle_dec x y then true else false.
Definition Rltb (x y : R) : bool := if Rlt_dec x y then true else false.
Definition Reqb (x y : R) : bool := if Req_EM_T x y then true else false.

(** ** Extended reals *)
Inductive num : Type :=
| Fin (r : R)
| PInf
| NInf
| NaN.

Declare Scope num_scope.
Delimit Scope num_scope with num.
Bind Scope num_scope with num.
Notation "# r" := (Fin r%R) (at level 1, r at level 1, format "# r") : num_scope.
Open Scope num_scope.

(** Python/numpy [-x]. *)
Definition nneg (x : num) : num :=
  match x with Fin r => Fin (- r) | PInf => NInf | NInf => PInf | NaN => NaN end.

(** Python/numpy [x + y]. *)
Definition nadd (x y : num) : num :=
  match x, y with
  | Fin a, Fin b => Fin (a + b)
  | NaN, _ | _, NaN => NaN
  | PInf, NInf | NInf, PInf => NaN
  | PInf, _ | _, PInf => PInf
  | NInf, _ | _, NInf => NInf
  end.

(** Python/numpy [x - y]. *)
Definition nsub (x y : num) : num := nadd x (nneg y).

(** [inf * x]. *)
Definition inf_times (x : num) : num :=
  match x with
  | Fin r => if Rltb 0 r then PInf else if Rltb r 0 then NInf else NaN
  | _ => x
  end.

(** Python/numpy [x * y]. *)
Definition nmul (x y : num) : num :=
  match x, y with
  | Fin a, Fin b => Fin (a * b)
  | NaN, _ | _, NaN => NaN
  | PInf, z | z, PInf => inf_times z
  | NInf, z | z, NInf => nneg (inf_times z)
  end.

(** numpy [x / y] (float64 division by zero gives inf or nan and no exception). *)
Definition ndiv (x y : num) : num :=
  match x, y with
  | NaN, _ | _, NaN => NaN
  | Fin a, Fin b =>
      if Reqb b 0 then (if Rltb 0 a then PInf else if Rltb a 0 then NInf else NaN)
      else Fin (a / b)
  | Fin _, _ => Fin 0
  | PInf, Fin b => if Rltb b 0 then NInf else PInf
  | NInf, Fin b => if Rltb b 0 then PInf else NInf
  | _, _ => NaN
  end.

(** numpy [x ** y] for a non-integer, non-zero constant exponent [y] (all fractional exponents in LEGWORK are
    literals such as 5/3 or -12/19): nan for negative finite bases. *)
Definition npowr (x : num) (y : R) : num :=
  match x with
  | Fin r => if Rltb 0 r then Fin (Rpower r y)
             else if Reqb r 0 then (if Rltb 0 y then Fin 0 else PInf)
             else NaN
  | PInf | NInf => if Rltb 0 y then PInf else Fin 0
  | NaN => NaN
  end.

(** numpy [x ** k] for an integer exponent [k]. *)
Definition npowi (x : num) (k : Z) : num :=
  match x with
  | Fin r => if (0 <=? k)%Z then Fin (r ^ Z.to_nat k)
             else if Reqb r 0 then PInf else Fin (/ r ^ Z.to_nat (- k))
  | PInf => if (0 <? k)%Z then PInf else if (k =? 0)%Z then Fin 1 else Fin 0
  | NInf => if (0 <? k)%Z then (if Z.even k then PInf else NInf) else if (k =? 0)%Z then Fin 1 else Fin 0
  | NaN => if (k =? 0)%Z then Fin 1 else NaN
  end.

Infix "+" := nadd : num_scope.
Infix "-" := nsub : num_scope.
Infix "*" := nmul : num_scope.
Infix "/" := ndiv : num_scope.
Notation "- x" := (nneg x) : num_scope.
Notation "x ** y" := (npowr x y%R) (at level 30, right associativity) : num_scope.
Notation "x ^^ k" := (npowi x k%Z) (at level 30, right associativity) : num_scope.

(** np.sqrt / [** 0.5]. *)
Definition nsqrt (x : num) : num := npowr x (1/2).

(** np.exp *)
Definition nexp (x : num) : num :=
  match x with Fin r => Fin (exp r) | PInf => PInf | NInf => Fin 0 | NaN => NaN end.
(** np.tanh *)
Definition ntanh (x : num) : num :=
  match x with Fin r => Fin (tanh r) | PInf => Fin 1 | NInf => Fin (-1) | NaN => NaN end.
(** np.cos, np.sin *)
Definition ncos (x : num) : num := match x with Fin r => Fin (cos r) | _ => NaN end.
Definition nsin (x : num) : num := match x with Fin r => Fin (sin r) | _ => NaN end.
(** np.log10 *)
Definition nlog10 (x : num) : num :=
  match x with
  | Fin r => if Rltb 0 r then Fin (ln r / ln 10) else if Reqb r 0 then NInf else NaN
  | PInf => PInf | _ => NaN
  end.
(** [10**x] *)
Definition n10pow (x : num) : num :=
  match x with Fin r => Fin (Rpower 10 r) | PInf => PInf | NInf => Fin 0 | NaN => NaN end.
(** np.abs *)
Definition nabs (x : num) : num :=
  match x with Fin r => Fin (Rabs r) | NaN => NaN | _ => PInf end.

(** numpy comparisons (always False when nan is involved). *)
Definition nle (x y : num) : bool :=
  match x, y with
  | NaN, _ | _, NaN => false
  | Fin a, Fin b => Rleb a b
  | NInf, _ => true | _, PInf => true
  | _, _ => false
  end.
Definition nlt (x y : num) : bool :=
  match x, y with
  | NaN, _ | _, NaN => false
  | Fin a, Fin b => Rltb a b
  | NInf, NInf => false | PInf, PInf => false
  | NInf, _ => true | _, PInf => true
  | _, _ => false
  end.
Definition nge (x y : num) : bool := nle y x.
Definition ngt (x y : num) : bool := nlt y x.
Definition neqb (x y : num) : bool :=
  match x, y with
  | Fin a, Fin b => Reqb a b
  | PInf, PInf | NInf, NInf => true
  | _, _ => false
  end.
Definition nneb (x y : num) : bool := negb (neqb x y).

(** np.minimum / np.maximum (propagate nan). *)
Definition nmin (x y : num) : num :=
  match x, y with NaN, _ | _, NaN => NaN | _, _ => if nle x y then x else y end.
Definition nmax (x y : num) : num :=
  match x, y with NaN, _ | _, NaN => NaN | _, _ => if nle x y then y else x end.

(** np.isnan *)
Definition is_nan (x : num) : bool := match x with NaN => true | _ => false end.

(** ** Constants (astropy.constants, CODATA 2018; SI units) *)
Definition Ggrav : R := 66743 / 1000000000000000.   (* 6.6743e-11 m^3 kg^-1 s^-2 *)
Definition clight : R := 299792458.                  (* m / s *)
(** Julian year, in seconds; Gyr and Myr. *)
Definition yr : R := 31557600.
Definition Myr : R := 1000000 * yr.
Definition Gyr : R := 1000000000 * yr.
