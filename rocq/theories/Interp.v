(** Interp.v -- numpy.linspace/logspace, scipy.interpolate.interp1d (kind "linear", which delegates to numpy.interp)
    and numpy's rounding functions, as LEGWORK's Source class uses them. *)
From Coq Require Import Reals ZArith List Bool.
From Verif Require Import Num.
Import ListNotations.
Open Scope num_scope.

(** np.linspace(a, b, n) as used at source.py L583 and inside np.logspace (n >= 2; n = 1 gives the single point a). *)
Definition linspace (a b : R) (n : nat) : list R :=
  match n with
  | O => []
  | 1%nat => [a]
  | S m => map (fun i => a + INR i * ((b - a) / INR m))%R (seq 0 n)
  end.
(** np.logspace(a, b, n): powers of ten. *)
Definition logspace (a b : R) (n : nat) : list R := map (Rpower 10) (linspace a b n).

(** One segment of numpy.interp (compiled_base.c): exact at the left end; otherwise
    slope * (x - x0) + y0, retried from the right end if that is nan, and y0 if both are nan but the ends agree. *)
Definition segment (x0 y0 x1 y1 x : num) : num :=
  if neqb x x0 then y0
  else
    let slope := (y1 - y0) / (x1 - x0) in
    let v := slope * (x - x0) + y0 in
    if is_nan v then
      let v := slope * (x - x1) + y1 in
      if is_nan v && neqb y0 y1 then y0 else v
    else v.

(** numpy.interp for x within the table (increasing abscissae). *)
Fixpoint interp_in (pts : list (num * num)) (x : num) : num :=
  match pts with
  | [] => NaN
  | (x0, y0) :: rest =>
      match rest with
      | [] => y0
      | (x1, y1) :: _ => if nlt x x1 then segment x0 y0 x1 y1 x else interp_in rest x
      end
  end.

(** scipy interp1d(xs, ys, bounds_error=False, fill_value=(lo, hi))(x): [lo] strictly below the first abscissa, [hi]
    strictly above the last one, nan for nan. *)
Definition interp1d (xs ys : list num) (lo hi : num) (x : num) : num :=
  if is_nan x then NaN
  else if nlt x (hd NaN xs) then lo
  else if nlt (last xs NaN) x then hi
  else interp_in (combine xs ys) x.

(** np.ceil / np.round (half to even) of a real. *)
Definition Rfloor (x : R) : Z := Int_part x.
Definition Rceil (x : R) : Z := (- Rfloor (- x))%Z.
Definition Rround (x : R) : Z :=
  let f := Rfloor x in
  let d := (x - IZR f)%R in
  if Rltb d (1/2) then f else if Rltb (1/2) d then (f + 1)%Z else if Z.even f then f else (f + 1)%Z.

(** .astype(int): nan and infinities become the smallest 64-bit integer. *)
Definition int_garbage : Z := (- 2 ^ 63)%Z.
Definition nceil (x : num) : Z := match x with Fin r => Rceil r | _ => int_garbage end.
Definition nround (x : num) : Z := match x with Fin r => Rround r | _ => int_garbage end.
