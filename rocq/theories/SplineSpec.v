(** SplineSpec.v -- the interpolating cubic splines of scipy.interpolate.splrep(x, y, s=0) and splev. *)
From Coq Require Import Reals List Lia.
From Verif Require Import Num Psd.
Import ListNotations.
Open Scope R_scope.

Definition cubic (a b c d x t : R) : R := a + b * (t - x) + c * (t - x) ^ 2 + d * (t - x) ^ 3.
(** [s] is made of one cubic between each two neighbouring points of (xs, ys).  Values, slopes and second derivatives fit together; the
    first two and the last two cubics are the same polynomials ("not a knot": FITPACK leaves out the second and the last but one point as
    knots); the first and the last cubic go on outside of the points (splev, ext=0). *)
Definition cubic_spline (xs ys : list R) (s : R -> R) : Prop :=
  exists (n : nat) (a b c d : nat -> R), length xs = S n /\ length ys = S n /\
  let x i := nth i xs 0 in let y i := nth i ys 0 in let h i := x (S i) - x i in let p i := cubic (a i) (b i) (c i) (d i) (x i) in
  (forall i, (i < n)%nat -> p i (x i) = y i /\ p i (x (S i)) = y (S i)) /\
  (forall i, (S i < n)%nat -> b i + 2 * c i * h i + 3 * d i * h i ^ 2 = b (S i) /\ 2 * c i + 6 * d i * h i = 2 * c (S i)) /\
  d 0%nat = d 1%nat /\ d (n - 2)%nat = d (n - 1)%nat /\
  (forall i t, (i < n)%nat -> i = 0%nat \/ x i <= t -> S i = n \/ t <= x (S i) -> s t = p i t).

Definition increasing (xs : list R) : Prop := forall i, (S i < length xs)%nat -> nth i xs 0 < nth (S i) xs 0.
(** psd.py L46-49: splrep and splev give the interpolating spline (here: of at least five points). *)
Definition interpolates (w : psd_env) : Prop := forall xs ys, increasing xs -> (5 <= length xs)%nat -> length ys = length xs ->
  exists s, cubic_spline xs ys s /\ forall f, spline w (map Fin xs) (map Fin ys) (Fin f) = Fin (s f).
