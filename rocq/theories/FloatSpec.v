(** FloatSpec.v -- vocabulary for rounding (C105-C107, C118). *)
From Coq Require Import Reals ZArith List Lra Permutation.
From Verif Require Import Num Float.
Import ListNotations.
Open Scope R_scope.

(** Between 2^-n and 2^n. *)
Definition within (n x : R) : Prop := Rpower 2 (- n) <= x <= Rpower 2 n.
(** IEEE double precision with the C library's pow.  Away from overflow and underflow the relative error of a rounding is at most 2^-53
    and that of pow at most one unit in the last place.  Integers below 2^53 are doubles.  0**y = 0 for positive y, and 1**y = 1.
    Squares of numbers between -2 and 2 are correct up to 2^-50, cosines of moderate angles up to 2^-52.  Near underflow the errors are
    below 2^-1022 more.  Multiples of small negative powers of 2 are doubles. *)
Definition ieee (d : doubles) : Prop :=
  (forall x, within 1022 (Rabs x) -> Rabs (rnd d x - x) <= Rpower 2 (- 53) * Rabs x) /\
  (forall z, (Z.abs z < 2 ^ 53)%Z -> rnd d (IZR z) = IZR z) /\
  (forall x y, 0 < x -> within 1022 (Rpower x y) -> Rabs (pow_ d x y - Rpower x y) <= Rpower 2 (- 52) * Rpower x y) /\
  (forall y, 0 < y -> pow_ d 0 y = 0) /\ (forall y, pow_ d 1 y = 1) /\
  (forall x, Rabs x <= 2 -> Rabs (pow_ d x 2 - x ^ 2) <= Rpower 2 (- 50)) /\
  (forall x, Rabs x <= Rpower 2 20 -> Rabs (cos_ d x - cos x) <= Rpower 2 (- 52)) /\
  (forall x, Rabs x <= Rpower 2 1022 -> Rabs (rnd d x - x) <= Rpower 2 (- 53) * Rabs x + Rpower 2 (- 1022)) /\
  (forall x y, 0 < x -> Rpower x y <= Rpower 2 1022 -> Rabs (pow_ d x y - Rpower x y) <= Rpower 2 (- 52) * Rpower x y + Rpower 2 (- 1022)) /\
  (forall z k, (Z.abs z < 2 ^ 53)%Z -> (k <= 1000)%nat -> rnd d (IZR z / 2 ^ k) = IZR z / 2 ^ k).
(** A relative error of at most [t]. *)
Definition accurate (t x y : R) : Prop := Rabs (y - x) <= t * Rabs x.
(** Eccentricities that are neither tiny nor within 1e-9 of 1; 0 is allowed for in [eccentricity]. *)
Definition ecc_box (e : R) : Prop := within 100 e /\ Rpower 2 (- 30) <= 1 - e ^ 2.
Definition eccentricity (e : R) : Prop := e = 0 \/ ecc_box e.
(** Terms of a sum that are known with relative error [t]; zeros are exact. *)
Definition terms (t : R) (l l' : list R) : Prop := Forall2 (fun x y => (x = 0 /\ y = 0) \/ (within 900 x /\ accurate t x y)) l l'.
(** [o] adds every entry of a list of [n] once. *)
Definition adds_all (o : order) (n : nat) : Prop := Permutation (positions o) (seq 0 n).
(** No double is between 0 and 2^-1074. *)
Definition least (d : doubles) : Prop := forall x, 0 < rnd d x -> Rpower 2 (- 1074) <= rnd d x.
