(** FloatMerge.v -- merger times of eccentric binaries in double precision (C105).

    As in Float.v, every operation rounds its result; one binary, SI values. *)
From Coq Require Import Reals ZArith List.
From Verif Require Import Num Utils Float.
Import ListNotations.
Local Open Scope ex_scope.

(** evol.py L582/L606: the formula for small eccentricities; the arguments are c0, beta, ecc_i. *)
Definition t_small_ex : ex :=
  let c0 := Inp 0 in let beta := Inp 1 in let ecc_i := Inp 2 in
  Pow c0 4 1 / (Int 4 * beta) * Pow ecc_i 48 19.
(** evol.py L585-588/L608-610: the formula for large eccentricities. *)
Definition t_large_ex : ex :=
  let c0 := Inp 0 in let beta := Inp 1 in let ecc_i := Inp 2 in
  Pow c0 4 1 / (Int 4 * beta) * Pow ecc_i 48 19 * (Int 768 / Int 425) * Pow (Int 1 - Pow ecc_i 2 1) (-1) 2
  * Pow (Int 1 + (Int 121 / Int 304) * Pow ecc_i 2 1) 3480 2299.
