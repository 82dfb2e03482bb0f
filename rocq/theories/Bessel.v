(** Bessel.v -- Bessel functions of integer order, by Bessel's integral, and Peters & Mathews' g(n, e) written with
    J_n and its derivative (Peters & Mathews 1963, Eq. 20, after using the recurrences of J_n). *)
From Coq Require Import Reals ZArith.
From Coquelicot Require Import Coquelicot.
Open Scope R_scope.

(** J_n(x) = 1/pi * integral of cos(n tau - x sin tau) over [0, pi] *)
Definition besselJ (n : Z) (x : R) : R := / PI * RInt (fun tau => cos (IZR n * tau - x * sin tau)) 0 PI.

(** For J = J_n(n e) and D = J_n'(n e), 0 < e <= 1:
    g(n,e) = n^4/32 { [4 D (1-e^2)/e - 2 J (2-e^2)/(n e^2)]^2 + (1-e^2) [4 J (1-e^2)/e^2 - 4 D/(n e)]^2 + 4 J^2/(3 n^2) } *)
Definition harmonic_power (n e J D : R) : R :=
  n ^ 4 / 32 * ((4 * D * (1 - e ^ 2) / e - 2 * J * (2 - e ^ 2) / (n * e ^ 2)) ^ 2
                + (1 - e ^ 2) * (4 * J * (1 - e ^ 2) / e ^ 2 - 4 * D / (n * e)) ^ 2
                + 4 * J ^ 2 / (3 * n ^ 2)).
