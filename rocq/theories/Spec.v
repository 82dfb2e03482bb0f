(** Spec.v -- independent vocabulary for the theorem statements: textbook equations, stated on plain reals with
    integer powers and square roots only (no reference to the model files). *)
From Coq Require Import Reals.
From Coquelicot Require Import Coquelicot.
Open Scope R_scope.

(** Newton's constant and the speed of light (SI), as in astropy.constants. *)
Definition G_SI : R := 6.6743 / 100000000000.
Definition c_SI : R := 299792458.

(** Kepler's third law: a^3 (2 pi f)^2 = G (m1 + m2). *)
Definition kepler_third_law (m1 m2 a f : R) : Prop :=
  a ^ 3 * (2 * PI * f) ^ 2 = G_SI * (m1 + m2).

(** Peters (1964) Eq. 5.6: orbit-averaged decay of the semi-major axis.  (1-e^2)^(7/2) is sqrt(1-e^2)^7. *)
Definition peters_da_dt (m1 m2 a e : R) : R :=
  - (64 / 5) * (G_SI ^ 3 * m1 * m2 * (m1 + m2)) / (c_SI ^ 5 * a ^ 3 * sqrt (1 - e ^ 2) ^ 7)
  * (1 + 73 / 24 * e ^ 2 + 37 / 96 * e ^ 4).

(** Peters (1964) Eq. 5.7: orbit-averaged decay of the eccentricity. *)
Definition peters_de_dt (m1 m2 a e : R) : R :=
  - (304 / 15) * e * (G_SI ^ 3 * m1 * m2 * (m1 + m2)) / (c_SI ^ 5 * a ^ 4 * sqrt (1 - e ^ 2) ^ 5)
  * (1 + 121 / 304 * e ^ 2).

(** Peters & Mathews (1963) Eq. 17: enhancement of the radiated power. *)
Definition enhancement (e : R) : R :=
  (1 + 73 / 24 * e ^ 2 + 37 / 96 * e ^ 4) / sqrt (1 - e ^ 2) ^ 7.

(** Averages over angles: longitude phi uniform on [0, 2 pi], polarisation psi uniform on [0, pi], and a polar
    angle (co-latitude or inclination) with weight sin on [0, pi]. *)
Definition avg_phi (f : R -> R) : R := RInt f 0 (2*PI) / (2*PI).
Definition avg_psi (f : R -> R) : R := RInt f 0 PI / PI.
Definition avg_theta (f : R -> R) : R := RInt (fun th => f th * sin th) 0 PI / 2.

(** A Peters inspiral on [0, T]: separation and eccentricity solve Peters (5.6) and (5.7). *)
Definition peters_inspiral (m1 m2 T : R) (a e : R -> R) : Prop :=
  forall t, 0 <= t <= T -> 0 < a t /\ 0 <= e t < 1 /\
    is_derive a t (peters_da_dt m1 m2 (a t) (e t)) /\ is_derive e t (peters_de_dt m1 m2 (a t) (e t)).

(** Peters & Mathews (1963) Eq. 19-20: power radiated in a harmonic with relative power [g] by a binary of chirp mass
    [mc] at orbital frequency [f]. *)
Definition harmonic_luminosity (mc f g : R) : R :=
  32 / 5 * c_SI ^ 5 / G_SI * Rpower (2 * PI * G_SI * mc * f / c_SI ^ 3) (10 / 3) * g.
(** Power of a gravitational wave of frequency [f] and (orientation-averaged) amplitude [h] at distance [d]. *)
Definition wave_power (f h d : R) : R := PI ^ 2 * c_SI ^ 3 / (2 * G_SI) * f ^ 2 * h ^ 2 * d ^ 2.
