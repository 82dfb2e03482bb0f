(** OrbitSpec.v -- a LISA-like interferometer on its orbit and its response to a gravitational wave (geometry only). *)
From Coq Require Import Reals.
From Coquelicot Require Import Coquelicot.
Open Scope R_scope.

Record vec := mkVec { vx : R; vy : R; vz : R }.
Definition vsub (a b : vec) : vec := mkVec (vx a - vx b) (vy a - vy b) (vz a - vz b).
Definition dot (a b : vec) : R := vx a * vx b + vy a * vy b + vz a * vz b.
Definition vlin (x : R) (a : vec) (y : R) (b : vec) : vec := mkVec (x * vx a + y * vx b) (x * vy a + y * vy b) (x * vz a + y * vz b).

(** Spacecraft [n] = 1, 2, 3 at orbital phase [alpha], in ecliptic coordinates relative to the guiding centre and in units of
    the arm length: Keplerian orbits to first order in their eccentricity (Cornish & Rubbo 2003).  [lam] is the initial
    orientation of the constellation. *)
Definition craft (lam : R) (n : nat) (alpha : R) : vec :=
  let b := 2 * PI * (INR n - 1) / 3 + lam in
  let e := / (2 * sqrt 3) in
  mkVec (e / 2 * (cos (2 * alpha - b) - 3 * cos b)) (e / 2 * (sin (2 * alpha - b) - 3 * sin b)) (- sqrt 3 * e * cos (alpha - b)).
(** The arm from spacecraft i to spacecraft j. *)
Definition arm (lam : R) (i j : nat) (alpha : R) : vec := vsub (craft lam j alpha) (craft lam i alpha).

(** For a source at colatitude [th] and longitude [ph]: the unit vectors along increasing th and ph ... *)
Definition e_theta (th ph : R) : vec := mkVec (cos th * cos ph) (cos th * sin ph) (- sin th).
Definition e_phi (ph : R) : vec := mkVec (- sin ph) (cos ph) 0.
(** ... and the polarisation axes, rotated from these by [psi]. *)
Definition pol_p (th ph psi : R) : vec := vlin (cos psi) (e_theta th ph) (sin psi) (e_phi ph).
Definition pol_q (th ph psi : R) : vec := vlin (- sin psi) (e_theta th ph) (cos psi) (e_phi ph).
(** Responses of the Michelson interferometer with arms u, v: 1/2 (u u - v v) : (p p - q q) and 1/2 (u u - v v) : (p q + q p). *)
Definition michelson_plus (u v p q : vec) : R := / 2 * ((dot u p ^ 2 - dot u q ^ 2) - (dot v p ^ 2 - dot v q ^ 2)).
Definition michelson_cross (u v p q : vec) : R := / 2 * (2 * dot u p * dot u q - 2 * dot v p * dot v q).
(** LISA at orbital phase [alpha]: arms 1-2 and 1-3, initial orientation pi/4. *)
Definition lisa_plus (th ph psi alpha : R) : R :=
  michelson_plus (arm (PI/4) 1 2 alpha) (arm (PI/4) 1 3 alpha) (pol_p th ph psi) (pol_q th ph psi).
Definition lisa_cross (th ph psi alpha : R) : R :=
  michelson_cross (arm (PI/4) 1 2 alpha) (arm (PI/4) 1 3 alpha) (pol_p th ph psi) (pol_q th ph psi).
(** Average over one orbit. *)
Definition orbit_average (f : R -> R) : R := RInt f 0 (2 * PI) / (2 * PI).
(** Strain amplitude in the detector of a binary with inclination [inc]: the two polarisations have amplitudes
    (1 + cos^2 inc)/2 and cos inc and are a quarter of a cycle apart, so their powers add. *)
Definition detected_power (th ph psi inc alpha : R) : R :=
  ((1 + cos inc ^ 2) / 2 * lisa_plus th ph psi alpha) ^ 2 + (cos inc * lisa_cross th ph psi alpha) ^ 2.
