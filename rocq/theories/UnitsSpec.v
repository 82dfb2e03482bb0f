(** UnitsSpec.v -- vocabulary for the statements about units. *)
From Coq Require Import Reals ZArith List Bool.
From Verif Require Import Num Np Strain Units.
Open Scope R_scope.

(** Every unit has a positive size. *)
Definition proper (v : val) : Prop := 0 < u_size (unit_of v).
Definition dim_of (v : val) : dim := u_dim (unit_of v).

(** The number in SI base units: the physical content of a value, together with its dimension. *)
Definition si (v : val) : num := (mag v * Fin (u_size (unit_of v)))%num.

(** [v] expresses the physical quantity of dimension [d] and SI value [x] (in some unit of dimension [d]; a plain
    number when [d] is dimensionless). *)
Definition is_ (d : dim) (x : num) (v : val) : Prop := proper v /\ dim_of v = d /\ si v = x.
(** The same with a unit attached. *)
Definition quantity (d : dim) (x : num) (v : val) : Prop := is_quantity v = true /\ is_ d x v.

(** Two values that express the same physical quantity, in possibly different units (both with a unit attached, or both
    plain). *)
Definition same (v w : val) : Prop :=
  proper v /\ proper w /\ is_quantity v = is_quantity w /\ dim_of v = dim_of w /\ si v = si w.

(** The value [x] (SI) expressed in the unit [u]. *)
Definition in_unit (u : unit_) (x : num) : val := Qy (x / Fin (u_size u))%num u.

(** A value of the wrong dimension.  astropy lets a plain 0, inf or nan stand for a quantity of any unit when it is
    added to one, so those plain numbers are left out. *)
Definition wrong (d : dim) (v : val) : Prop :=
  proper v /\ dim_of v <> d /\ (is_quantity v = false -> arbitrary_unit (mag v) = false).

(** Dimension of Peters' beta (m^4 / s). *)
Definition beta_dim : dim := mkDim 4 0 (-1) 0 0 0 0 0.

(** Results: the same error, or related values. *)
Definition res_rel {A B} (R : A -> B -> Prop) (a : res A) (b : res B) : Prop :=
  match a, b with Ok x, Ok y => R x y | Err e, Err f => e = f | _, _ => False end.

(** Optional arguments: absent in both, or related values. *)
Definition opt_rel {A B} (R : A -> B -> Prop) (o : option A) (p : option B) : Prop :=
  match o, p with Some x, Some y => R x y | None, None => True | _, _ => False end.
Definition opt_is (d : dim) (o : option num) (v : option val) : Prop :=
  match o, v with Some x, Some q => is_ d x q | None, None => True | _, _ => False end.
Definition opt_same (o p : option val) : Prop :=
  match o, p with Some v, Some w => same v w | None, None => True | _, _ => False end.

(** A value of any dimension and its SI value. *)
Definition reads (v : val) (x : num) : Prop := proper v /\ si v = x.
(** An angle: with a unit of angle, or a plain number of radians.  A coordinate of a SkyCoord always has a unit. *)
Definition angle (v : val) (x : num) : Prop := proper v /\ (is_quantity v = true -> dim_of v = angle_dim) /\ si v = x.
Definition sky_angle (v : val) (x : num) : Prop := is_ angle_dim x v.
Definition sky_reads (s : sky_q) (t : sky) : Prop :=
  opt_rel (Forall2 (fun v x => sky_angle (fst v) (fst x) /\ angle (snd v) (snd x))) (position_q s) (position t) /\
  opt_rel (Forall2 angle) (polarisation_q s) (polarisation t) /\
  opt_rel (Forall2 angle) (inclination_q s) (inclination t).
