(** UnitsEvolSpec.v -- vocabulary for the statements about units in evol.py. *)
From Coq Require Import String Reals ZArith List Bool.
From Verif Require Import Num Np Utils Evol Units UnitsSpec UnitsEvol.
Import ListNotations.
Open Scope list_scope.
Open Scope R_scope.

(** A unit of dimension [d]. *)
Definition unit_for (d : dim) (u : unit_) : Prop := 0 < u_size u /\ u_dim u = d.

(** A physical argument: not given, one quantity, or an array of quantities (SI values). *)
Inductive arg := Absent | Scalar (x : num) | Array (l : list num).
(** The same argument as SI numbers, and written in the unit [u]. *)
Definition si_arg (v : arg) : pyval num unit :=
  match v with Absent => PNone | Scalar x => PQScalar x tt | Array l => PQArr l tt end.
Definition arg_in (u : unit_) (v : arg) : pyval val unit :=
  match v with Absent => PNone | Scalar x => PQScalar (in_unit u x) tt | Array l => PQArr (map (in_unit u) l) tt end.
Definition list_in (u : unit_) (o : option (list num)) : option (list val) := option_map (map (in_unit u)) o.
Definition val_in (u : unit_) (o : option num) : option val := option_map (in_unit u) o.
Definition t_evol_in (u : unit_) (t : tevol) : tevol_q :=
  match t with TNone => TNoneQ | TScalar x => TScalarQ (in_unit u x) | TArr l => TArrQ (map (in_unit u) l) end.
Definition timesteps_in (u : unit_) (t : tsteps) : tsteps_q :=
  match t with SNone => SNoneQ | S1 l => S1Q (map (in_unit u) l) | S2 l => S2Q (map (map (in_unit u)) l) end.

(** The units of the outputs, in the order of [output_vars] (None: a plain number). *)
Definition var_unit (v : string) : list (option unit_) :=
  if String.eqb v "timesteps" then [Some year]
  else if String.eqb v "a" then [Some au]
  else if String.eqb v "f_orb" then [Some hertz]
  else if String.eqb v "f_GW" then [Some hertz]
  else [].
Definition circ_units (vars : list string) : list (option unit_) := flat_map var_unit vars.
Definition ecc_units (vars : list string) : list (option unit_) :=
  flat_map (fun v => if String.eqb v "ecc" then [None] else var_unit v) vars.

Definition dress_val (u : option unit_) (x : num) : val := match u with Some u => in_unit u x | None => Pl x end.
Definition dress_evo (u : option unit_) (e : evo) : evo_q :=
  match e with E1 l => E1Q (map (dress_val u) l) | E2 l => E2Q (map (map (dress_val u)) l) end.
(** Outputs (SI numbers) with their units attached. *)
Definition dress (us : list (option unit_)) (o : outputs) : outputs_q :=
  match o with
  | Single e => SingleQ (dress_evo (hd None us) e)
  | Many l => ManyQ (map2 dress_evo us l)
  end.

Definition entries (e : evo) : list num := match e with E1 l => l | E2 l => concat l end.

(** No binary has, at any output time, a separation that the code confuses with its marker for merged binaries: 1e-30
    in the unit of the caller's [a_i] (here [u]), or 1e-30 AU. *)
Definition off_marker (u : unit_) (separations : res outputs) : Prop :=
  forall e x, separations = Ok (Single e) -> List.In x (entries e) ->
  x <> Fin (u_size u / 1000000000000000000000000000000) /\ x <> Fin (AU / 1000000000000000000000000000000).

(** The times a call goes by (given time steps replace the evolution time), and the call with their numbers read in seconds. *)
Definition times_given (te : tevol_q) (ts : tsteps_q) : list val :=
  match ts with
  | S1Q l => l
  | S2Q rows => concat rows
  | SNoneQ => match te with TNoneQ => [] | TScalarQ v => [v] | TArrQ l => l end
  end.
Definition si_t_evol (te : tevol_q) : tevol :=
  match te with TNoneQ => TNone | TScalarQ v => TScalar (si v) | TArrQ l => TArr (map si l) end.
Definition si_timesteps (ts : tsteps_q) : tsteps :=
  match ts with SNoneQ => SNone | S1Q l => S1 (map si l) | S2Q rows => S2 (map (map si) rows) end.
(** An argument that is not an array without entries. *)
Definition some_source (v : arg) : Prop := v <> Array [].
(** A call rejected for a missing or wrong unit. *)
Definition rejects {A} (r : res A) : Prop := r = Err UnitError \/ r = Err AttributeError.
