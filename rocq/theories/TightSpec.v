(** TightSpec.v -- vocabulary for some theorems about strain.py and evol.py. *)
From Coq Require Import Reals List Bool.
From Verif Require Import Num Utils Strain Evol.
Import ListNotations.

(** Sky arguments of which only some are given, and the exception this causes: there is no position to take a latitude
    from (AttributeError), or no angle to compute with (TypeError). *)
Definition incomplete (s : sky) : option exn :=
  match position s with
  | None => if is_some (polarisation s) || is_some (inclination s) then Some AttributeError else None
  | Some _ => if is_some (polarisation s) && is_some (inclination s) then None else Some TypeError
  end.
(** All numbers of an output array. *)
Definition entries (v : evo) : list num := match v with E1 l => l | E2 l => concat l end.
