(** EvolSpec.v -- what the theorems about evol.py assume of the external quadrature routine, and the trajectories
    they range over. *)
From Coq Require Import String Reals List Bool.
From Coquelicot Require Import Coquelicot.
From Verif Require Import Num Utils Evol.
Import ListNotations.
Open Scope R_scope.

(** scipy.integrate.quad is exact on continuous integrands (its numerical error is not modelled). *)
Definition quad_exact (quad : quad_t) : Prop :=
  forall (f : num -> num) (g : R -> R) (a b : R), a <= b ->
    (forall x, a <= x <= b -> f (Fin x) = Fin (g x)) ->
    (forall x, a <= x <= b -> continuous g x) ->
    quad f (Fin a) (Fin b) = Fin (RInt g a b).

(** e(t) solving the ODE used by evol_ecc *)
Definition follows_de_dt (b c0 T : R) (e : R -> R) : Prop :=
  forall t, 0 <= t <= T -> 0 < e t < 1 /\
    exists d, de_dt (Fin b) (Fin c0) (Fin (e t)) = Fin d /\ is_derive e t d.

(** ** Calls *)
(** evol_circ on one source given by its masses and separation (or orbital frequency), at explicit times. *)
Definition circ_call quad m1 m2 a n ts vars :=
  evol_circ quad TNone n (S1 ts) PNone (PQScalar (Fin m1) tt) (PQScalar (Fin m2) tt) (PQScalar (Fin a) tt) PNone vars.
Definition circ_call_freq quad m1 m2 f n ts vars :=
  evol_circ quad TNone n (S1 ts) PNone (PQScalar (Fin m1) tt) (PQScalar (Fin m2) tt) PNone (PQScalar (Fin f) tt) vars.
(** A history: evolve by the first step, restart from the result, evolve by the next step, ... *)
Fixpoint circ_run quad (m1 m2 a : R) (n : nat) (dts : list R) : res num :=
  match dts with
  | [] => Ok (Fin a)
  | dt :: rest =>
      match circ_call quad m1 m2 a n [Fin dt] ["a"%string] with
      | Ok (Single (E1 [Fin a'])) => circ_run quad m1 m2 a' n rest
      | _ => Err ValueError
      end
  end.
Definition Rsum (l : list R) : R := fold_right Rplus 0 l.
(** The same attribute for every source of a population, or of one source. *)
Definition omap {X} (xs : list X) (o : option (X -> num)) : option (list num) := option_map (fun g => map g xs) o.
Definition oget {X} (x : X) (o : option (X -> num)) : option num := option_map (fun g => g x) o.
Definition isSome {A} (o : option A) : bool := match o with Some _ => true | None => false end.
(** A row of times in non-decreasing order. *)
Definition sorted (l : list R) : Prop := forall i j, (i <= j)%nat -> (j < length l)%nat -> nth i l 0 <= nth j l 0.
(** Every task is completed at least once; the order is arbitrary. *)
Definition complete_schedule (n : nat) (sched : list nat) : Prop := forall i, (i < n)%nat -> In i sched.
(** What a list of requested variables should return, given the value of each variable. *)
Definition collect (value : string -> option evo) (vars : list string) : res outputs :=
  match flat_map (fun v => match value v with Some x => [x] | None => [] end) vars with
  | [] => Err IndexError
  | [x] => Ok (Single x)
  | l => Ok (Many l)
  end.
Definition double_evo (e : evo) : evo :=
  match e with E1 l => E1 (map (nmul (Fin 2)) l) | E2 l => E2 (map (map (nmul (Fin 2))) l) end.
(** Time steps that are common to all sources. *)
Definition shared_steps (t_evol : tevol) (ts : tsteps) : Prop :=
  (forall l, t_evol <> TArr l) /\ (forall l, ts <> S2 l).
(** [row'] is [row] kept away from the limit [lim]: it still starts at 0 and is non-decreasing, no time increased,
    times before the limit are unchanged, and every other time (but the first) was replaced by an earlier entry of
    the row, the largest one before the limit. *)
Definition kept_before (lim : R) (row row' : list R) : Prop :=
  length row' = length row /\ nth 0 row' 0 = 0 /\ sorted row' /\
  (forall i, (i < length row)%nat -> nth i row' 0 <= nth i row 0) /\
  (forall i, (i < length row)%nat -> nth i row 0 < lim -> nth i row' 0 = nth i row 0) /\
  (forall i, (0 < i < length row)%nat -> lim <= nth i row 0 ->
     exists k, (k < i)%nat /\ (k = 0%nat \/ nth k row 0 < lim) /\ nth i row' 0 = nth k row 0 /\
               forall j, (j < length row)%nat -> nth j row 0 < lim -> nth j row 0 <= nth i row' 0).
(** [row] holds [n] equally spaced times from 0 to [T]. *)
Definition equally_spaced (n : nat) (T : R) (row : list num) : Prop :=
  length row = n /\ forall k, (k < n)%nat -> nth_error row k = Some (Fin (INR k / INR (n - 1) * T)).
(** scipy.integrate.odeint is exact on the eccentricity equation: at non-decreasing times starting at 0 it returns the
    values of the solution (its numerical error is not modelled). *)
Definition odeint_exact (odeint : odeint_t) : Prop :=
  forall (b c0 T : R) (e : R -> R) (ts : list R),
    0 < b -> 0 < c0 -> 0 <= T -> follows_de_dt b c0 T e -> sorted (0 :: ts) -> (forall t, In t ts -> t <= T) ->
    odeint (de_dt (Fin b) (Fin c0)) (Fin (e 0)) (map Fin (0 :: ts)) = map (fun t => Fin (e t)) (0 :: ts).
