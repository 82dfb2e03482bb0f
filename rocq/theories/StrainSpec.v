(** StrainSpec.v -- vocabulary for the theorems about strain.py. *)
From Coq Require Import Reals ZArith List Bool.
From Verif Require Import Num Np Utils Strain.
Import ListNotations.

(** Sky arguments of a population: none, or latitude, longitude, polarisation and inclination of every source. *)
Record angles := mkAngles { lat : R; lon : R; psi : R; inc : R }.
Definition pop_sky {X} (xs : list X) (o : option (X -> angles)) : sky :=
  match o with
  | None => no_sky
  | Some g => mkSky (Some (map (fun x => (Fin (lat (g x)), Fin (lon (g x)))) xs))
                    (Some (map (fun x => Fin (psi (g x))) xs)) (Some (map (fun x => Fin (inc (g x))) xs))
  end.
(** f_orb and ecc as 2-D arrays: every source has a row of (frequency, eccentricity) pairs, one per time. *)
Definition f_rows {X} (rows : X -> list (num * num)) (xs : list X) : list (list num) := map (fun x => map fst (rows x)) xs.
Definition e_rows {X} (rows : X -> list (num * num)) (xs : list X) : list (list num) := map (fun x => map snd (rows x)) xs.
(** The Bessel routine returns finite numbers. *)
Definition finite_bessel (jv : Z -> num -> num) : Prop := forall n x, exists r, jv n (Fin x) = Fin r.
(** The value of g(n,e) used by the strain functions: the interpolation routine's, negative values being set to 0,
    or peters_g when there is none. *)
Definition power_used (jv : Z -> num -> num) (gi : option (Z -> num -> num)) (n : Z) (e g : R) : Prop :=
  match gi with
  | None => peters_g jv n (Fin e) = Fin g
  | Some gi => (exists v, gi n (Fin e) = Fin v /\ g = Rmax v 0)
  end.
(** One source, one time, one harmonic. *)
Definition h_0_single jv gi m f e n d (o : option angles) :=
  h_0_n jv gi [Fin m] [[Fin f]] [[Fin e]] [n] [Fin d] (pop_sky [tt] (option_map (fun g _ => g) o)).
Definition h_c_single jv gi m f e n d (o : option angles) :=
  h_c_n jv gi [Fin m] [[Fin f]] [[Fin e]] [n] [Fin d] (pop_sky [tt] (option_map (fun g _ => g) o)).
