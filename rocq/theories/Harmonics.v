(** Harmonics.v -- model of the harmonic tables of the Source class (src/legwork/source.py L518-618). *)
From Coq Require Import Reals ZArith List Bool.
From Verif Require Import Num Np Utils Interp.
Import ListNotations.
Open Scope num_scope.

(** The packaged file harmonics.npz (L531-536): eccentricity limits, number of eccentricities, and the table g(n, e)
    with one row of [n_max] powers per eccentricity. *)
Record lum_info := mkLum { e_min : R; e_max : R; e_len : nat; n_max : nat; g_vals : list (list num) }.

(** L539, the tabulated eccentricities. *)
Definition log10R (x : R) : R := (ln x / ln 10)%R.
Definition e_range (lum : lum_info) : list num :=
  map (fun p => #1 - Fin p) (logspace (log10R (1 - e_min lum)) (log10R (1 - e_max lum)) (e_len lum)).
(** L542 *)
Definition f_vals (lum : lum_info) : list num := map peters_f (e_range lum).

(** L554-556, the while loop: [rest] are the powers of the harmonics not yet counted (none left when
    needed = n_max). *)
Fixpoint add_harmonics (target total : num) (needed : nat) (rest : list num) : nat :=
  match rest with
  | [] => needed
  | g :: more => if nlt total target then add_harmonics target (total + g) (S needed) more else needed
  end.
(** L548-556 for the rows after the first. *)
Fixpoint needed_from (tol : num) (previous : nat) (rows : list (list num)) (fs : list num) : list nat :=
  match rows, fs with
  | row :: rows, f :: fs =>
      let k := add_harmonics ((#1 - tol) * f) (nsum (firstn previous row)) previous (skipn previous row) in
      k :: needed_from tol k rows fs
  | _, _ => []
  end.
(** L545-556; a table without rows raises IndexError at L546. *)
Definition harmonics_needed (tol : num) (lum : lum_info) : res (list nat) :=
  match g_vals lum with
  | [] => Err IndexError
  | _ :: rows => Ok (2%nat :: needed_from tol 2 rows (tl (f_vals lum)))
  end.
Definition nN (k : nat) : num := Fin (INR k).

(** L559-564 *)
Definition list_max (l : list nat) : nat := fold_right max O l.
Definition harmonics_required_of (lum : lum_info) (needed : list nat) (e : num) : Z :=
  nceil (interp1d (e_range lum) (map nN needed) #2 (nN (list_max needed)) e).
(** L569-574 *)
Definition max_strain_harmonics (lum : lum_info) : list nat := map (fun row => S (argmax row)) (g_vals lum).
Definition max_strain_harmonic_of (lum : lum_info) (needed : list nat) (e : num) : Z :=
  nround (interp1d (e_range lum) (map nN (max_strain_harmonics lum)) #2 (nN (list_max needed)) e).

(** The attributes the setter writes. *)
Record harm := mkHarm { h_gw_lum_tol : option num;             (* _gw_lum_tol, None before the first assignment *)
                        h_required : num -> Z;                  (* harmonics_required *)
                        h_max_strain : num -> Z;                (* max_strain_harmonic *)
                        h_ecc_tol : option num }.               (* _ecc_tol *)

(** L518-576, [create_harmonics_functions]. *)
Definition create_harmonics_functions (lum : lum_info) (h : harm) : harm * res unit :=
  match h_gw_lum_tol h with
  | None => (h, Err AttributeError)
  | Some tol =>
      match harmonics_needed tol lum with
      | Err e => (h, Err e)
      | Ok needed => (mkHarm (h_gw_lum_tol h) (harmonics_required_of lum needed) (max_strain_harmonic_of lum needed)
                             (h_ecc_tol h), Ok tt)
      end
  end.

(** L583: the eccentricities searched. *)
Definition transition_grid : list num := map Fin (linspace 0 (1/5) (Z.to_nat 10000)).
(** L586-588: the first grid eccentricity at which the n = 2 harmonic is below tolerance; [0] on an empty selection
    raises IndexError. *)
Definition below_tolerance (jv : Z -> num -> num) (tol e : num) : bool :=
  nlt (peters_g jv 2 e) ((#1 - tol) * peters_f e).
Definition eccentric_transition (jv : Z -> num -> num) (tol : num) : res num :=
  match filter (below_tolerance jv tol) transition_grid with [] => Err IndexError | e :: _ => Ok e end.
(** L578-588, [find_eccentric_transition]. *)
Definition find_eccentric_transition (jv : Z -> num -> num) (h : harm) : harm * res unit :=
  match h_gw_lum_tol h with
  | None => (h, Err AttributeError)
  | Some tol =>
      match eccentric_transition jv tol with
      | Err e => (h, Err e)
      | Ok e => (mkHarm (h_gw_lum_tol h) (h_required h) (h_max_strain h) (Some e), Ok tt)
      end
  end.

(** L610-618, the setter of gw_lum_tol. *)
Definition set_gw_lum_tol (jv : Z -> num -> num) (lum : lum_info) (tol : num) (h : harm) : harm * res unit :=
  if match h_gw_lum_tol h with Some t => neqb tol t | None => false end then (h, Ok tt)
  else
    let h := mkHarm (Some tol) (h_required h) (h_max_strain h) (h_ecc_tol h) in
    match create_harmonics_functions lum h with
    | (h, Err e) => (h, Err e)
    | (h, Ok _) => find_eccentric_transition jv h
    end.

(** An object before __init__ ran (L219 is the first assignment). *)
Definition no_harm : harm := mkHarm None (fun _ => 0%Z) (fun _ => 0%Z) None.
(** Successive assignments; a raised exception leaves the object in the state reached. *)
Definition assign_all (jv : Z -> num -> num) (lum : lum_info) (tols : list num) (h : harm) : harm * list (res unit) :=
  fold_left (fun acc tol => let '(h, rs) := acc in let '(h', r) := set_gw_lum_tol jv lum tol h in (h', rs ++ [r])%list)
            tols (h, []).
