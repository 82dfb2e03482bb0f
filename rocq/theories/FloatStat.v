(** FloatStat.v -- the decision whether a binary is stationary, in double precision (C118).

    As in Float.v, every operation rounds its result; one binary, SI values. *)
From Coq Require Import Reals ZArith List Bool.
From Verif Require Import Num Utils Float.
Import ListNotations.
Open Scope R_scope.

(** evol.py L651-652, the second term of [inner_part] in [evolve_f_orb_circ]; the arguments are f_orb_i, t_evol, ecc_i, m_c. *)
Definition shrink_ex : ex := (
  let t_evol := Inp 1 in let ecc_i := Inp 2 in let m_c := Inp 3 in
  Pow (Int 2) 32 3 * Pow (Con CPi) 8 3 * t_evol / (Int 5 * Pow (Con CC) 5 1) * Pow (Con CG * m_c) 5 3 * peters_f_of ecc_i)%ex.
(** evol.py L651-652, [inner_part]. *)
Definition inner_part_ex : ex := (Pow (Inp 0) (-8) 3 - shrink_ex)%ex.
(** evol.py L648-659, [evolve_f_orb_circ] for one binary: a negative [inner_part] leaves [merge_f]; 0 to a negative power is inf. *)
Definition evolve_f_computed (d : doubles) (f_orb_i t_evol ecc_i m_c merge_f : R) : num :=
  let inner_part := computed d (args [f_orb_i; t_evol; ecc_i; m_c]) inner_part_ex in
  if Rlt_dec inner_part 0 then Fin merge_f else if Rle_dec inner_part 0 then PInf else Fin (pow_ d inner_part (rnd d (-3 / 8))).
(** evol.py L708, [(f_orb_f - f_orb_i) / f_orb_i <= stat_tol]. *)
Definition changes_little (d : doubles) (f_orb_f f_orb_i stat_tol : R) : bool :=
  if Rle_dec (rnd d (rnd d (f_orb_f - f_orb_i) / f_orb_i)) stat_tol then true else false.
(** evol.py L705-709, [determine_stationarity] given the chirp mass, with the default [merge_f] of 1e9 Hz (L618); inf is above any tolerance. *)
Definition stationary_computed (d : doubles) (f_orb_i t_evol ecc_i m_c stat_tol : R) : bool :=
  match evolve_f_computed d f_orb_i t_evol ecc_i m_c 1000000000 with Fin f_orb_f => changes_little d f_orb_f f_orb_i stat_tol | _ => false end.
