(** Verification.v -- model of the class VerificationBinaries, src/legwork/source.py L1620-1643 (SI values), and of the data file
    it reads, src/legwork/verification_binaries.npy. *)
From Coq Require Import String Reals ZArith List Bool.
From Verif Require Import Num Np Utils Psd Evol Harmonics ScParams Source.
Import ListNotations.
Open Scope R_scope.
Open Scope res_scope.

(** The dictionary in verification_binaries.npy: one array per key (quantities by their SI values, angles in radians). *)
Record vtable := mkVtable { vt_label : list string; vt_f_GW : list num; vt_snr : list num; vt_l_gal : list num; vt_b_gal : list num;
                            vt_m_1 : list num; vt_m_2 : list num; vt_i : list num; vt_dist : list num }.
(** The object: what it has as a Source, and its two further attributes. *)
Record vbinaries := mkVB { vb_source : src; vb_labels : list string; vb_true_snr : list num }.

(** L1629-1634, what is handed to Source.__init__ (the other arguments have their defaults).  [ecl] is SkyCoord.transform_to from
    Galactic longitude and latitude to ecliptic latitude and longitude (source.py L167); the check SkyCoord makes that l, b and
    distance have one shape is represented for l and b only (Source.v broadcasts positions and distances). *)
Definition vb_args (ecl : num -> num -> num * num) (t : vtable) : res init_args :=
  position <- bzip ecl (vt_l_gal t) (vt_b_gal t) ;;
  Ok (mkInit (PQArr (vt_m_1 t) tt) (PQArr (vt_m_2 t) tt) (PArr (np_repeat (Fin 0) (length (vt_m_1 t)))) (PQArr (vt_dist t) tt) 1
             (PQArr (map (fun f => ndiv f (Fin 2)) (vt_f_GW t)) tt) PNone (Some position) None (Some (vt_i t)) PNone
             (Fin (1/20)) (Fin (1/100)) false true []).
(** L1624-1639, [__init__]. *)
Definition verification_binaries (x : ext) (ecl : num -> num -> num * num) (t : vtable) : res vbinaries :=
  i <- vb_args ecl t ;;
  s <- init x KVerification i ;;
  Ok (mkVB (set_max_snr_harmonic (Some (np_repeat 2%Z (n_sources s))) s) (vt_label t) (vt_snr t)).
