(** EvolveSpec.v -- vocabulary for merger times and evolution of a collection (C62-C64, C67, C83). *)
From Coq Require Import String Reals ZArith List Bool.
From Verif Require Import Num Np Utils Spec Evol EvolSpec Strain StrainSpec SnrSpec Harmonics ScParams Source Index SourceSpec MethodSpec.
Import ListNotations.
Open Scope R_scope.

(** The time to merger of source [r] alone, by evol.get_t_merge_ecc; 0 for a merged source. *)
Definition merger_time (x : ext) (exact : bool) (r : row) (t : num) : Prop :=
  if r_merged r then t = Fin 0
  else get_t_merge_ecc_sc (x_quad x) (r_e r) None (Some (r_f r)) None (Some (r_m1 r)) (Some (r_m2 r)) small_e_tol_default large_e_tol_default exact = Ok t.
(** Eccentricities of the sources that have not merged are in [0, 1]. *)
Definition bound (xs : list row) : Prop := forall r, In r xs -> r_merged r = false -> exists e, r_e r = Fin e /\ 0 <= e <= 1.
(** The stored merger time of source [r] of [s], or the one to be computed. *)
Definition merges_at (x : ext) (s : src) (r : row) (t : num) : Prop :=
  match s_t_merge s with Some _ => t = r_tm r | None => merger_time x true r t end.
(** The times to evolve: one for all, or one per source. *)
Definition evolution_times (t_evol : tevol) (n : nat) (ts : list R) : Prop :=
  length ts = n /\ match t_evol with
                   | TScalar t => forall u, In u ts -> t = Fin u
                   | TArr l => l = map Fin ts
                   | TNone => False
                   end.
(** Source [r] after [T] seconds: at merger, 100 Hz and circular; else as evol_circ or evol_ecc evolve that source alone
    (start and end of the evolution). *)
Inductive evolves_to (x : ext) (T tm : R) (r : row) : num -> num -> bool -> Prop :=
| has_merged : tm <= T -> evolves_to x T tm r (Fin 0) (Fin 100) true
| stays_circular f0 f : T < tm -> r_e r = Fin 0 ->
    evol_circ (x_quad x) (TScalar (Fin T)) 2 SNone PNone (PQScalar (r_m1 r) tt) (PQScalar (r_m2 r) tt) PNone (PQScalar (r_f r) tt) ["f_orb"%string] = Ok (Single (E1 [f0; f])) ->
    evolves_to x T tm r (Fin 0) f false
| stays_eccentric e0 e f0 f tb ts : T < tm -> r_e r <> Fin 0 ->
    evol_ecc (x_quad x) (x_odeint x) (x_sched x 1) (POther (r_e r)) (TScalar (Fin T)) 2 SNone PNone (PQScalar (r_m1 r) tt) (PQScalar (r_m2 r) tt) PNone (PQScalar (r_f r) tt)
      ["ecc"%string; "f_orb"%string] 1 false false tb None = Ok (Many [E1 [e0; e]; E1 [f0; f]], ts) ->
    evolves_to x T tm r e f false.
(** Two objects agree on everything that an evolution does not concern. *)
Definition same_but_orbit (s s' : src) : Prop :=
  s_m_1 s' = s_m_1 s /\ s_m_2 s' = s_m_2 s /\ s_dist s' = s_dist s /\ s_weights s' = s_weights s /\ s_position s' = s_position s /\
  s_inclination s' = s_inclination s /\ s_polarisation s' = s_polarisation s /\ s_snr s' = s_snr s /\ s_max_snr_harmonic s' = s_max_snr_harmonic s /\
  same_settings s s'.
(** Calling evolve_sources several times, the first error stops. *)
Fixpoint evolve_all (x : ext) (tes : list tevol) (s : src) : src * res unit :=
  match tes with
  | [] => (s, Ok tt)
  | te :: rest => match evolve_sources x te s with (s', Ok _) => evolve_all x rest s' | (s', Err e) => (s', Err e) end
  end.
(** The times of a history of calls, by source: each non-negative. *)
Definition history_times (n : nat) (tes : list tevol) (Ts : list (nat -> R)) : Prop :=
  Forall2 (fun te T => evolution_times te n (map T (seq 0 n)) /\ forall i, (i < n)%nat -> 0 <= T i) tes Ts.
Definition total (Ts : list (nat -> R)) (i : nat) : R := Rsum (map (fun T => T i) Ts).
(** A circular binary and its time to merger. *)
Definition circular_binary (x : ext) (s : src) (r : row) (tm : R) : Prop :=
  merges_at x s r (Fin tm) /\
  (r_merged r = true /\ tm = 0 \/
   r_merged r = false /\ r_e r = Fin 0 /\ exists m1 m2 f, r_m1 r = Fin m1 /\ r_m2 r = Fin m2 /\ r_f r = Fin f /\ 0 < m1 /\ 0 < m2 /\ 0 < f /\
     get_t_merge_circ_sc None (Some (Fin m1)) (Some (Fin m2)) None (Some (Fin f)) = Ok (Fin tm)).
(** After [t] seconds the separation of the binary is not exactly the marker 1e-30 AU that evol_circ writes for merged
    binaries. *)
Definition unmarked (x : ext) (r : row) (t : R) : Prop :=
  forall m1 m2 f, r_m1 r = Fin m1 -> r_m2 r = Fin m2 -> r_f r = Fin f ->
  circ_call_freq (x_quad x) m1 m2 f 2 [Fin t] ["a"%string] <> Ok (Single (E1 [Fin tiny])).
(** The tables of harmonics of [s] are those of its tolerance (they are whenever the last assignment succeeded, C55). *)
Definition own_harmonics (x : ext) (s : src) : Prop := exists tol, set_gw_lum_tol (x_jv x) (x_lum x) tol no_harm = (s_harm s, Ok tt).
(** The object [new] holds the same sources as [s], with the same angles, tolerances, tables, curve and parameters. *)
Definition twin (s new : src) : Prop :=
  s_m_1 new = s_m_1 s /\ s_m_2 new = s_m_2 s /\ s_dist new = s_dist s /\ s_position new = s_position s /\
  s_inclination new = s_inclination s /\ s_polarisation new = s_polarisation s /\ s_stat_tol new = s_stat_tol s /\ s_n_proc new = s_n_proc s /\
  s_harm new = s_harm s /\ s_g new = s_g s /\ s_sc new = s_sc s /\ s_params new = s_params s.
(** The times to merger of the sources, by position. *)
Definition clock (x : ext) (s : src) (xs : list row) (tm : nat -> R) : Prop := forall i r, nth_error xs i = Some r -> merges_at x s r (Fin (tm i)).
