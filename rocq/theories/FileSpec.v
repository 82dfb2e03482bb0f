(** FileSpec.v -- vocabulary for saving and loading a collection (C59-C61). *)
From Coq Require Import String Reals ZArith List Bool Permutation.
From Verif Require Import Num Np Utils Strain Psd Snr Evol Harmonics ScParams Source Index SourceSpec IndexSpec History CurveSpec InitSpec MethodSpec FileIO Verification.
Import ListNotations.
Open Scope R_scope.

(** The parameters with custom functions replaced by defaults. *)
Definition without_functions (d : dict) : dict := map (fun kv => (fst kv, match snd kv with PFun _ => default_of (fst kv) | v => v end)) d.
Definition no_function (d : dict) : Prop := forall k i, ~ In (k, PFun i) d.
(** Nobody uses the text "__none__" as a parameter. *)
Definition ordinary (d : dict) : Prop := forall k, ~ In (k, PStr "__none__") d.
(** The name of every unit in use is understood by astropy and no unit has size 0; h5py lists each attribute once. *)
Definition units_parse (w : io) : Prop := forall k, exists r, io_parse w (io_unit w k) = Some r /\ 0 < r.
Definition lists_attributes (w : io) : Prop := forall l, Permutation (io_order w l) l.
(** An object as the constructor and its methods leave it: one entry per source in every array, the documented parameters,
    no sky angles without a position and only circular sources with one; if [strict], harmonics that belong to the
    tolerance. *)
Record kept (strict : bool) (x : ext) (s : src) (n : nat) : Prop := {
  so_aligned : aligned s n;
  so_keys : keys (s_params s) = documented;
  kept_harm : strict = true -> exists tol, h_gw_lum_tol (s_harm s) = Some tol /\ set_gw_lum_tol (x_jv x) (x_lum x) tol no_harm = (s_harm s, Ok tt);
  so_g : s_g s = None \/ s_g s = Some (x_g x);
  so_sky : (s_position s = None /\ s_inclination s = None /\ s_polarisation s = None) \/
           (s_position s <> None /\ s_inclination s <> None /\ s_polarisation s <> None /\ forall e, In e (s_ecc s) -> e = Fin 0) }.
Notation sound := (kept true).
(** [s2] holds what [s] holds, apart from the curve and its parameters. *)
Definition same_contents (s s2 : src) : Prop :=
  same_sources s s2 /\ s_snr s2 = s_snr s /\ s_max_snr_harmonic s2 = s_max_snr_harmonic s.
(** What a user may do without leaving documented use: no dict methods inherited unchanged (C51) and no semi-major axes
    whose number is not that of the sources (C66).  Any of them may raise. *)
Definition ordinary_op (n : nat) (o : op) : bool :=
  match o with
  | Ior _ | SetDefault _ _ => false
  | SetA a => match a with PQArr l _ => (length l =? n)%nat | _ => true end
  | _ => true
  end.
(** The optional arguments of the constructor have one entry per source. *)
Definition one_per_source (x : ext) (i : init_args) : Prop :=
  let n := length (entries (i_m_1 i)) in
  (i_weights i <> PNone -> length (entries (i_weights i)) = n) /\
  (forall p, i_position i = Some p -> length p = n /\ length (match i_inclination i with Some l => l | None => x_inc x n end) = n /\
     length (match i_polarisation i with Some l => l | None => x_pol x n end) = n).
(** The table of verification binaries has one entry per source in every column. *)
Definition whole_table (x : ext) (t : vtable) (n : nat) : Prop :=
  length (vt_m_1 t) = n /\ length (vt_i t) = n /\ length (vt_l_gal t) = n /\ length (vt_b_gal t) = n /\ length (x_pol x n) = n.
(** Collections of n sources a user can get hold of: by construction (VerificationBinaries() included), by any operation on one, by indexing one and as a
    new collection from evolve_sources.  Operations may raise; if [strict], assignments of gw_lum_tol may not (a failed one
    leaves the refused tolerance behind). *)
Inductive reachable (strict : bool) (x : ext) : src -> nat -> Prop :=
| reach_new k i s : init x k i = Ok s -> one_per_source x i -> reachable strict x s (length (entries (i_m_1 i)))
| reach_verification ecl t b n : verification_binaries x ecl t = Ok b -> whole_table x t n -> reachable strict x (vb_source b) n
| reach_step o s n : reachable strict x s n -> ordinary_op n o = true -> (forall tol, o = Tolerance tol -> strict = true -> snd (step x o s) = Ok tt) ->
    reachable strict x (fst (step x o s)) n
| reach_index ind s n s2 : reachable strict x s n -> getitem ind s = Ok s2 -> reachable strict x s2 (n_sources s2)
| reach_evolve t s n s2 : reachable strict x s n -> snd (evolve_new x t s) = Ok s2 -> reachable strict x s2 n
| reach_evolved t s n : reachable strict x s n -> reachable strict x (fst (evolve_new x t s)) n.
(** A complete file with the sources [s]. *)
Definition holds_all (w : io) (x : ext) (f : node) (s : src) : Prop :=
  exists h s2 ws, f = File h /\ load w x KSource h None None None = Ok (s2, ws) /\ same_contents s s2 /\ s_params s2 = without_functions (s_params s) /\ in_step x s2.
