(** UnitsSourceSpec.v -- vocabulary for the statements about units in source.py. *)
From Coq Require Import String Reals ZArith List Bool.
From Verif Require Import Num Np Utils Strain Psd Evol ScParams Source History Units UnitsSpec UnitsEvol UnitsEvolSpec UnitsPsd UnitsPsdSpec
  UnitsSource.
Import ListNotations.
Open Scope list_scope.
Open Scope R_scope.
Open Scope string_scope.

(** An array of quantities of dimension [d], in one unit, whose SI values are [x]. *)
Definition in_some_unit (d : dim) (v : list val) (x : list num) : Prop := exists u, unit_for d u /\ v = map (in_unit u) x.

(** A Python value: nothing, one quantity or an array of them; or plain numbers. *)
Definition same_arg (d : dim) (v : pyval val unit) (x : pyval num unit) : Prop :=
  match v, x with
  | PNone, PNone => True
  | PQScalar v _, PQScalar x _ => is_ d x v
  | PQArr v _, PQArr x _ => in_some_unit d v x
  | POther v, POther x => v = Pl x
  | PArr v, PArr x | PList v, PList x => v = map Pl x
  | _, _ => False
  end.
Definition same_time (v : tevol_q) (x : tevol) : Prop :=
  match v, x with
  | TNoneQ, TNone => True
  | TScalarQ v, TScalar x => is_ time_dim x v
  | TArrQ v, TArr x => in_some_unit time_dim v x
  | _, _ => False
  end.

(** The value of the parameter [k]: only the observation time and the arm length are quantities. *)
Definition same_pval (k : string) (v : pval_q) (x : pval) : Prop :=
  match v, x with
  | PStrQ s, PStr t => s = t
  | PNilQ, PNil => True
  | PBoolQ b, PBool c => b = c
  | PFunQ i, PFun j => i = j
  | PValQ v, PVal x => (k = "t_obs" /\ is_ time_dim x v) \/ (k = "L" /\ is_ length_dim x v)
  | _, _ => False
  end.
Definition same_params : dict_q -> dict -> Prop :=
  Forall2 (fun a b => fst a = fst b /\ same_pval (fst b) (snd a) (snd b)).
Definition same_args (a : snr_args_q) (b : snr_args) : Prop :=
  same_pval "t_obs" (aq_t_obs a) (a_t_obs b) /\ same_pval "instrument" (aq_instrument a) (a_instrument b) /\
  same_pval "custom_psd" (aq_custom a) (a_custom b) /\ same_pval "L" (aq_L a) (a_L b) /\
  same_pval "approximate_R" (aq_approximate_R a) (a_approximate_R b) /\
  same_pval "confusion_noise" (aq_confusion a) (a_confusion b).

(** The outside world: the user's functions compute the same whatever the units of their arguments, and answer in 1/Hz. *)
Definition same_world (x : ext_q) (y : ext) : Prop :=
  x_si x = y /\
  (forall i fq f Lq L tq t a c c', all_is frequency_dim fq f -> auto_is length_dim Lq L -> auto_is time_dim tq t -> same_noise c c' ->
     xq_psd_fun x i fq Lq tq a c = rmap (map (in_unit per_hertz)) (x_psd_fun y i f L t a c')) /\
  (forall i, same_noise (CFunQ (xq_conf_fun x i)) (CFun (x_conf_fun y i))).

(** Two objects with the same physical content: the first holds quantities, the second SI values. *)
Record same_source (q : src_q) (s : src) : Prop := mkSame {
  ss_class : q_class q = s_class s;
  ss_m_1 : in_some_unit mass_dim (q_m_1 q) (s_m_1 s);
  ss_m_2 : in_some_unit mass_dim (q_m_2 q) (s_m_2 s);
  ss_dist : in_some_unit length_dim (q_dist q) (s_dist s);
  ss_f_orb : in_some_unit frequency_dim (q_f_orb q) (s_f_orb s);
  ss_ecc : q_ecc q = s_ecc s;
  ss_weights : q_weights q = s_weights s;
  ss_sky : sky_reads (mkSkyQ (q_position q) (q_polarisation q) (q_inclination q))
                     (mkSky (s_position s) (s_polarisation s) (s_inclination s));
  ss_t_merge : q_t_merge q = option_map (map (in_unit gigayear)) (s_t_merge s);
  ss_snr : q_snr q = s_snr s;
  ss_max_snr_harmonic : q_max_snr_harmonic q = s_max_snr_harmonic s;
  ss_merged : q_merged q = s_merged s;
  ss_stat_tol : q_stat_tol q = s_stat_tol s;
  ss_n_proc : q_n_proc q = s_n_proc s;
  ss_harm : q_harm q = s_harm s;
  ss_g : q_g q = s_g s;
  ss_interpolate_sc : q_interpolate_sc q = s_interpolate_sc s;
  ss_sc : q_sc q = option_map UnitsSnr.source_curve_q (s_sc s);
  ss_params : same_params (q_params q) (s_params s) }.

(** The same arguments of the constructor. *)
Record same_init (i : init_args_q) (j : init_args) : Prop := mkSameInit {
  si_m_1 : same_arg mass_dim (iq_m_1 i) (i_m_1 j);
  si_m_2 : same_arg mass_dim (iq_m_2 i) (i_m_2 j);
  si_ecc : iq_ecc i = i_ecc j;
  si_dist : same_arg length_dim (iq_dist i) (i_dist j);
  si_n_proc : iq_n_proc i = i_n_proc j;
  si_f_orb : same_arg frequency_dim (iq_f_orb i) (i_f_orb j);
  si_a : same_arg length_dim (iq_a i) (i_a j);
  si_sky : sky_reads (mkSkyQ (iq_position i) (iq_polarisation i) (iq_inclination i))
                     (mkSky (i_position j) (i_polarisation j) (i_inclination j));
  si_weights : iq_weights i = i_weights j;
  si_gw_lum_tol : iq_gw_lum_tol i = i_gw_lum_tol j;
  si_stat_tol : iq_stat_tol i = i_stat_tol j;
  si_interpolate_g : iq_interpolate_g i = i_interpolate_g j;
  si_interpolate_sc : iq_interpolate_sc i = i_interpolate_sc j;
  si_sc_params : same_params (iq_sc_params i) (i_sc_params j) }.

(** The same call. *)
Definition same_op (o : op_q) (p : op) : Prop :=
  match o, p with
  | SetItemQ k v, SetItem l x => k = l /\ same_pval k v x
  | UpdateQ d, Update e | AssignQ d, Assign e | IorQ d, Ior e => same_params d e
  | SetDefaultQ k v, SetDefault l x => k = l /\ same_pval k v x
  | RemoveQ, Remove | SetScQ, SetSc => True
  | ToggleQ b, Toggle c | SetGQ b, SetG c => b = c
  | ToleranceQ t, Tolerance u => t = u
  | SetAQ a, SetA b => same_arg length_dim a b
  | SnrQ a n w, Snr b m z | SnrEvolvingQ a n w, SnrEvolving b m z => same_args a b /\ n = m /\ w = z
  | SnrStationaryQ a w, SnrStationary b z => same_args a b /\ w = z
  | MergerTimeQ s w e, MergerTime t z f => s = t /\ w = z /\ e = f
  | EvolveQ t, Evolve u => same_time t u
  | _, _ => False
  end.

(** A method on quantities and the same method in SI: the same effect on the object, and related results (or the same error). *)
Definition agree {A B} (R : A -> B -> Prop) (m : MQ A) (n : M B) : Prop :=
  forall q s, same_source q s -> same_source (fst (m q)) (fst (n s)) /\ res_rel R (snd (m q)) (snd (n s)).

(** A frequency in Hz. *)
Definition hertzed (v : val) : Prop := exists x, v = Qy x hertz.
(** The masses and distances are untouched; the frequencies are untouched or in Hz. *)
Definition kept (q q' : src_q) : Prop :=
  q_m_1 q' = q_m_1 q /\ q_m_2 q' = q_m_2 q /\ q_dist q' = q_dist q /\ q_position q' = q_position q /\ q_inclination q' = q_inclination q /\
  q_polarisation q' = q_polarisation q /\ (q_f_orb q' = q_f_orb q \/ List.Forall hertzed (q_f_orb q')).

(** ** Wrong dimensions *)

(** Evolution times that are no times, for [n] binaries. *)
Definition wrong_times (n : nat) (t : tevol_q) : Prop :=
  match t with
  | TScalarQ v => wrong time_dim v
  | TArrQ (v :: l) => wrong time_dim v /\ length (v :: l) = n
  | _ => False
  end.

(** A plain number, or an array with one, for an evolution time. *)
Definition without_unit (t : tevol_q) : Prop :=
  match t with TScalarQ (Pl _) => True | TArrQ l => exists x, In (Pl x) l | _ => False end.

(** At least one binary, all arrays of one length. *)
Definition sized (q : src_q) : Prop :=
  (0 < n_sources_q q)%nat /\ length (q_m_2 q) = n_sources_q q /\ length (q_f_orb q) = n_sources_q q /\ length (q_ecc q) = n_sources_q q.

(** Only the parameters and the sensitivity curve of the object may have changed. *)
Definition same_but_curve (q q' : src_q) : Prop := exists isc sc d, q' = setq_curve isc sc d q.

(** The object with other masses, distances and frequencies; with other distances. *)
Definition with_arrays (m1 m2 d f : list val) (q : src_q) : src_q :=
  mkSrcQ (q_class q) m1 m2 d f (q_ecc q) (q_weights q) (q_position q) (q_inclination q) (q_polarisation q) (q_t_merge q) (q_snr q)
         (q_max_snr_harmonic q) (q_merged q) (q_stat_tol q) (q_n_proc q) (q_harm q) (q_g q) (q_interpolate_sc q) (q_sc q) (q_params q).
Definition with_dist (d : list val) (q : src_q) : src_q := with_arrays (q_m_1 q) (q_m_2 q) d (q_f_orb q) q.

(** A world in which every custom curve answers [x], in the unit [u], and the parameters that ask for custom curve [i]. *)
Definition constant_curve (y : ext) (x : R) (u : unit_) : ext_q := mkExtQ y (fun _ f _ _ _ _ => Ok (map (fun _ => Qy (Fin x) u) f)) (fun _ _ _ => Ok []).
Definition custom_q (i : nat) : dict_q := put_q "instrument" (PStrQ "custom") (put_q "custom_psd" (PFunQ i) default_params_q).
