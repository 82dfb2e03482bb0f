(** Properties C46-C49 and C65-C69: the methods of a Source. *)
From Coq Require Import String Reals ZArith List Lra Lia Bool.
From Verif Require Import Num Np Utils UtilsFacts Spec Strain StrainSpec Psd Snr SnrSpec Evol EvolSpec Harmonics HarmSpec HarmThms ScParams Source Index SourceSpec IndexSpec MethodSpec CurveSpec
  SourceFacts SourceThms SourceThms2 InitSpec InitFacts EvolveSpec EvolveFacts Toy Toy2 Toy3.
Import ListNotations.
Open Scope R_scope.

(** ** C46: get_snr handles every selected inspiralling source exactly once *)
(** Entry by entry: the SNR of each selected source that has not merged is what the one function of snr.py responsible for it returns for this source alone; 0 for the others. *)
Theorem C46_source : forall x s xs a t n which,
  computable x s xs a t n -> s_class s = KSource \/ s_class s = KVerification -> fits which (length xs) ->
  exists s' v sc kw, get_snr x a n which s = (s', Ok v) /\ length v = length xs /\ s_snr s' = Some v /\ same_sources s s' /\
    curve_in_use x s (used a s) sc /\ kw_of x (params_of (used a s)) = Ok kw /\
    forall i r, nth_error xs i = Some r -> exists vi, nth_error v i = Some vi /\
      if selected which i && negb (r_merged r)
      then exists h, source_snr x s sc kw t n r vi h /\ stored 0%Z (s_max_snr_harmonic s') i h
      else vi = Fin 0 /\ exists h, stored 0%Z (s_max_snr_harmonic s) i h /\ stored 0%Z (s_max_snr_harmonic s') i h.
Proof. exact @snr_thm. Qed.
Print Assumptions C46_source.
(** The computation responsible for a source, and its result, are unique. *)
Theorem C46_unique : forall x s sc kw t n r v h v' h',
  source_snr x s sc kw t n r v h -> source_snr x s sc kw t n r v' h' -> v = v' /\ h = h'.
Proof. exact @snr_unique. Qed.
Print Assumptions C46_unique.
(** All classes of collection: Source, Stationary, Evolving, VerificationBinaries. *)
Theorem C46_all_classes : forall x s xs a t n,
  computable x s xs (class_args (s_class s) a) t n ->
  exists s' v sc kw, get_snr x a n None s = (s', Ok v) /\ s_snr s' = Some v /\ same_sources s s' /\
    curve_in_use x s (used (class_args (s_class s) a) s) sc /\ kw_of x (params_of (used (class_args (s_class s) a) s)) = Ok kw /\
    Forall2 (fun r vi => if r_merged r then vi = Fin 0 else exists h, class_snr x s sc kw t n r vi h) xs v.
Proof. exact @all_thm. Qed.
Print Assumptions C46_all_classes.
(** Three sources, circular and eccentric. *)
Example C46_satisfiable : computable x_toy (toy_of [b1; b2; b3]) [b1; b2; b3] no_args toy_time 5 /\ fits (Some [true; false; true]) 3 /\ s_class (toy_of [b1; b2; b3]) = KSource.
Proof. split; [apply toy_computable; [lia|apply toy_of_like|apply toy_collection|apply toy_ecc]|]. split; reflexivity. Qed.

(** ** C47: the SNR of a source does not depend on the others *)
(** Subset first, or SNR first: the same values. *)
Theorem C47_subset : forall x s xs a t n ind sub,
  computable x s xs (class_args (s_class s) a) t n -> getitem ind s = Ok sub ->
  exists js s' v sub' w, selects (length xs) ind js /\ get_snr x a n None s = (s', Ok v) /\ get_snr x a n None sub = (sub', Ok w) /\ picked js v w.
Proof. exact @subset_thm. Qed.
Print Assumptions C47_subset.
Example C47_satisfiable : computable x_toy (toy_of [b1; b2; b3]) [b1; b2; b3] (class_args KSource no_args) toy_time 5 /\
  exists sub, getitem (IMask [false; true; true]) (toy_of [b1; b2; b3]) = Ok sub.
Proof. split; [apply toy_computable; [lia|apply toy_of_like|apply toy_collection|apply toy_ecc]|]. eexists. reflexivity. Qed.

(** ** C48: one row per selected source, in order; 0 for merged sources *)
Theorem C48_snr_stationary : forall x s xs a t n which,
  computable x s xs a t n -> fits which (length xs) ->
  exists s' v sc kw, get_snr_stationary x a which s = (s', Ok v) /\ curve_in_use x s (used a s) sc /\ kw_of x (params_of (used a s)) = Ok kw /\
    method_result s xs which (stationary_snr x s sc kw t) s' v.
Proof. exact @stationary_thm. Qed.
Print Assumptions C48_snr_stationary.
Theorem C48_snr_evolving : forall x s xs a t n which,
  computable x s xs a t n -> fits which (length xs) ->
  exists s' v sc kw, get_snr_evolving x a n which s = (s', Ok v) /\ curve_in_use x s (used a s) sc /\ kw_of x (params_of (used a s)) = Ok kw /\
    method_result s xs which (evolving_snr x s sc kw t n) s' v.
Proof. exact @evolving_thm. Qed.
Print Assumptions C48_snr_evolving.
Theorem C48_h_0_n : forall x s xs h ns which,
  collection s xs -> fits which (length xs) -> harmonics_list h = Some ns -> List.Forall (fun k => (1 <= k)%Z) ns ->
  exists rows, get_h_0_n x h which s = Ok rows /\ strain_rows h_0_n x s xs which ns rows.
Proof. exact @h_0_n_thm. Qed.
Print Assumptions C48_h_0_n.
Theorem C48_h_c_n : forall x s xs h ns which,
  collection s xs -> fits which (length xs) -> harmonics_list h = Some ns -> List.Forall (fun k => (1 <= k)%Z) ns ->
  exists rows, get_h_c_n x h which s = Ok rows /\ strain_rows h_c_n x s xs which ns rows.
Proof. exact @h_c_n_thm. Qed.
Print Assumptions C48_h_c_n.
(** A numpy integer is rejected where a Python integer is accepted. *)
Theorem C48_np_integer_refuted : forall x n which s,
  get_h_0_n x (HNpInt n) which s = Err TypeError /\ get_h_c_n x (HNpInt n) which s = Err TypeError.
Proof. exact @np_int_thm. Qed.
Print Assumptions C48_np_integer_refuted.
Example C48_satisfiable : collection (toy_of [b1; b2; b3]) [b1; b2; b3] /\ harmonics_list (HList [1; 2; 3]%Z) = Some [1; 2; 3]%Z /\
  List.Forall (fun k => (1 <= k)%Z) [1; 2; 3]%Z.
Proof. split; [apply toy_collection|]. split; [reflexivity|]. repeat constructor; lia. Qed.

(** ** C49: SNRs of a subset leave the stored SNRs of the other sources alone *)
(** True of get_snr_stationary and get_snr_evolving: method_result in C48 and C49_others_partial.  False of get_snr, which stores 0 for every source that is not selected. *)
Theorem C49_get_snr_refuted : forall x s xs a t n which i r s' v,
  computable x s xs a t n -> s_class s = KSource \/ s_class s = KVerification -> fits which (length xs) ->
  get_snr x a n which s = (s', Ok v) -> nth_error xs i = Some r -> selected which i = false -> stored (Fin 0) (s_snr s') i (Fin 0).
Proof. exact @zeroed_thm. Qed.
Print Assumptions C49_get_snr_refuted.
(** A history where a positive stored SNR is lost. *)
Theorem C49_history_refuted : exists s0 s1 v1 s2 v2 y,
  init x_toy KSource (toy_args [Fin 2e30; Fin 3e30] [Fin 1e30; Fin 1e30] [Fin 0; Fin 0] [Fin 1e20; Fin 2e20] [Fin 1e-3; Fin 2e-3] false (custom_params 0)) = Ok s0 /\
  get_snr_stationary x_toy no_args None s0 = (s1, Ok v1) /\ get_snr x_toy no_args 1 (Some [true; false]) s1 = (s2, Ok v2) /\
  stored (Fin 0) (s_snr s1) 1 (Fin y) /\ 0 < y /\ stored (Fin 0) (s_snr s2) 1 (Fin 0).
Proof. exact @zeroed_history. Qed.
Print Assumptions C49_history_refuted.
(** get_snr_stationary and get_snr_evolving keep what is stored for the other sources. *)
Theorem C49_others_partial : forall x s xs a t n which i r,
  computable x s xs a t n -> fits which (length xs) -> nth_error xs i = Some r -> selected which i && negb (r_merged r) = false ->
  kept s (fst (get_snr_stationary x a which s)) i /\ kept s (fst (get_snr_evolving x a n which s)) i.
Proof. exact @others_thm. Qed.
Print Assumptions C49_others_partial.
(** ** C65: construction *)
(** What the constructor documents, and what it needs in addition, is exactly what it accepts; then all arrays have one entry per source. *)
Theorem C65_accepts : forall x k i,
  documented_input i -> usable_input i -> settings_ok x i -> exists s, init x k i = Ok s.
Proof. exact @accepts_thm. Qed.
Print Assumptions C65_accepts.
Theorem C65_only : forall x k i s,
  init x k i = Ok s -> documented_input i /\ usable_input i /\ settings_ok x i.
Proof. exact @only_thm. Qed.
Print Assumptions C65_only.
Theorem C65_lengths : forall x k i s,
  init x k i = Ok s -> let n := length (entries (i_m_1 i)) in
  length (s_m_1 s) = n /\ length (s_m_2 s) = n /\ length (s_dist s) = n /\ length (s_f_orb s) = n /\ length (s_ecc s) = n /\ length (s_merged s) = n.
Proof. exact @lengths_thm. Qed.
Print Assumptions C65_lengths.
(** The documented errors. *)
Theorem C65_no_frequency : forall x k i,
  i_f_orb i = PNone -> i_a i = PNone -> init x k i = Err ValueError.
Proof. exact @no_frequency_thm. Qed.
Print Assumptions C65_no_frequency.
Theorem C65_sky_without_position : forall x k i,
  i_position i = None -> i_inclination i <> None \/ i_polarisation i <> None -> init x k i = Err ValueError.
Proof. exact @sky_without_position_thm. Qed.
Print Assumptions C65_sky_without_position.
Theorem C65_eccentric_position : forall x k i e,
  i_position i <> None -> In e (entries (i_ecc i)) -> e <> Fin 0 -> is_array (i_m_1 i) -> init x k i = Err ValueError.
Proof. exact @eccentric_position_thm. Qed.
Print Assumptions C65_eccentric_position.
Theorem C65_missing_units : forall x k i,
  i_f_orb i <> PNone -> i_position i = None -> i_inclination i = None -> i_polarisation i = None ->
  ~ (has_unit (i_m_1 i) /\ has_unit (i_m_2 i) /\ has_unit (i_dist i) /\ has_unit (i_f_orb i)) -> init x k i = Err AssertionError.
Proof. exact @missing_units_thm. Qed.
Print Assumptions C65_missing_units.
Theorem C65_different_lengths : forall x k i,
  i_f_orb i <> PNone -> i_position i = None -> i_inclination i = None -> i_polarisation i = None -> i_ecc i <> PNone ->
  has_unit (i_m_1 i) /\ has_unit (i_m_2 i) /\ has_unit (i_dist i) /\ has_unit (i_f_orb i) ->
  ~ (length (entries (i_m_2 i)) = length (entries (i_m_1 i)) /\ length (entries (i_dist i)) = length (entries (i_m_1 i)) /\
     length (entries (i_ecc i)) = length (entries (i_m_1 i)) /\ length (entries (i_f_orb i)) = length (entries (i_m_1 i))) -> init x k i = Err ValueError.
Proof. exact @different_lengths_thm. Qed.
Print Assumptions C65_different_lengths.
(** With weights and angles of the right length the result is a collection of sources that have not merged. *)
Theorem C65_collection : forall x k i s,
  init x k i = Ok s -> extras_fit x i ->
  exists xs, collection s xs /\ length xs = length (entries (i_m_1 i)) /\ s_t_merge s = None /\ s_snr s = None /\ s_max_snr_harmonic s = None /\ forall r, In r xs -> r_merged r = false.
Proof. exact @collection_thm. Qed.
Print Assumptions C65_collection.
(** The length of the weights is not checked. *)
Theorem C65_weights_refuted : forall x k i s w,
  init x k i = Ok s -> exists s', init x k (mkInit (i_m_1 i) (i_m_2 i) (i_ecc i) (i_dist i) (i_n_proc i) (i_f_orb i) (i_a i) (i_position i)
    (i_polarisation i) (i_inclination i) (PArr w) (i_gw_lum_tol i) (i_stat_tol i) (i_interpolate_g i) (i_interpolate_sc i) (i_sc_params i)) = Ok s' /\ s_weights s' = Some w.
Proof. exact @weights_thm. Qed.
Print Assumptions C65_weights_refuted.
Example C65_satisfiable : let i := toy_args [Fin 1; Fin 2] [Fin 1; Fin 1] [Fin 0; Fin (1/2)] [Fin 3; Fin 4] [Fin 5; Fin 6] false [] in
  documented_input i /\ usable_input i /\ settings_ok x_toy i /\ extras_fit x_toy i.
Proof.
  cbv zeta. destruct (only_thm x_toy KSource _ _ (toy_init KSource [Fin 1; Fin 2] [Fin 1; Fin 1] [Fin 0; Fin (1/2)] [Fin 3; Fin 4] [Fin 5; Fin 6] false [] default_params None eq_refl eq_refl eq_refl eq_refl eq_refl eq_refl)) as (A & B & C).
  split; [exact A|]. split; [exact B|]. split; [exact C|]. split; [intros H; now elim H|intros p H; discriminate H].
Qed.

(** ** C66: the semi-major axis *)
(** Setting and reading back; the frequency follows Kepler's third law. *)
Theorem C66_set_get : forall s bs,
  (forall b, In b bs -> kepler_binary b) -> s_m_1 s = column b_m1 bs -> s_m_2 s = column b_m2 bs ->
  exists s', a_setter (PQArr (column b_a bs) tt) s = (s', Ok tt) /\ s_f_orb s' = column b_f bs /\ a_getter s' = Ok (column b_a bs) /\ s' = set_f_orb (column b_f bs) s.
Proof. exact @set_a_thm. Qed.
Print Assumptions C66_set_get.
Theorem C66_no_unit : forall s v,
  ~ has_unit v -> a_setter v s = (s, Err AssertionError).
Proof. exact @set_a_units_thm. Qed.
Print Assumptions C66_no_unit.
Theorem C66_construct : forall x k i bs,
  (forall b, In b bs -> kepler_binary b) -> i_m_1 i = PQArr (column b_m1 bs) tt -> i_m_2 i = PQArr (column b_m2 bs) tt ->
  i_f_orb i = PNone -> i_a i = PQArr (column b_a bs) tt ->
  init x k i = init x k (mkInit (i_m_1 i) (i_m_2 i) (i_ecc i) (i_dist i) (i_n_proc i) (PQArr (column b_f bs) tt) PNone (i_position i)
    (i_polarisation i) (i_inclination i) (i_weights i) (i_gw_lum_tol i) (i_stat_tol i) (i_interpolate_g i) (i_interpolate_sc i) (i_sc_params i)).
Proof. exact @init_a_thm. Qed.
Print Assumptions C66_construct.
(** The number of separations is not checked. *)
Theorem C66_length_refuted : forall s m1 m2 a1 a2,
  s_m_1 s = [Fin m1] -> s_m_2 s = [Fin m2] ->
  exists s', a_setter (PQArr [Fin a1; Fin a2] tt) s = (s', Ok tt) /\ length (s_m_1 s') = 1%nat /\ length (s_f_orb s') = 2%nat.
Proof. exact @set_a_misaligned_thm. Qed.
Print Assumptions C66_length_refuted.
Example C66_satisfiable : exists b, kepler_binary b.
Proof.
  exists (mkBinary 1 1 (aR 1 1 1) 1). repeat split; cbn; try lra; try apply aR_pos. apply aR_kepler; lra.
Qed.

(** ** C67: get_merger_time *)
(** Not saved: exactly the selected sources, and the object is unchanged.  Saved: every source whatever was selected. *)
Theorem C67_selected : forall x s xs exact which,
  collection s xs -> bound xs -> fits which (length xs) ->
  exists v, get_merger_time x false which exact s = (s, Ok v) /\ Forall2 (merger_time x exact) (chosen which xs) v.
Proof. exact @merger_time_thm. Qed.
Print Assumptions C67_selected.
Theorem C67_saved : forall x s xs exact which,
  collection s xs -> bound xs ->
  exists v, get_merger_time x true which exact s = (set_t_merge (Some v) s, Ok v) /\ Forall2 (merger_time x exact) xs v.
Proof. exact @merger_time_saved_thm. Qed.
Print Assumptions C67_saved.
Example C67_satisfiable : collection (toy_of [b1; b3]) [b1; b3] /\ bound [b1; b3] /\ fits (Some [true; false]) 2.
Proof. split; [apply toy_collection|]. split; [|reflexivity]. intros r Hr _. apply toy_ecc. destruct Hr as [H|[H|[]]]; cbn; auto. Qed.

(** ** C68: source masks *)
Theorem C68_mask : forall s xs c st t_obs t tol,
  collection s xs -> c <> TriOther -> st <> TriOther -> h_ecc_tol (s_harm s) = Some tol -> mask_time s t_obs t ->
  exists mask, get_source_mask c st t_obs s = Ok mask /\
    Forall2 (fun r b => b = true <-> (c = TriTrue -> is_circular s r) /\ (c = TriFalse -> is_eccentric s r) /\
               (st = TriTrue -> is_stationary s t r true) /\ (st = TriFalse -> is_stationary s t r false)) xs mask.
Proof. exact @mask_thm. Qed.
Print Assumptions C68_mask.
(** Each condition and its opposite split sources with a numeric eccentricity. *)
Theorem C68_partition : forall s r t tol e,
  h_ecc_tol (s_harm s) = Some (Fin tol) -> r_e r = Fin e ->
  (is_circular s r \/ is_eccentric s r) /\ ~ (is_circular s r /\ is_eccentric s r) /\
  (is_stationary s t r true \/ is_stationary s t r false) /\ ~ (is_stationary s t r true /\ is_stationary s t r false).
Proof. exact @partition_thm. Qed.
Print Assumptions C68_partition.
Theorem C68_errors : forall s xs c st t_obs t tol,
  collection s xs -> h_ecc_tol (s_harm s) = Some tol -> mask_time s t_obs t ->
  c = TriOther \/ st = TriOther -> get_source_mask c st t_obs s = Err ValueError.
Proof. exact @mask_error_thm. Qed.
Print Assumptions C68_errors.
Example C68_satisfiable : collection (toy_of [b1; b3]) [b1; b3] /\ (exists tol, h_ecc_tol (s_harm (toy_of [b1; b3])) = Some (Fin tol)) /\ mask_time (toy_of [b1; b3]) (PVal (Fin 1)) 1.
Proof. split; [apply toy_collection|]. split; [destruct toy_tol as (t & E & _); exists t; exact E|]. now left. Qed.

(** ** C56: the edge *)
(** The transition eccentricity is the first one out of tolerance, and a source of exactly this eccentricity is treated as circular. *)
Theorem C56_edge_refuted : forall x (J : Z -> R -> R) s r tol e,
  (forall k y, x_jv x k (Fin y) = Fin (J k y)) -> set_gw_lum_tol (x_jv x) (x_lum x) (Fin tol) no_harm = (s_harm s, Ok tt) ->
  h_ecc_tol (s_harm s) = Some (Fin e) -> r_e r = Fin e -> is_circular s r /\ ~ within_tolerance (x_jv x) tol e.
Proof. exact @edge_thm. Qed.
Print Assumptions C56_edge_refuted.
Example C56_edge_satisfiable : exists e, (forall k y, x_jv x_toy k (Fin y) = Fin (J_toy k y)) /\ set_gw_lum_tol (x_jv x_toy) (x_lum x_toy) (Fin (1/20)) no_harm = (s_harm (toy_of [b1]), Ok tt) /\
  h_ecc_tol (s_harm (toy_of [b1])) = Some (Fin e).
Proof. destruct toy_tol as (t & E & _). exists t. split; [exact jv_toy_fin|]. split; [exact toy_h_ok|exact E]. Qed.

(** ** C69: stored SNRs and the state of the sources *)
(** Right after get_snr the stored SNRs are those of the sources, which the call did not change. *)
Theorem C69_fresh_partial : forall x s xs a t n,
  computable x s xs (class_args (s_class s) a) t n ->
  exists s' v sc kw, get_snr x a n None s = (s', Ok v) /\ s_snr s' = Some v /\ same_sources s s' /\
    curve_in_use x s (used (class_args (s_class s) a) s) sc /\ kw_of x (params_of (used (class_args (s_class s) a) s)) = Ok kw /\
    Forall2 (fun r vi => if r_merged r then vi = Fin 0 else exists h, class_snr x s sc kw t n r vi h) xs v.
Proof. exact @all_thm. Qed.
Print Assumptions C69_fresh_partial.
(** evolve_sources keeps the stored SNRs of the sources as they were: a merged source keeps a positive SNR, even after get_snr_stationary has returned 0 for it. *)
Theorem C69_stale_refuted : exists s0 s1 v1 te s2 s3 s4 y,
  init x_toy KSource (toy_args [Fin 2e30] [Fin 1e30] [Fin 0] [Fin 1e20] [Fin 1e-3] false (custom_params 0)) = Ok s0 /\
  get_snr_stationary x_toy no_args None s0 = (s1, Ok v1) /\ evolve_sources x_toy te s1 = (s2, Ok tt) /\
  0 < y /\ s_snr s2 = Some [Fin y] /\ get_snr x_toy no_args 1 None s2 = (s3, Ok [Fin 0]) /\
  get_snr_stationary x_toy no_args None s2 = (s4, Ok [Fin 0]) /\ s_snr s4 = Some [Fin y].
Proof. exact @stale_history. Qed.
Print Assumptions C69_stale_refuted.
