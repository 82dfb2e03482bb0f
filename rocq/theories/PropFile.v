(** PropFile.v -- C59, C60, C61, C88: files, and what every collection satisfies. *)
From Coq Require Import String Reals ZArith List Lra Lia Bool Permutation.
From Verif Require Import Num NumFacts Np Utils Strain Psd Snr Evol Harmonics HarmThms ScParams Source Index SourceSpec IndexSpec History CurveSpec InitSpec MethodSpec
  FileIO FileSpec FileFacts ReachFacts FileNames FileThms Toy ToyFile.
Import ListNotations.
Open Scope R_scope.

(** ** C88: one entry per source *)
(** After any operations, whether they raised or not, and for subsets and evolved collections: every array has one entry per source. *)
Theorem C88_one_entry_per_source : forall x s n,
  reachable false x s n -> aligned s n /\ n_sources s = n.
Proof. exact @aligned_thm. Qed.
Print Assumptions C88_one_entry_per_source.
(** A subset of a collection after an assignment that raised. *)
Example C88_satisfiable : exists s, getitem (ISlice (Some 1%Z) None None) (fst (step x_toy (Tolerance (Fin 1)) (two KSource false None default_params))) = Ok s /\ reachable false x_toy s 1.
Proof.
  assert (R : reachable false x_toy (fst (step x_toy (Tolerance (Fin 1)) (two KSource false None default_params))) 2).
  { apply reach_step; [now apply (two_reachable false KSource false None [])|reflexivity|discriminate]. }
  destruct (toy_left KSource) as (h & H). rewrite H in *. eexists. split; [reflexivity|].
  refine (reach_index false x_toy (ISlice (Some 1%Z) None None) _ 2 _ R _). reflexivity.
Qed.

(** ** C59: saving and loading *)
(** A collection that was saved is loaded with the same contents; custom functions come back as defaults and the curve is the one of the parameters. *)
Theorem C59_round_trip : forall w x s n name ow d d2 ws,
  reachable true x s n -> units_parse w -> lists_attributes w -> ordinary (s_params s) -> s_class s <> KVerification ->
  (s_interpolate_sc s = true -> exists c, curve_of x (without_functions (s_params s)) = Ok c) ->
  save w name ow None s d = (d2, Ok ws) ->
  exists s2 ws2, from_file w x KSource name None None None d2 = Ok (s2, ws2) /\ same_contents s s2 /\ s_params s2 = without_functions (s_params s) /\ in_step x s2.
Proof. exact @round_trip_thm. Qed.
Print Assumptions C59_round_trip.
(** Without custom functions and with a curve in step with its parameters, the loaded object is the saved one; the only warning ever given is for the custom instrument without a function. *)
Theorem C59_exact : forall w x s n name ow d d2 ws,
  reachable true x s n -> units_parse w -> lists_attributes w -> ordinary (s_params s) -> s_class s <> KVerification ->
  no_function (s_params s) -> in_step x s -> save w name ow None s d = (d2, Ok ws) ->
  ws = [] /\ exists ws2, from_file w x KSource name None None None d2 = Ok (s, ws2) /\
    (ws2 = [] \/ ws2 = [CustomPsdMissing] /\ get_or_none "instrument" (s_params s) = PStr "custom" /\ get_or_none "custom_psd" (s_params s) = PNil).
Proof. exact @exact_thm. Qed.
Print Assumptions C59_exact.
(** from_file of a subclass, with settings given. *)
Theorem C59_overrides : forall w x s n name ow d d2 ws cls g i m,
  reachable true x s n -> units_parse w -> lists_attributes w -> ordinary (s_params s) -> cls = KStationary \/ cls = KEvolving ->
  (i = true -> exists c, curve_of x (without_functions (s_params s)) = Ok c) -> save w name ow None s d = (d2, Ok ws) ->
  exists s2 ws2, from_file w x cls name (Some g) (Some i) (Some m) d2 = Ok (s2, ws2) /\ s_class s2 = cls /\ s_n_proc s2 = m /\ s_interpolate_sc s2 = i /\
    s_g s2 = (if g then Some (x_g x) else None) /\ in_step x s2 /\
    s_m_1 s2 = s_m_1 s /\ s_m_2 s2 = s_m_2 s /\ s_dist s2 = s_dist s /\ s_f_orb s2 = s_f_orb s /\ s_ecc s2 = s_ecc s /\ s_snr s2 = s_snr s /\ s_merged s2 = s_merged s /\
    s_t_merge s2 = s_t_merge s.
Proof. exact @overrides_thm. Qed.
Print Assumptions C59_overrides.
(** save warns about each parameter that is a function, and about nothing else. *)
Theorem C59_warnings : forall w name ow s d d2 ws k,
  save w name ow None s d = (d2, Ok ws) ->
  (In (FunctionDropped k) ws <-> exists i, In (k, PFun i) (s_params s)) /\ forall y, In y ws -> exists k, y = FunctionDropped k.
Proof. exact @save_warns_thm. Qed.
Print Assumptions C59_warnings.
Example C59_satisfiable : exists ws d2, let s := two KStationary false None default_params in
  reachable true x_toy s 2 /\ units_parse io_toy /\ lists_attributes io_toy /\ ordinary (s_params s) /\ s_class s <> KVerification /\
  no_function (s_params s) /\ in_step x_toy s /\ save io_toy "binaries" false None s no_files = (d2, Ok ws).
Proof.
  do 2 eexists. cbv zeta. split; [now apply (two_reachable true KStationary false None [])|]. split; [exact io_toy_units|]. split; [exact io_toy_order|].
  split; [exact default_ordinary|]. split; [discriminate|]. split; [exact default_no_function|]. split; [exact eq_refl|]. reflexivity.
Qed.
Example C59_functions_satisfiable : exists ws d2, let s := two KStationary false None (custom_params 3) in
  reachable true x_toy s 2 /\ ordinary (s_params s) /\ s_class s <> KVerification /\ save io_toy "binaries.hdf5" true None s no_files = (d2, Ok ws).
Proof.
  do 2 eexists. cbv zeta. split; [now apply (two_reachable true KStationary false None (custom_params 3))|]. split; [apply custom_ordinary|]. split; [discriminate|]. reflexivity.
Qed.

(** The class of verification binaries is not restored, and they can not be loaded as what they are. *)
Theorem C59_verification_binaries_refuted : forall w x s n name ow d d2 ws,
  reachable true x s n -> units_parse w -> lists_attributes w -> ordinary (s_params s) -> s_class s = KVerification ->
  (s_interpolate_sc s = true -> exists c, curve_of x (without_functions (s_params s)) = Ok c) -> save w name ow None s d = (d2, Ok ws) ->
  (exists s2 ws2, from_file w x KSource name None None None d2 = Ok (s2, ws2) /\ s_class s2 = KSource) /\
  from_file w x KVerification name None None None d2 = Err TypeError.
Proof. exact @verification_thm. Qed.
Print Assumptions C59_verification_binaries_refuted.
Example C59_verification_satisfiable : exists ws d2, let s := two KVerification false None default_params in
  reachable true x_toy s 2 /\ ordinary (s_params s) /\ s_class s = KVerification /\ save io_toy "binaries.h5" true None s no_files = (d2, Ok ws).
Proof. do 2 eexists. cbv zeta. split; [now apply (two_reachable true KVerification false None [])|]. split; [exact default_ordinary|]. split; reflexivity. Qed.

(** ** C60: saving and the files on disk *)
(** Without overwrite an existing file is left as it is, whatever happens. *)
Theorem C60_no_overwrite : forall w name stop s d,
  isfile (with_extension name) d = true ->
  save w name false stop s d = (d, Err FileExistsErr) /\ forall d', dies w name false s d d' -> d' = d.
Proof. exact @untouched_thm. Qed.
Print Assumptions C60_no_overwrite.
(** No other path is ever touched. *)
Theorem C60_other_files : forall w name ow stop s d p,
  p <> with_extension name ->
  fst (save w name ow stop s d) p = d p /\ forall d', dies w name ow s d d' -> d' p = d p.
Proof. exact @others_thm. Qed.
Print Assumptions C60_other_files.
(** The file is the named one, with .h5 appended when the name ends neither in .h5 nor in .hdf5, in save and in from_file. *)
Theorem C60_file_name : forall w name path, file_of name path ->
  (forall ow stop s d d2 r, save w name ow stop s d = (d2, r) ->
     (forall q, q <> path -> d2 q = d q) /\ (forall ws, r = Ok ws -> isfile path d2 = true)) /\
  (forall x cls ig isc np d d', d path = d' path -> from_file w x cls name ig isc np d = from_file w x cls name ig isc np d').
Proof. exact (fun w name path F => conj (fun ow stop s d d2 r => save_path w name path ow stop s d d2 r F) (fun x cls ig isc np d d' => load_path w x cls name path ig isc np d d' F)). Qed.
Print Assumptions C60_file_name.
Example C60_file_name_satisfiable : file_of "binaries" "binaries.h5" /\ file_of "run.h5" "run.h5" /\ file_of "run.hdf5" "run.hdf5" /\ file_of "h5" "h5.h5".
Proof. exact names. Qed.
(** Where there is no file, from_file raises FileNotFoundError (also for a folder) and save writes one; a file is never
    overwritten unasked (FileExistsError) and a folder never replaced (OSError); a file that is not HDF5 raises OSError. *)
Theorem C60_outcomes : forall w name path d, file_of name path ->
  (d path = Missing -> (forall x cls ig isc np, from_file w x cls name ig isc np d = Err FileNotFoundErr) /\
     forall ow s, exists d2 ws, save w name ow None s d = (d2, Ok ws)) /\
  (d path = Directory -> (forall x cls ig isc np, from_file w x cls name ig isc np d = Err FileNotFoundErr) /\
     forall ow stop s, save w name ow stop s d = (d, Err OSErr)) /\
  (d path = Damaged -> (forall x cls ig isc np, from_file w x cls name ig isc np d = Err OSErr) /\
     forall stop s, save w name false stop s d = (d, Err FileExistsErr)) /\
  (forall f, d path = File f -> forall stop s, save w name false stop s d = (d, Err FileExistsErr)).
Proof. exact file_outcomes. Qed.
Print Assumptions C60_outcomes.
(** A save that returns leaves a complete file. *)
Theorem C60_completed_partial : forall w x s n name ow d d2 ws,
  reachable true x s n -> units_parse w -> lists_attributes w -> ordinary (s_params s) -> s_class s <> KVerification ->
  (s_interpolate_sc s = true -> exists c, curve_of x (without_functions (s_params s)) = Ok c) -> save w name ow None s d = (d2, Ok ws) -> holds_all w x (d2 (with_extension name)) s.
Proof. exact @completed_thm. Qed.
Print Assumptions C60_completed_partial.
(** With overwrite, an error early in the save loses the old collection and there is no new one. *)
Theorem C60_overwrite_error_refuted : forall w x name s0 s d,
  d (with_extension name) = File (saved_file w s0) -> exists d',
  save w name true (Some 0%nat) s d = (d', Err OSErr) /\ dies w name true s d d' /\ (forall s', ~ holds_all w x (d' (with_extension name)) s') /\
  from_file w x KSource name None None None d' = Err KeyError.
Proof. exact @lost_thm. Qed.
Print Assumptions C60_overwrite_error_refuted.
(** A process that dies may leave a file nobody can read. *)
Theorem C60_overwrite_crash_refuted : forall w x name s0 s d,
  d (with_extension name) = File (saved_file w s0) -> exists d',
  dies w name true s d d' /\ forall cls ig isc np, from_file w x cls name ig isc np d' = Err OSErr.
Proof. exact @damaged_thm. Qed.
Print Assumptions C60_overwrite_crash_refuted.
(** An error near the end leaves a file that loads without any warning, with default parameters instead of those of the collection. *)
Theorem C60_partial_file_refuted : forall w x s n name d,
  reachable true x s n -> units_parse w -> lists_attributes w -> s_class s <> KVerification -> s_interpolate_sc s = false ->
  without_functions (s_params s) <> default_params -> d (with_extension name) <> Directory ->
  exists k d' s2, (k < length (save_edits w s))%nat /\ save w name true (Some k) s d = (d', Err OSErr) /\ from_file w x KSource name None None None d' = Ok (s2, []) /\
    same_contents s s2 /\ s_params s2 = default_params.
Proof. exact @partial_thm. Qed.
Print Assumptions C60_partial_file_refuted.
Example C60_satisfiable : exists ws d2, let s := two KSource false None default_params in
  save io_toy "binaries" false None s no_files = (d2, Ok ws) /\ isfile (with_extension "binaries") d2 = true /\
  d2 (with_extension "binaries") = File (saved_file io_toy s) /\ with_extension "binaries" <> "binaries"%string.
Proof. do 2 eexists. cbv zeta. split; [reflexivity|]. split; [reflexivity|]. split; [reflexivity|discriminate]. Qed.
(** Parameters other than the default ones. *)
Example C60_partial_file_satisfiable : let s := two KSource false None (put "instrument" (PStr "TianQin") default_params) in
  reachable true x_toy s 2 /\ s_class s <> KVerification /\ s_interpolate_sc s = false /\ without_functions (s_params s) <> default_params /\
  no_files (with_extension "binaries") <> Directory.
Proof.
  cbv zeta. split; [now apply (two_reachable true KSource false None [("instrument", PStr "TianQin")]%string)|]. split; [discriminate|]. split; [reflexivity|].
  split; [discriminate|discriminate].
Qed.

(** ** C61: every saved collection can be loaded *)
(** If the curve is not to be interpolated on loading: always, as a plain collection. *)
Theorem C61_without_interpolation_partial : forall w x s n name ow d d2 ws np ig,
  reachable true x s n -> units_parse w -> lists_attributes w -> ordinary (s_params s) ->
  save w name ow None s d = (d2, Ok ws) ->
  exists s2 ws2, from_file w x KSource name ig (Some false) np d2 = Ok (s2, ws2) /\ s_params s2 = without_functions (s_params s).
Proof. exact @loads_thm. Qed.
Print Assumptions C61_without_interpolation_partial.
(** A custom instrument whose curve is interpolated (the default) can not be loaded without further arguments. *)
Theorem C61_custom_instrument_refuted : forall w x s n name ow d d2 ws i,
  reachable true x s n -> units_parse w -> lists_attributes w -> ordinary (s_params s) ->
  s_interpolate_sc s = true -> get_or_none "instrument" (s_params s) = PStr "custom" -> get_or_none "custom_psd" (s_params s) = PFun i ->
  save w name ow None s d = (d2, Ok ws) -> from_file w x KSource name None None None d2 = Err TypeError.
Proof. exact @custom_thm. Qed.
Print Assumptions C61_custom_instrument_refuted.
(** Nor can a collection that was given a tolerance that was refused. *)
Theorem C61_refused_tolerance_refuted : forall w x s n tol e name ow d d2 ws,
  reachable true x s n -> units_parse w -> lists_attributes w -> ordinary (s_params s) -> s_class s <> KVerification ->
  snd (step x (Tolerance tol) s) = Err e -> save w name ow None (fst (step x (Tolerance tol) s)) d = (d2, Ok ws) ->
  from_file w x KSource name None None None d2 = Err e.
Proof. exact @refused_tolerance_thm. Qed.
Print Assumptions C61_refused_tolerance_refuted.
Example C61_satisfiable : exists sc ws d2, let s := two KSource true (Some sc) (custom_params 3) in
  reachable true x_toy s 2 /\ ordinary (s_params s) /\ s_interpolate_sc s = true /\ get_or_none "instrument" (s_params s) = PStr "custom" /\
  get_or_none "custom_psd" (s_params s) = PFun 3 /\ save io_toy "binaries" false None s no_files = (d2, Ok ws).
Proof.
  destruct (curve_exists _ _ _ (custom_exact 3)) as (c & C). exists c. do 2 eexists. cbv zeta.
  split; [apply (two_reachable true KSource true (Some c) (custom_params 3)); [reflexivity|exists c; exact (conj C eq_refl)]|]. split; [apply custom_ordinary|].
  split; [reflexivity|]. split; [reflexivity|]. split; reflexivity.
Qed.
Example C61_refused_satisfiable : exists ws d2, let s := two KSource false None default_params in
  reachable true x_toy s 2 /\ snd (step x_toy (Tolerance (Fin 1)) s) = Err IndexError /\
  save io_toy "binaries" false None (fst (step x_toy (Tolerance (Fin 1)) s)) no_files = (d2, Ok ws).
Proof.
  do 2 eexists. cbv zeta. split; [now apply (two_reachable true KSource false None [])|]. split; [exact (toy_refused KSource)|]. reflexivity.
Qed.

