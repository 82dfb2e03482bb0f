(** Properties C50-C52 and C82: sensitivity curve parameters and the interpolated curve of a Source. *)
From Coq Require Import String Reals ZArith List Lra Lia Bool.
From Verif Require Import Num Np Utils Spec Psd PsdSpec Snr Interp Evol Harmonics ScParams Source Index History CurveSpec CurveFacts Toy CurveThms KeysFacts ReadsSpec ReadsFacts StickyToy.
Import ListNotations.
Open Scope R_scope.

(** ** C50: the interpolated curve and sc_params *)
(** Any history of supported operations, failing or not: whenever the current parameters define a curve it is the stored one. *)
Theorem C50_any_history : forall x k i s ops,
  init x k i = Ok s -> forallb supported ops = true -> tracks x (fst (run x ops s)).
Proof. exact @history_any. Qed.
Print Assumptions C50_any_history.
(** If every operation returned normally the parameters define a curve and it is the stored one. *)
Theorem C50_successful_history : forall x k i s ops s',
  init x k i = Ok s -> forallb supported ops = true ->
  run x ops s = (s', repeat (Ok tt) (length ops)) -> in_step x s'.
Proof. exact @history_ok. Qed.
Print Assumptions C50_successful_history.
(** The same for what indexing and copying return. *)
Theorem C50_indexing : forall x k i s ops ind s2,
  init x k i = Ok s -> forallb supported ops = true -> getitem ind (fst (run x ops s)) = Ok s2 ->
  tracks x s2 /\ s_params s2 = s_params (fst (run x ops s)).
Proof. exact @masking_thm. Qed.
Print Assumptions C50_indexing.
(** Writing the flag leaves the old curve in place. *)
Theorem C50_toggle_refuted : forall x s,
  in_step x s -> s_interpolate_sc s = true ->
  snd (run x [Toggle false] s) = [Ok tt] /\ s_interpolate_sc (fst (run x [Toggle false] s)) = false /\ s_sc (fst (run x [Toggle false] s)) <> None.
Proof. exact @toggle_thm. Qed.
Print Assumptions C50_toggle_refuted.
(** [|=] writes the parameters and leaves the old curve in place. *)
Theorem C50_ior_refuted : forall x k i s new c,
  init x k i = Ok s -> s_interpolate_sc s = true -> (forall k, In k (keys new) -> In k documented) ->
  dict_eqb (put_all new (s_params s)) (put_all new (s_params s)) = true -> curve_of x (put_all new (s_params s)) = Ok c -> s_sc s <> Some c ->
  snd (run x [Ior new] s) = [Ok tt] /\ ~ in_step x (fst (run x [Ior new] s)).
Proof. exact @ior_thm. Qed.
Print Assumptions C50_ior_refuted.
(** An assignment that failed is accepted when repeated, with the old curve in place. *)
Theorem C50_repeated_failure_refuted : forall x s k v e c,
  in_step x s -> s_interpolate_sc s = true -> s_sc s = Some c -> In k documented -> peqb v v = true ->
  peqb (get_or_none k (s_params s)) v = false -> curve_of x (put k v (s_params s)) = Err e ->
  exists s', run x [SetItem k v; SetItem k v] s = (s', [Err e; Ok tt]) /\ s_interpolate_sc s' = true /\
             s_sc s' = Some c /\ curve_of x (s_params s') = Err e.
Proof. exact @repeat_thm. Qed.
Print Assumptions C50_repeated_failure_refuted.
(** evolve_sources(create_new_class=True) without interpolation: the new object says it interpolates and has no curve. *)
Theorem C50_new_class_refuted : forall x t s s1 new,
  in_step x s -> s_interpolate_sc s = false -> evolve_new x t s = (s1, Ok new) ->
  s_interpolate_sc new = true /\ s_sc new = None.
Proof. exact @twin_thm. Qed.
Print Assumptions C50_new_class_refuted.
Example C50_satisfiable : exists s, init x_toy KSource (toy1 true) = Ok s /\ s_interpolate_sc s = true /\ s_params s = custom_params 0 /\ s_class s = KSource.
Proof. exact (toy1_init KSource true). Qed.
Example C50_ior_satisfiable : exists s c, init x_toy KSource (toy1 true) = Ok s /\ s_interpolate_sc s = true /\
  curve_of x_toy (put_all [("custom_psd"%string, PFun 1)] (s_params s)) = Ok c /\ s_sc s <> Some c /\
  dict_eqb (put_all [("custom_psd"%string, PFun 1)] (s_params s)) (put_all [("custom_psd"%string, PFun 1)] (s_params s)) = true.
Proof. exact ior_example. Qed.
Example C50_repeated_satisfiable : exists s c, init x_toy KSource (toy1 true) = Ok s /\ in_step x_toy s /\ s_interpolate_sc s = true /\ s_sc s = Some c /\
  peqb (get_or_none "instrument"%string (s_params s)) (PStr "NONE") = false /\ curve_of x_toy (put "instrument"%string (PStr "NONE") (s_params s)) = Err ValueError.
Proof. exact repeat_example. Qed.

(** ** C51: the six keys *)
Theorem C51_any_history : forall x k i s ops,
  init x k i = Ok s -> forallb keeps_keys ops = true -> keys (s_params (fst (run x ops s))) = documented.
Proof. exact @keys_thm. Qed.
Print Assumptions C51_any_history.
Theorem C51_unknown_keys : forall x s k v new,
  ~ In k documented -> In k (keys new) ->
  step x (SetItem k v) s = (s, Err KeyError) /\ step x (Update new) s = (s, Err KeyError) /\ step x (Assign new) s = (s, Err KeyError) /\
  step x Remove s = (s, Err TypeError).
Proof. exact @unknown_thm. Qed.
Print Assumptions C51_unknown_keys.
Theorem C51_unknown_keys_at_construction : forall x kl i k,
  ~ In k documented -> In k (keys (i_sc_params i)) -> forall s, init x kl i <> Ok s.
Proof. exact @unknown_init. Qed.
Print Assumptions C51_unknown_keys_at_construction.
Theorem C51_item_assignment : forall x s k v k',
  In k documented ->
  lookup k' (s_params (fst (step x (SetItem k v) s))) = if String.eqb k' k then Some v else lookup k' (s_params s).
Proof. exact @setitem_value. Qed.
Print Assumptions C51_item_assignment.
Theorem C51_update : forall x s new k',
  (forall k, In k (keys new) -> In k documented) -> NoDup (keys new) ->
  lookup k' (s_params (fst (step x (Update new) s))) = match lookup k' new with Some v => Some v | None => lookup k' (s_params s) end.
Proof. exact @update_value. Qed.
Print Assumptions C51_update.
Theorem C51_assignment : forall x s new k',
  (forall k, In k (keys new) -> In k documented) -> NoDup (keys new) -> In k' documented ->
  lookup k' (s_params (fst (step x (Assign new) s))) = Some (match lookup k' new with Some v => v | None => default_of k' end).
Proof. exact @assign_value. Qed.
Print Assumptions C51_assignment.
Theorem C51_construction : forall x kl i s k',
  init x kl i = Ok s -> NoDup (keys (i_sc_params i)) -> In k' documented ->
  lookup k' (s_params s) = Some (match lookup k' (i_sc_params i) with Some v => v | None => default_of k' end).
Proof. exact @init_value. Qed.
Print Assumptions C51_construction.
(** [|=] with an unknown key raises KeyError but the key stays; setdefault accepts it. *)
Theorem C51_ior_refuted : forall x s k v,
  six s -> ~ In k documented ->
  snd (step x (Ior [(k, v)]) s) = Err KeyError /\ keys (s_params (fst (step x (Ior [(k, v)]) s))) = (documented ++ [k])%list.
Proof. exact @ior_unknown. Qed.
Print Assumptions C51_ior_refuted.
Theorem C51_setdefault_refuted : forall x s k v,
  six s -> ~ In k documented ->
  snd (step x (SetDefault k v) s) = Ok tt /\ In k (keys (s_params (fst (step x (SetDefault k v) s)))).
Proof. exact @setdefault_unknown. Qed.
Print Assumptions C51_setdefault_refuted.
(** With known keys both keep the six keys: setdefault changes nothing, and [|=] writes the given values. *)
Theorem C51_setdefault_of_known_keys : forall x s k v, six s -> In k documented -> step x (SetDefault k v) s = (s, Ok tt).
Proof. exact setdefault_known. Qed.
Print Assumptions C51_setdefault_of_known_keys.
Theorem C51_ior_of_known_keys : forall x s new k', six s -> (forall k, In k (keys new) -> In k documented) -> NoDup (keys new) ->
  lookup k' (s_params (fst (step x (Ior new) s))) = match lookup k' new with Some v => Some v | None => lookup k' (s_params s) end.
Proof. exact ior_value. Qed.
Print Assumptions C51_ior_of_known_keys.
Example C51_satisfiable : ~ In "noise"%string documented /\ In "t_obs"%string documented.
Proof. split; [cbn; intuition discriminate|cbn; tauto]. Qed.

(** ** C52: the default observing time *)
(** The first call: leaving t_obs out is the same as giving the documented mission length. *)
Theorem C52_first_call_stationary : forall x a which s,
  a_t_obs a = PNil -> current "t_obs" s = PStr "auto" ->
  get_snr_stationary x a which s = get_snr_stationary x (with_t_obs a (Fin (mission_length (instrument_of a s)))) which s.
Proof. exact @stationary_default. Qed.
Print Assumptions C52_first_call_stationary.
Theorem C52_first_call_evolving : forall x a n which s,
  a_t_obs a = PNil -> current "t_obs" s = PStr "auto" ->
  get_snr_evolving x a n which s = get_snr_evolving x (with_t_obs a (Fin (mission_length (instrument_of a s)))) n which s.
Proof. exact @evolving_default. Qed.
Print Assumptions C52_first_call_evolving.
Theorem C52_first_call : forall x k i0 ops a n which s i s' v w,
  init x k i0 = Ok s -> run x ops s = (s', repeat (Ok tt) (length ops)) ->
  forallb supported ops = true -> a_t_obs a = PNil -> current "t_obs" s' = PStr "auto" -> instrument_of a s' = PStr i -> s_class s' = KSource ->
  snd (get_snr x a n which s') = Ok v -> snd (get_snr x (with_t_obs a (Fin (mission_length (PStr i)))) n which s') = Ok w -> v = w.
Proof. exact @get_snr_default_thm. Qed.
Print Assumptions C52_first_call.
(** power_spectral_density uses the same lengths for LISA and TianQin. *)
Theorem C52_same_as_psd : forall w f c L ap cf i,
  i = "LISA"%string \/ i = "TianQin"%string ->
  power_spectral_density w f i c Auto L ap cf = power_spectral_density w f i c (Given (Fin (mission_length (PStr i)))) L ap cf.
Proof. exact @psd_mission. Qed.
Print Assumptions C52_same_as_psd.
(** For DECIGO it does not. *)
Theorem C52_decigo_refuted : forall w c L ap,
  exists f cf,
  power_spectral_density w f "DECIGO" c Auto L ap cf <> power_spectral_density w f "DECIGO" c (Given (Fin (mission_length (PStr "DECIGO")))) L ap cf.
Proof. exact @decigo_thm. Qed.
Print Assumptions C52_decigo_refuted.
(** A TianQin calculation after a LISA one uses LISA's mission length. *)
Theorem C52_second_call_refuted : forall x a b which which' s s1 v,
  keys (s_params s) = documented -> a_t_obs a = PNil -> a_t_obs b = PNil ->
  current "t_obs" s = PStr "auto" -> instrument_of a s = PStr "LISA" -> a_instrument b = PStr "TianQin" ->
  get_snr_stationary x a which s = (s1, Ok v) ->
  current "t_obs" s1 = PVal (Fin (4 * year)) /\
  get_snr_stationary x b which' s1 = get_snr_stationary x (with_t_obs b (Fin (4 * year))) which' s1 /\
  mission_length (PStr "TianQin") = 5 * year.
Proof. exact @sticky_thm. Qed.
Print Assumptions C52_second_call_refuted.
Example C52_satisfiable : exists s, init x_toy KSource (toy1 true) = Ok s /\ current "t_obs" s = PStr "auto" /\ instrument_of no_args s = PStr "custom".
Proof. destruct (toy1_init KSource true) as (s & H & _ & P & _). exists s. unfold instrument_of, current. rewrite P. repeat split; auto. Qed.

Example C52_second_call_satisfiable : exists s s1 v b, init x_toy KSource lisa_args = Ok s /\ keys (s_params s) = documented /\ a_t_obs no_args = PNil /\ a_t_obs b = PNil /\
  current "t_obs" s = PStr "auto" /\ instrument_of no_args s = PStr "LISA" /\ a_instrument b = PStr "TianQin" /\ get_snr_stationary x_toy no_args None s = (s1, Ok v) /\ length v = 1%nat.
Proof. exact lisa_second_call. Qed.

(** ** C82: what the interpolated curve is *)
Theorem C82_tabulated : forall x d c p,
  exact_curve x d p -> curve_of x d = Ok c -> tabulates c (fun f => p (Fin f)).
Proof. exact @curve_spec. Qed.
Print Assumptions C82_tabulated.
(** The same in terms of the arguments of power_spectral_density that the values of the parameters stand for. *)
Theorem C82_of_power_spectral_density : forall x d i c t L b cf p curve,
  reads x d i c t L b cf -> (forall fs, power_spectral_density (x_psd x) fs i c t L b cf = Ok (map p fs)) ->
  curve_of x d = Ok curve -> tabulates curve (fun f => p (Fin f)).
Proof. exact curve_reads. Qed.
Print Assumptions C82_of_power_spectral_density.
Theorem C82_refused : forall x d i c t L b cf e,
  reads x d i c t L b cf -> power_spectral_density (x_psd x) curve_grid i c t L b cf = Err e -> curve_of x d = Err e.
Proof. exact curve_fails. Qed.
Print Assumptions C82_refused.
(** An observing time that is neither "auto" nor a Quantity is refused when the confusion noise needs it. *)
Theorem C82_meaningless_time : forall x d v s i, In i ["LISA"; "TianQin"; "DECIGO"]%string -> value_of "instrument" d (PStr i) -> value_of "confusion_noise" d (PStr s) ->
  value_of "t_obs" d v -> (forall t, ~ stands_for v t) -> exists e, curve_of x d = Err e.
Proof. exact time_fails. Qed.
Print Assumptions C82_meaningless_time.
(** TianQin without confusion noise: the two values given and four defaults. *)
Example C82_reads_satisfiable : forall x, reads x [("instrument", PStr "TianQin"); ("confusion_noise", PNil)]%string "TianQin" None Auto Auto false CNone.
Proof.
  intros x. split; [cbn; intuition (subst; tauto)|]. split; [now left|]. split; [right; now split|].
  split; [exists PNil; split; [right; now split|constructor]|]. split; [exists (PStr "auto"); split; [right; now split|constructor]|].
  split; [exists (PStr "auto"); split; [right; now split|constructor]|]. exists PNil. split; [now left|constructor].
Qed.
Example C82_meaningless_satisfiable : value_of "t_obs" [("t_obs", PStr "4 yr")]%string (PStr "4 yr") /\ forall t, ~ stands_for (PStr "4 yr") t.
Proof. split; [now left|]. intros t H. inversion H. Qed.
Theorem C82_between_exact_values : forall c p j f u v,
  tabulates c p -> (S j < Z.to_nat 10000)%nat -> grid_f j <= f <= grid_f (S j) ->
  p (grid_f j) = Fin u -> p (grid_f (S j)) = Fin v -> exists y, c (Fin f) = Fin y /\ Rmin u v <= y <= Rmax u v.
Proof. exact @between_thm. Qed.
Print Assumptions C82_between_exact_values.
Example C82_satisfiable : exact_curve x_toy (custom_params 3) (fun _ => Fin (INR 3 + 1)) /\ exists c, curve_of x_toy (custom_params 3) = Ok c.
Proof. split; [apply custom_exact|exact (curve_exists _ _ _ (custom_exact 3))]. Qed.
