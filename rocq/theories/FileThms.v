(** FileThms.v -- saving and loading a collection (C59-C61). *)
From Coq Require Import String Ascii Reals ZArith List Bool Permutation Lra Lia.
From Verif Require Import Num NumFacts Np NpFacts Utils Strain Psd Snr Evol Harmonics ScParams Source Index SourceSpec IndexSpec History CurveSpec CurveFacts CurveThms InitSpec InitFacts
  SourceFacts IndexThms MethodSpec FileIO FileSpec FileFacts ReachFacts.
Import ListNotations.
Open Scope R_scope.

(** ** Reading back *)
Lemma read_q w f k l : units_parse w -> find k (f_dsets f) = Some (mkDset (DNum (map (in_unit w (io_unit w k)) l)) (Some (io_unit w k))) -> read_num w f k = Ok (PQArr l tt).
Proof.
  intros U H. unfold read_num. rewrite H. unfold size_of. destruct (U k) as (r & R & R0). rewrite R. cbn [rbind]. do 2 f_equal.
  rewrite map_map. erewrite map_ext; [apply map_id|]. intros a. unfold in_unit. rewrite R. now apply unit_back.
Qed.
Definition opt_arr (o : option (list num)) : pyval num unit := match o with None => PNone | Some l => PArr l end.
Definition opt_q (o : option (list num)) : pyval num unit := match o with None => PNone | Some l => PQArr l tt end.
Ltac rd := match goal with
  | U : units_parse ?w |- read_num ?w _ _ = Ok (PQArr _ tt) => apply read_q; [exact U|reflexivity]
  | |- _ => reflexivity end.
Lemma reads w s A S : units_parse w -> let f := mkH5 A (full_dsets w s) S in
  read_num w f "m_1" = Ok (PQArr (s_m_1 s) tt) /\ read_num w f "m_2" = Ok (PQArr (s_m_2 s) tt) /\ read_num w f "dist" = Ok (PQArr (s_dist s) tt) /\
  read_num w f "f_orb" = Ok (PQArr (s_f_orb s) tt) /\ read_num w f "ecc" = Ok (PArr (s_ecc s)) /\ read_num w f "weights" = Ok (opt_arr (s_weights s)) /\
  read_num w f "inclination" = Ok (opt_q (s_inclination s)) /\ read_num w f "polarisation" = Ok (opt_q (s_polarisation s)) /\
  read_num w f "position_lon" = Ok (opt_q (option_map (map snd) (s_position s))) /\ read_num w f "position_lat" = Ok (opt_q (option_map (map fst) (s_position s))) /\
  read_num w f "t_merge" = Ok (opt_q (s_t_merge s)) /\ read_num w f "snr" = Ok (opt_arr (s_snr s)) /\ read_int f "max_snr_harmonic" = Ok (s_max_snr_harmonic s) /\
  read_bool f "merged" = Ok (Some (s_merged s)).
Proof.
  intros U. destruct s as [k m1 m2 dist fo ecc wt pos inc pol tm sn msh mg st np hm g isc sc pr]. cbn [s_m_1 s_m_2 s_dist s_f_orb s_ecc s_weights s_position s_inclination s_polarisation s_t_merge s_snr s_max_snr_harmonic s_merged].
  destruct wt, pos, inc, pol, tm, sn, msh; cbn [option_map opt_arr opt_q]; repeat (split; [rd|]); rd.
Qed.
Lemma opt_list_q o : opt_list (opt_q o) = o. Proof. now destruct o. Qed.
Lemma opt_list_arr o : opt_list (opt_arr o) = o. Proof. now destruct o. Qed.
Lemma zip_back {A B} : forall l : list (A * B), bzip (fun x y => (x, y)) (map fst l) (map snd l) = Ok l.
Proof.
  intros l. rewrite bzip_eq by now rewrite !map_length. f_equal. induction l as [|[a b] l IH]; auto. cbn. now rewrite IH.
Qed.
Lemma read_pos w s A S n : units_parse w -> aligned s n -> read_position w (mkH5 A (full_dsets w s) S) (PQArr (s_dist s) tt) = Ok (s_position s).
Proof.
  intros U AL. destruct (reads w s A S U) as (_ & _ & _ & _ & _ & _ & _ & _ & R1 & R2 & _). cbn zeta in R1, R2.
  unfold read_position. rewrite R1, R2. pose proof (al_position _ _ AL) as P. pose proof (al_dist _ _ AL) as D. cbn [rbind].
  destruct (s_position s) as [l|]; cbn [option_map opt_q]; auto. cbn [rbind]. rewrite zip_back. cbn [rbind list_of].
  cbn in P. rewrite keep_pos by congruence. reflexivity.
Qed.

(** ** The object that comes back *)
Definition reloaded (x : ext) (s : src) (k : klass) (np : nat) (ig isc : bool) (sc : option (num -> num)) : src :=
  mkSrc k (s_m_1 s) (s_m_2 s) (s_dist s) (s_f_orb s) (s_ecc s) (s_weights s) (s_position s) (s_inclination s) (s_polarisation s) (s_t_merge s) (s_snr s)
        (s_max_snr_harmonic s) (s_merged s) (s_stat_tol s) np (s_harm s) (if ig then Some (x_g x) else None) isc sc (without_functions (s_params s)).
Definition or_else {A} (o : option A) (a : A) : A := match o with Some b => b | None => a end.
Definition kept_class (cls : klass) (s : src) : klass :=
  match cls with KSource => match s_class s with KVerification => KSource | k => k end | _ => cls end.
Lemma class_of_file w s D S cls : class_of cls (mkH5 (full_attrs w s) D S) = kept_class cls s.
Proof. destruct cls; try reflexivity. unfold kept_class. destruct s as [k]. cbn [s_class]. now destruct k. Qed.
Lemma init_reload x s n k np ig isc tol d dd : sound x s n -> h_gw_lum_tol (s_harm s) = Some tol -> make_params d = Ok dd ->
  init x k (mkInit (PQArr (s_m_1 s) tt) (PQArr (s_m_2 s) tt) (PArr (s_ecc s)) (PQArr (s_dist s) tt) np (PQArr (s_f_orb s) tt) PNone (s_position s)
                   (s_polarisation s) (s_inclination s) (opt_arr (s_weights s)) tol (s_stat_tol s) ig isc d) =
  (if isc then
     match curve_of x dd with
     | Ok c => Ok (mkSrc k (s_m_1 s) (s_m_2 s) (s_dist s) (s_f_orb s) (s_ecc s) (s_weights s) (s_position s) (s_inclination s) (s_polarisation s) None None None
                     (np_repeat false (length (s_m_1 s))) (s_stat_tol s) np (s_harm s) (if ig then Some (x_g x) else None) isc (Some c) dd)
     | Err e => Err e
     end
   else Ok (mkSrc k (s_m_1 s) (s_m_2 s) (s_dist s) (s_f_orb s) (s_ecc s) (s_weights s) (s_position s) (s_inclination s) (s_polarisation s) None None None
                     (np_repeat false (length (s_m_1 s))) (s_stat_tol s) np (s_harm s) (if ig then Some (x_g x) else None) isc None dd)).
Proof.
  intros [AL K KH G SK] T M. destruct (KH eq_refl) as (tol' & HT & HH). rewrite T in HT. injection HT as <-.
  destruct AL as [L1 L2 L3 L4 L5 L6 L7 L8 L9 L10 _ _ _].
  unfold init. cbn [i_f_orb i_a py_exists negb andb i_position i_inclination i_polarisation i_m_1 i_m_2 i_ecc i_dist i_weights i_gw_lum_tol i_stat_tol i_n_proc i_interpolate_sc i_interpolate_g i_sc_params].
  match goal with |- rbind ?r _ = _ => assert (E : r = Ok (s_position s, s_inclination s, s_polarisation s)) end.
  { destruct SK as [(-> & -> & ->)|(P & I & Q & E)]; auto.
    destruct (s_position s) as [p|]; [|easy]. destruct (s_inclination s) as [i|]; [|easy]. destruct (s_polarisation s) as [q|]; [|easy]. cbn [rbind].
    cbn [list_of]. assert (F : existsb (fun e : num => negb (neqb e (Fin 0))) (s_ecc s) = false).
    { apply not_true_is_false. intros C. apply existsb_exists in C. destruct C as (e & He & C). rewrite (E e He) in C. rewrite neqb_t in C by reflexivity. discriminate. }
    rewrite F. cbn in L8. rewrite keep_pos by congruence. reflexivity. }
  rewrite E. cbn [rbind py_has_units forallb negb andb].
  destruct (ensure_array _) as [al fl] eqn:EA.
  assert (AL : al = [PQArr (s_m_1 s) tt; PQArr (s_m_2 s) tt; PQArr (s_dist s) tt; PQArr (s_f_orb s) tt; PArr (s_ecc s); opt_arr (s_weights s)]).
  { cbn in EA. destruct (s_weights s); cbn in EA; now injection EA as <- _. }
  subst al. cbn [fst len_of rbind list_of]. cbn zeta. cbn [existsb]. rewrite L2, L3, L4, L5, <- L1, !Nat.eqb_refl. cbn [negb orb].
  unfold mbind at 1. unfold assign_gw_lum_tol. cbn [s_harm]. rewrite HH. unfold mbind at 1. rewrite assign_cases, M. cbn zeta beta iota.
  unfold set_sc. cbn [s_interpolate_sc put_params set_curve set_harm s_params].
  replace (if py_exists (opt_arr (s_weights s)) then Some (list_of (opt_arr (s_weights s))) else None) with (s_weights s) by now destruct (s_weights s).
  destruct isc; [|reflexivity]. destruct (curve_of x dd); reflexivity.
Qed.
Lemma attr_reads w s D S tol : h_gw_lum_tol (s_harm s) = Some tol -> let f := mkH5 (full_attrs w s) D S in
  read_attr f "interpolate_g" = Ok (ABool (interpolate_g s)) /\ read_attr f "interpolate_sc" = Ok (ABool (s_interpolate_sc s)) /\
  read_attr f "n_proc" = Ok (AInt (Z.of_nat (s_n_proc s))) /\ read_attr f "gw_lum_tol" = Ok (ANum tol) /\ read_attr f "stat_tol" = Ok (ANum (s_stat_tol s)).
Proof. intros T. cbn zeta. unfold full_attrs, attr_edits. rewrite T. repeat (split; [reflexivity|]). reflexivity. Qed.
(** The warning that the noise of a custom instrument is gone. *)
Definition psd_lost (d : dict) : list warning :=
  if peqb (get_or_none "instrument" (without_functions d)) (PStr "custom") && peqb (get_or_none "custom_psd" (without_functions d)) PNil then [CustomPsdMissing] else [].
Definition saved_file (w : io) (s : src) : h5 := written w s (length (save_edits w s)).
Lemma lookup_wf k d : In k documented -> lookup k (without_functions d) = match lookup k d with Some (PFun _) => Some (default_of k) | o => o end.
Proof.
  intros _. unfold without_functions. induction d as [|[k' v] d IH]; auto. cbn [map fst snd lookup]. destruct (String.eqb k k') eqn:E; [|exact IH].
  apply String.eqb_eq in E. subst. now destruct v.
Qed.
Lemma lost_read d d' : keys d = documented -> Permutation d' (plain d) ->
  (if peqb (get_or_none "instrument" d') (PStr "custom") && peqb (get_or_none "custom_psd" d') PNil then [CustomPsdMissing] else []) = psd_lost d.
Proof.
  intros K P. assert (ND : NoDup (keys d)) by (rewrite K; apply documented_nodup).
  assert (G : forall k, lookup k d' = match lookup k d with Some (PFun _) => None | o => o end) by (intros k; rewrite (lookup_perm k _ _ (keys_plain _ ND) P); now apply lookup_plain).
  unfold psd_lost, get_or_none. rewrite !G, !lookup_wf by (cbn; auto).
  destruct (lookup "instrument" d) as [[]|]; try reflexivity; destruct (lookup "custom_psd" d) as [[]|]; reflexivity.
Qed.
(** The results are restored. *)
Definition restore (s s1 : src) : src :=
  let s1 := match s_t_merge s with Some l => set_t_merge (Some l) s1 | None => s1 end in
  let s1 := match s_snr s with Some l => set_snr (Some l) s1 | None => s1 end in
  let s1 := match s_max_snr_harmonic s with Some l => set_max_snr_harmonic (Some l) s1 | None => s1 end in
  set_merged (s_merged s) s1.
(** Reading a file with the attributes [A] in the group of the parameters: __init__ is called with what was saved. *)
Lemma load_gen w x s n A d cls ig isc np tol : units_parse w -> aligned s n -> h_gw_lum_tol (s_harm s) = Some tol -> read_params w A = Ok d ->
  let f := mkH5 (full_attrs w s) (full_dsets w s) (Some A) in
  load w x cls f ig isc np =
  match kept_class cls s with
  | KVerification => Err TypeError
  | k => rbind (init x k (mkInit (PQArr (s_m_1 s) tt) (PQArr (s_m_2 s) tt) (PArr (s_ecc s)) (PQArr (s_dist s) tt) (or_else np (s_n_proc s)) (PQArr (s_f_orb s) tt) PNone (s_position s)
                   (s_polarisation s) (s_inclination s) (opt_arr (s_weights s)) tol (s_stat_tol s) (or_else ig (interpolate_g s)) (or_else isc (s_interpolate_sc s)) d))
               (fun s1 => Ok (restore s s1, load_warnings w f d))
  end.
Proof.
  intros U AL T RD.
  destruct (reads w s (full_attrs w s) (Some A) U) as (R1 & R2 & R3 & R4 & R5 & R6 & R7 & R8 & _ & _ & R9 & R10 & R11 & R12).
  pose proof (read_pos w s (full_attrs w s) (Some A) n U AL) as RP.
  destruct (attr_reads w s (full_dsets w s) (Some A) tol T) as (A1 & A2 & A3 & A4 & A5).
  pose proof (class_of_file w s (full_dsets w s) (Some A) cls) as CF.
  cbn zeta in *. set (f := mkH5 _ _ _) in *. unfold load. rewrite R1, R2, R3, R4, R5, R6, R7, R8. cbn [rbind]. rewrite RP. cbn [rbind].
  change (f_sc f) with (Some A). cbn [rbind]. rewrite RD. cbn [rbind].
  replace (match ig with Some b => Ok b | None => rbind (read_attr f "interpolate_g") (fun v => Ok (to_bool v)) end) with (Ok (or_else ig (interpolate_g s))) by (destruct ig; [reflexivity|now rewrite A1]).
  cbn [rbind].
  replace (match isc with Some b => Ok b | None => rbind (read_attr f "interpolate_sc") (fun v => Ok (to_bool v)) end) with (Ok (or_else isc (s_interpolate_sc s))) by (destruct isc; [reflexivity|now rewrite A2]).
  cbn [rbind].
  replace (match np with Some m => Ok m | None => rbind (read_attr f "n_proc") (fun v => to_nat_ v) end) with (Ok (or_else np (s_n_proc s)))
    by (destruct np; [reflexivity|rewrite A3; cbn; now rewrite Nat2Z.id]).
  cbn [rbind]. rewrite A4, A5. cbn [rbind to_num]. rewrite CF, !opt_list_q.
  destruct (kept_class cls s) eqn:KC; [| | |reflexivity].
  all: match goal with |- rbind ?i _ = _ => destruct i as [s1|e] end; [|reflexivity]; cbn [rbind]; rewrite R9, R10, R11, R12; cbn [rbind]; rewrite opt_list_q, opt_list_arr; reflexivity.
Qed.
Lemma warnings_of w s A d : load_warnings w (mkH5 (full_attrs w s) (full_dsets w s) (Some A)) d =
  (if peqb (get_or_none "instrument" d) (PStr "custom") && peqb (get_or_none "custom_psd" d) PNil then [CustomPsdMissing] else []).
Proof. unfold load_warnings. cbn [f_attrs]. unfold full_attrs, attr_edits. cbn. now rewrite String.eqb_refl. Qed.
(** Reading a complete file. *)
Lemma load_init w x s n cls ig isc np tol : units_parse w -> lists_attributes w -> ordinary (s_params s) -> aligned s n -> keys (s_params s) = documented ->
  h_gw_lum_tol (s_harm s) = Some tol ->
  exists d, make_params d = Ok (without_functions (s_params s)) /\ load w x cls (saved_file w s) ig isc np =
  match kept_class cls s with
  | KVerification => Err TypeError
  | k => rbind (init x k (mkInit (PQArr (s_m_1 s) tt) (PQArr (s_m_2 s) tt) (PArr (s_ecc s)) (PQArr (s_dist s) tt) (or_else np (s_n_proc s)) (PQArr (s_f_orb s) tt) PNone (s_position s)
                   (s_polarisation s) (s_inclination s) (opt_arr (s_weights s)) tol (s_stat_tol s) (or_else ig (interpolate_g s)) (or_else isc (s_interpolate_sc s)) d))
               (fun s1 => Ok (restore s s1, psd_lost (s_params s)))
  end.
Proof.
  intros U LA O AL K T. unfold saved_file. rewrite file_written.
  destruct (params_read w (s_params s) U LA O K) as (d & RD & P). pose proof (params_rebuilt _ _ K P) as M. exists d. split; [exact M|].
  rewrite (load_gen w x s n _ d cls ig isc np tol U AL T RD), warnings_of, (lost_read _ _ K P). reflexivity.
Qed.
Lemma load_saved w x s n cls ig isc np : units_parse w -> lists_attributes w -> ordinary (s_params s) -> sound x s n ->
  let g := or_else ig (interpolate_g s) in let i := or_else isc (s_interpolate_sc s) in let m := or_else np (s_n_proc s) in
  load w x cls (saved_file w s) ig isc np =
  match kept_class cls s with
  | KVerification => Err TypeError
  | k => if i then
           match curve_of x (without_functions (s_params s)) with
           | Ok c => Ok (reloaded x s k m g true (Some c), psd_lost (s_params s))
           | Err e => Err e
           end
         else Ok (reloaded x s k m g false None, psd_lost (s_params s))
  end.
Proof.
  intros U LA O S. cbn zeta. destruct (so_harm _ _ _ S) as (tol & T & HH).
  destruct (load_init w x s n cls ig isc np tol U LA O (so_aligned _ _ _ _ S) (so_keys _ _ _ _ S) T) as (d & M & ->).
  destruct (kept_class cls s) eqn:KC; [| | |reflexivity].
  all: rewrite (init_reload x s n _ _ _ _ tol d _ S T M); destruct (or_else isc (s_interpolate_sc s)); [destruct (curve_of x (without_functions (s_params s))); [|reflexivity]|]; cbn [rbind].
  all: f_equal; apply pair_equal_spec; split; [|reflexivity]; unfold reloaded, restore; destruct (s_t_merge s), (s_snr s), (s_max_snr_harmonic s); reflexivity.
Qed.

(** ** C59: round trips *)
Lemma save_done w name ow s d d2 ws : save w name ow None s d = (d2, Ok ws) -> d2 = write_to (with_extension name) (File (saved_file w s)) d /\ ws = save_warnings s.
Proof.
  unfold save. destruct (_ && _); [discriminate|]. destruct (d (with_extension name)); try discriminate; intros H; injection H as <- <-; auto.
Qed.
Lemma from_saved w x cls name ig isc np d s : from_file w x cls name ig isc np (write_to (with_extension name) (File (saved_file w s)) d) = load w x cls (saved_file w s) ig isc np.
Proof. unfold from_file, isfile, write_to. now rewrite !String.eqb_refl. Qed.
Lemma keys_wf d : keys (without_functions d) = keys d.
Proof. unfold keys, without_functions. rewrite map_map. reflexivity. Qed.
Lemma wf_same d : no_function d -> without_functions d = d.
Proof.
  intros N. unfold without_functions. rewrite <- (map_id d) at 2. apply map_ext_in. intros [k v] H. cbn. f_equal. destruct v; auto. exfalso. eapply N, H.
Qed.
Definition loadable (x : ext) (s : src) (isc : option bool) : Prop :=
  or_else isc (s_interpolate_sc s) = true -> exists c, curve_of x (without_functions (s_params s)) = Ok c.
Lemma load_ok w x s n cls ig isc np : units_parse w -> lists_attributes w -> ordinary (s_params s) -> sound x s n -> kept_class cls s <> KVerification -> loadable x s isc ->
  exists sc, load w x cls (saved_file w s) ig isc np =
    Ok (reloaded x s (kept_class cls s) (or_else np (s_n_proc s)) (or_else ig (interpolate_g s)) (or_else isc (s_interpolate_sc s)) sc, psd_lost (s_params s)) /\
    in_step x (reloaded x s (kept_class cls s) (or_else np (s_n_proc s)) (or_else ig (interpolate_g s)) (or_else isc (s_interpolate_sc s)) sc).
Proof.
  intros U LA O S NV LD. rewrite (load_saved w x s n) by auto. cbn zeta. unfold loadable in LD.
  destruct (or_else isc (s_interpolate_sc s)) eqn:EI.
  - destruct (LD eq_refl) as [c C]. rewrite C. exists (Some c). split; [destruct (kept_class cls s); congruence|]. cbn. eauto.
  - exists None. split; [destruct (kept_class cls s); congruence|]. reflexivity.
Qed.
Lemma same_class s : s_class s <> KVerification -> kept_class KSource s = s_class s.
Proof. unfold kept_class. destruct (s_class s); congruence. Qed.
Lemma round_trip_thm w x s n name ow d d2 ws : reachable true x s n -> units_parse w -> lists_attributes w -> ordinary (s_params s) -> s_class s <> KVerification ->
  (s_interpolate_sc s = true -> exists c, curve_of x (without_functions (s_params s)) = Ok c) ->
  save w name ow None s d = (d2, Ok ws) ->
  exists s2 ws2, from_file w x KSource name None None None d2 = Ok (s2, ws2) /\ same_contents s s2 /\ s_params s2 = without_functions (s_params s) /\ in_step x s2.
Proof.
  intros R U LA O NV LD SV. apply save_done in SV. destruct SV as [-> _]. rewrite from_saved. pose proof (reachable_thm x s n R) as S.
  assert (NV' : kept_class KSource s <> KVerification) by now rewrite same_class.
  destruct (load_ok w x s n KSource None None None U LA O S NV' LD) as (sc & E & IS).
  do 2 eexists. split; [exact E|]. split; [|split; [reflexivity|exact IS]].
  split; [|split; reflexivity]. unfold same_sources, reloaded. cbn [s_class]. rewrite same_class by auto. cbn. repeat (split; [reflexivity|]).
  split; [|reflexivity]. unfold interpolate_g. destruct (so_g _ _ _ _ S) as [-> | ->]; reflexivity.
Qed.
(** Without custom functions, and with the curve that belongs to the parameters, nothing changes at all. *)
Lemma exact_thm w x s n name ow d d2 ws : reachable true x s n -> units_parse w -> lists_attributes w -> ordinary (s_params s) -> s_class s <> KVerification ->
  no_function (s_params s) -> in_step x s -> save w name ow None s d = (d2, Ok ws) ->
  ws = [] /\ exists ws2, from_file w x KSource name None None None d2 = Ok (s, ws2) /\
    (ws2 = [] \/ ws2 = [CustomPsdMissing] /\ get_or_none "instrument" (s_params s) = PStr "custom" /\ get_or_none "custom_psd" (s_params s) = PNil).
Proof.
  intros R U LA O NV NF IS SV. apply save_done in SV. destruct SV as [-> ->]. rewrite from_saved. pose proof (reachable_thm x s n R) as S.
  assert (W : save_warnings s = []).
  { unfold save_warnings. assert (G : forall l, (forall k i, ~ In (k, PFun i) l) -> flat_map (fun kv : string * pval => match snd kv with PFun _ => [FunctionDropped (fst kv)] | _ => [] end) l = []).
    { induction l as [|[k v] l IH]; intros H; auto. cbn [flat_map fst snd]. rewrite IH by (intros k' i C; apply (H k' i); now right). destruct v; auto. exfalso. eapply H. now left. }
    apply G, NF. }
  rewrite W. pose proof (wf_same _ NF) as WF.
  assert (LD : loadable x s None) by (intros E; cbn in E; unfold in_step in IS; rewrite E in IS; destruct IS as (c & C & _); rewrite WF; eauto).
  rewrite (load_saved w x s n) by auto. cbn zeta. rewrite same_class by auto. rewrite WF. cbn [or_else].
  assert (E : forall isc sc, isc = s_interpolate_sc s -> sc = s_sc s -> reloaded x s (s_class s) (s_n_proc s) (interpolate_g s) isc sc = s).
  { intros isc sc -> ->. unfold reloaded. rewrite WF. assert (G : (if interpolate_g s then Some (x_g x) else None) = s_g s) by (unfold interpolate_g; destruct (so_g _ _ _ _ S) as [-> | ->]; reflexivity).
    rewrite G. destruct s. reflexivity. }
  assert (LW : psd_lost (s_params s) = [] \/ psd_lost (s_params s) = [CustomPsdMissing] /\ get_or_none "instrument" (s_params s) = PStr "custom" /\ get_or_none "custom_psd" (s_params s) = PNil).
  { unfold psd_lost. rewrite WF. destruct (peqb (get_or_none "instrument" (s_params s)) (PStr "custom")) eqn:QI; auto. destruct (peqb (get_or_none "custom_psd" (s_params s)) PNil) eqn:Q; auto.
    right. split; auto. split; now apply peqb_eq. }
  assert (L : (if s_interpolate_sc s then match curve_of x (s_params s) with Ok c => Ok (reloaded x s (s_class s) (s_n_proc s) (interpolate_g s) true (Some c), psd_lost (s_params s)) | Err e => Err e end
               else Ok (reloaded x s (s_class s) (s_n_proc s) (interpolate_g s) false None, psd_lost (s_params s))) = Ok (s, psd_lost (s_params s))).
  { unfold in_step in IS. destruct (s_interpolate_sc s) eqn:EI.
    - destruct IS as (c & C & CS). rewrite C. now rewrite E.
    - now rewrite E. }
  split; [reflexivity|]. exists (psd_lost (s_params s)). split; [|exact LW]. destruct (s_class s) eqn:KC; try congruence; exact L.
Qed.
(** Settings given to from_file replace the saved ones; so does the class it is called on. *)
Lemma overrides_thm w x s n name ow d d2 ws cls g i m : reachable true x s n -> units_parse w -> lists_attributes w -> ordinary (s_params s) -> cls = KStationary \/ cls = KEvolving ->
  (i = true -> exists c, curve_of x (without_functions (s_params s)) = Ok c) -> save w name ow None s d = (d2, Ok ws) ->
  exists s2 ws2, from_file w x cls name (Some g) (Some i) (Some m) d2 = Ok (s2, ws2) /\ s_class s2 = cls /\ s_n_proc s2 = m /\ s_interpolate_sc s2 = i /\
    s_g s2 = (if g then Some (x_g x) else None) /\ in_step x s2 /\
    s_m_1 s2 = s_m_1 s /\ s_m_2 s2 = s_m_2 s /\ s_dist s2 = s_dist s /\ s_f_orb s2 = s_f_orb s /\ s_ecc s2 = s_ecc s /\ s_snr s2 = s_snr s /\ s_merged s2 = s_merged s /\
    s_t_merge s2 = s_t_merge s.
Proof.
  intros R U LA O CL LD SV. apply save_done in SV. destruct SV as [-> _]. rewrite from_saved. pose proof (reachable_thm x s n R) as S.
  assert (KC : kept_class cls s = cls) by (destruct CL as [-> | ->]; reflexivity).
  assert (NV : kept_class cls s <> KVerification) by (rewrite KC; destruct CL; congruence).
  destruct (load_ok w x s n cls (Some g) (Some i) (Some m) U LA O S NV LD) as (sc & E & IS). rewrite KC in *. cbn [or_else] in *.
  do 2 eexists. split; [exact E|]. repeat (split; [reflexivity|]). split; [exact IS|]. repeat (split; [reflexivity|]). reflexivity.
Qed.
(** The user is told of every parameter that is not saved, and of no other. *)
Lemma save_warns_thm w name ow s d d2 ws k : save w name ow None s d = (d2, Ok ws) ->
  (In (FunctionDropped k) ws <-> exists i, In (k, PFun i) (s_params s)) /\ forall y, In y ws -> exists k, y = FunctionDropped k.
Proof.
  intros H. apply save_done in H. destruct H as [_ ->]. unfold save_warnings. split; [split|].
  - intros H. apply in_flat_map in H. destruct H as ([k' v] & H1 & H2). destruct v; cbn in H2; try easy; destruct H2 as [H2|[]]. injection H2 as <-. eauto.
  - intros (i & H). apply in_flat_map. exists (k, PFun i). split; auto. now left.
  - intros y H. apply in_flat_map in H. destruct H as ([k' v] & H1 & H2). destruct v; cbn in H2; try easy; destruct H2 as [H2|[]]. eauto.
Qed.
(** Verification binaries come back as a plain collection. *)
Lemma verification_thm w x s n name ow d d2 ws : reachable true x s n -> units_parse w -> lists_attributes w -> ordinary (s_params s) -> s_class s = KVerification ->
  (s_interpolate_sc s = true -> exists c, curve_of x (without_functions (s_params s)) = Ok c) -> save w name ow None s d = (d2, Ok ws) ->
  (exists s2 ws2, from_file w x KSource name None None None d2 = Ok (s2, ws2) /\ s_class s2 = KSource) /\
  from_file w x KVerification name None None None d2 = Err TypeError.
Proof.
  intros R U LA O CV LD SV. pose proof (reachable_thm x s n R) as S. apply save_done in SV. destruct SV as [-> _]. rewrite !from_saved.
  assert (KC : kept_class KSource s = KSource) by (unfold kept_class; now rewrite CV).
  assert (NV : kept_class KSource s <> KVerification) by (rewrite KC; discriminate). split.
  - destruct (load_ok w x s n KSource None None None U LA O S NV LD) as (sc & E & IS). rewrite KC in E. do 2 eexists. split; [exact E|reflexivity].
  - rewrite (load_saved w x s n) by auto. reflexivity.
Qed.

(** ** C60: interruptions *)
Lemma untouched_thm w name stop s d : isfile (with_extension name) d = true ->
  save w name false stop s d = (d, Err FileExistsErr) /\ forall d', dies w name false s d d' -> d' = d.
Proof.
  intros F. split; [unfold save; now rewrite F|]. intros d' [|H|k H]; auto; rewrite F in H; discriminate.
Qed.
Lemma others_thm w name ow stop s d p : p <> with_extension name ->
  fst (save w name ow stop s d) p = d p /\ forall d', dies w name ow s d d' -> d' p = d p.
Proof.
  intros N. assert (W : forall c, write_to (with_extension name) c d p = d p) by (intros c; unfold write_to; destruct (String.eqb_spec p (with_extension name)); congruence). split.
  - unfold save. destruct (_ && _); auto. destruct (d (with_extension name)); auto; destruct stop; cbn [fst]; auto.
  - intros d' [|H H0|k H H0]; auto.
Qed.
Lemma completed_thm w x s n name ow d d2 ws : reachable true x s n -> units_parse w -> lists_attributes w -> ordinary (s_params s) -> s_class s <> KVerification ->
  (s_interpolate_sc s = true -> exists c, curve_of x (without_functions (s_params s)) = Ok c) -> save w name ow None s d = (d2, Ok ws) -> holds_all w x (d2 (with_extension name)) s.
Proof.
  intros R U LA O NV LD SV. destruct (round_trip_thm w x s n name ow d d2 ws R U LA O NV LD SV) as (s2 & ws2 & E & SC & P & IS). apply save_done in SV. destruct SV as [-> _].
  rewrite from_saved in E. exists (saved_file w s), s2, ws2. split; [unfold write_to; now rewrite String.eqb_refl|auto].
Qed.
(** Interrupted at once, a file is empty: neither the old nor the new collection, nor any other. *)
Lemma lost_thm w x name s0 s d : d (with_extension name) = File (saved_file w s0) -> exists d',
  save w name true (Some 0%nat) s d = (d', Err OSErr) /\ dies w name true s d d' /\ (forall s', ~ holds_all w x (d' (with_extension name)) s') /\
  from_file w x KSource name None None None d' = Err KeyError.
Proof.
  intros D. exists (write_to (with_extension name) (File (written w s 0)) d). split; [|split; [|split]].
  - unfold save. rewrite andb_comm. cbn [negb andb]. now rewrite D.
  - apply dies_after; [now rewrite andb_comm|congruence].
  - intros s' (h & s2 & ws & E & L & _). unfold write_to in E. rewrite String.eqb_refl in E. injection E as <-. discriminate L.
  - unfold from_file, isfile, write_to. rewrite !String.eqb_refl. reflexivity.
Qed.
Lemma damaged_thm w x name s0 s d : d (with_extension name) = File (saved_file w s0) -> exists d',
  dies w name true s d d' /\ forall cls ig isc np, from_file w x cls name ig isc np d' = Err OSErr.
Proof.
  intros D. exists (write_to (with_extension name) Damaged d). split.
  - apply dies_damaged; [now rewrite andb_comm|congruence].
  - intros cls ig isc np. unfold from_file, isfile, write_to. rewrite !String.eqb_refl. reflexivity.
Qed.
(** Interrupted before the parameters are written, the file loads without a warning, with default parameters. *)
Lemma edits_before w s : written w s (length (attr_edits w s ++ dset_edits w s) + 1) = mkH5 (full_attrs w s) (full_dsets w s) (Some []).
Proof.
  unfold written, save_edits. rewrite app_assoc. rewrite firstn_app_2. cbn [firstn]. rewrite fold_left_app. cbn [fold_left].
  pose proof (file_written w s) as F. unfold written in F. rewrite firstn_all in F. unfold save_edits in F. rewrite app_assoc in F.
  rewrite fold_left_app in F. cbn [fold_left] in F.
  set (f := fold_left apply_edit (attr_edits w s ++ dset_edits w s) empty_file) in *. clearbody f.
  assert (G : forall d l, f_attrs (fold_left apply_edit (flat_map (sc_edit w) d) l) = f_attrs l /\ f_dsets (fold_left apply_edit (flat_map (sc_edit w) d) l) = f_dsets l).
  { induction d as [|[k v] d IH]; intros l; auto. cbn [flat_map]. rewrite fold_left_app. destruct (IH (fold_left apply_edit (sc_edit w (k, v)) l)) as [-> ->]. destruct v; auto. }
  destruct (G (s_params s) (apply_edit f EGroup)) as [G1 G2]. rewrite F in G1, G2. cbn in G1, G2. cbn [apply_edit]. now rewrite <- G1, <- G2.
Qed.

Lemma all_functions w d : keys d = documented -> flat_map (sc_edit w) d = [] -> without_functions d = default_params.
Proof.
  intros K F. assert (A : forall kv, In kv d -> exists i, snd kv = PFun i).
  { clear K. induction d as [|[k v] d IH]; intros kv H; [destruct H|]. cbn [flat_map] in F. apply app_eq_nil in F. destruct F as [F1 F2].
    destruct H as [<-|H]; [|now apply IH]. destruct v; try discriminate F1. cbn. eauto. }
  unfold without_functions. transitivity (map (fun k => (k, default_of k)) (keys d)).
  - unfold keys. rewrite map_map. apply map_ext_in. intros kv H. destruct (A kv H) as [i ->]. reflexivity.
  - rewrite K. reflexivity.
Qed.
Lemma partial_thm w x s n name d : reachable true x s n -> units_parse w -> lists_attributes w -> s_class s <> KVerification -> s_interpolate_sc s = false ->
  without_functions (s_params s) <> default_params -> d (with_extension name) <> Directory ->
  exists k d' s2, (k < length (save_edits w s))%nat /\ save w name true (Some k) s d = (d', Err OSErr) /\ from_file w x KSource name None None None d' = Ok (s2, []) /\
    same_contents s s2 /\ s_params s2 = default_params.
Proof.
  intros R U LA NV EI WF ND. pose proof (reachable_thm x s n R) as S. destruct (so_harm _ _ _ S) as (tol & T & HH).
  exists (length (attr_edits w s ++ dset_edits w s) + 1)%nat, (write_to (with_extension name) (File (written w s (length (attr_edits w s ++ dset_edits w s) + 1))) d).
  exists (mkSrc (s_class s) (s_m_1 s) (s_m_2 s) (s_dist s) (s_f_orb s) (s_ecc s) (s_weights s) (s_position s) (s_inclination s) (s_polarisation s) (s_t_merge s) (s_snr s)
        (s_max_snr_harmonic s) (s_merged s) (s_stat_tol s) (s_n_proc s) (s_harm s) (s_g s) false None default_params).
  split; [|split; [|split; [|split]]].
  - unfold save_edits. rewrite !app_length. cbn [length]. assert (K : keys (s_params s) = documented) by apply S.
    destruct (flat_map (sc_edit w) (s_params s)) eqn:F; [|cbn [length]; lia]. exfalso. apply WF. now apply (all_functions w).
  - unfold save. rewrite andb_comm. cbn [negb andb]. destruct (d (with_extension name)); congruence.
  - unfold from_file, isfile, write_to. rewrite !String.eqb_refl. cbn [negb]. rewrite edits_before.
    assert (RP : read_params w [] = Ok []) by (unfold read_params; assert (P : io_order w [] = []) by (apply Permutation_nil, Permutation_sym, LA); now rewrite P).
    rewrite (load_gen w x s n [] [] KSource None None None tol U (so_aligned _ _ _ _ S) T RP), warnings_of. rewrite same_class by auto. cbn [or_else].
    assert (G : (if interpolate_g s then Some (x_g x) else None) = s_g s) by (unfold interpolate_g; destruct (so_g _ _ _ _ S) as [-> | ->]; reflexivity).
    destruct (s_class s) eqn:KC; try congruence; rewrite (init_reload x s n _ _ _ _ tol [] default_params S T eq_refl), EI; cbn [rbind]; rewrite G; unfold restore;
      destruct (s_t_merge s), (s_snr s), (s_max_snr_harmonic s); reflexivity.
  - split; [|split; reflexivity]. unfold same_sources. cbn. rewrite EI. repeat (split; [reflexivity|]). reflexivity.
  - reflexivity.
Qed.

(** ** C61: loading *)
Lemma loads_thm w x s n name ow d d2 ws np ig : reachable true x s n -> units_parse w -> lists_attributes w -> ordinary (s_params s) ->
  save w name ow None s d = (d2, Ok ws) ->
  exists s2 ws2, from_file w x KSource name ig (Some false) np d2 = Ok (s2, ws2) /\ s_params s2 = without_functions (s_params s).
Proof.
  intros R U LA O SV. apply save_done in SV. destruct SV as [-> _]. rewrite from_saved. pose proof (reachable_thm x s n R) as S.
  assert (NV : kept_class KSource s <> KVerification) by (unfold kept_class; destruct (s_class s); discriminate).
  destruct (load_ok w x s n KSource ig (Some false) np U LA O S NV ltac:(discriminate)) as (sc & E & _). do 2 eexists. split; [exact E|reflexivity].
Qed.
Lemma keys_known d : keys d = documented -> forallb known (keys d) = true.
Proof. intros ->. reflexivity. Qed.
(** Refuted: a custom instrument. *)
Lemma custom_thm w x s n name ow d d2 ws i : reachable true x s n -> units_parse w -> lists_attributes w -> ordinary (s_params s) ->
  s_interpolate_sc s = true -> get_or_none "instrument" (s_params s) = PStr "custom" -> get_or_none "custom_psd" (s_params s) = PFun i ->
  save w name ow None s d = (d2, Ok ws) -> from_file w x KSource name None None None d2 = Err TypeError.
Proof.
  intros R U LA O EI HI HP SV. apply save_done in SV. destruct SV as [-> _]. rewrite from_saved. pose proof (reachable_thm x s n R) as S.
  rewrite (load_saved w x s n) by auto. cbn zeta. cbn [or_else]. rewrite EI.
  assert (C : curve_of x (without_functions (s_params s)) = Err TypeError).
  { unfold get_or_none in HI, HP. unfold curve_of, psd_of. rewrite keys_known by (rewrite keys_wf; apply S). cbn [negb].
    assert (G : forall k, quantity_of (param k (without_functions (s_params s))) = Err TypeError \/ exists v, quantity_of (param k (without_functions (s_params s))) = Ok v).
    { intros k. destruct (quantity_of _) as [v|e] eqn:Q; eauto. left. unfold quantity_of in Q. destruct (param _ _); try destruct (String.eqb _ _); congruence. }
    destruct (G "t_obs"%string) as [-> |[t ->]]; [reflexivity|]. cbn [rbind]. unfold kw_of. destruct (G "L"%string) as [-> |[l ->]]; [reflexivity|]. cbn [rbind kw_instrument kw_custom].
    unfold param at 1 2. rewrite !lookup_wf by (cbn; auto). destruct (lookup "instrument" (s_params s)) as [v|]; [|discriminate]. subst v.
    destruct (lookup "custom_psd" (s_params s)) as [v|]; [|discriminate]. subst v. reflexivity. }
  rewrite C. destruct (kept_class KSource s) eqn:KC; try reflexivity.
Qed.
(** Refuted: a tolerance that was refused. *)
Lemma refused_tolerance_thm w x s n tol e name ow d d2 ws : reachable true x s n -> units_parse w -> lists_attributes w -> ordinary (s_params s) -> s_class s <> KVerification ->
  snd (step x (Tolerance tol) s) = Err e -> save w name ow None (fst (step x (Tolerance tol) s)) d = (d2, Ok ws) ->
  from_file w x KSource name None None None d2 = Err e.
Proof.
  intros R U LA O NV HE SV. apply save_done in SV. destruct SV as [-> _]. rewrite from_saved. pose proof (reachable_thm x s n R) as S. cbn [step] in *.
  unfold assign_gw_lum_tol in *. destruct (set_gw_lum_tol (x_jv x) (x_lum x) tol (s_harm s)) as [h r] eqn:E. cbn [fst snd] in *. subst r.
  assert (H : h_gw_lum_tol h = Some tol /\ exists h', set_gw_lum_tol (x_jv x) (x_lum x) tol no_harm = (h', Err e)).
  { revert E. unfold set_gw_lum_tol at 1. destruct (match h_gw_lum_tol (s_harm s) with Some t => neqb tol t | None => false end); [discriminate|].
    unfold set_gw_lum_tol. cbn [no_harm h_gw_lum_tol]. unfold create_harmonics_functions. cbn [h_gw_lum_tol].
    destruct (harmonics_needed tol (x_lum x)) as [needed|e']; [|intros H; injection H as <- <-; cbn; eauto].
    unfold find_eccentric_transition. cbn [h_gw_lum_tol h_required h_max_strain h_ecc_tol]. destruct (eccentric_transition (x_jv x) tol); [discriminate|].
    intros H; injection H as <- <-; cbn; eauto. }
  destruct H as (HT & h' & HH).
  assert (AL : aligned (set_harm h s) n) by (destruct S as [[? ? ? ? ? ? ? ? ? ? ? ? ?] _ _ _ _]; constructor; auto).
  destruct (load_init w x (set_harm h s) n KSource None None None tol U LA O AL (so_keys _ _ _ _ S) HT) as (d0 & M & ->).
  rewrite (same_class (set_harm h s)) by exact NV.
  assert (IE : forall k np g i, init x k (mkInit (PQArr (s_m_1 s) tt) (PQArr (s_m_2 s) tt) (PArr (s_ecc s)) (PQArr (s_dist s) tt) np (PQArr (s_f_orb s) tt) PNone (s_position s)
                   (s_polarisation s) (s_inclination s) (opt_arr (s_weights s)) tol (s_stat_tol s) g i d0) = Err e).
  { intros k np g i. destruct S as [[L1 L2 L3 L4 L5 L6 L7 L8 L9 L10 _ _ _] K _ G SK].
    unfold init. cbn [i_f_orb i_a py_exists negb andb i_position i_inclination i_polarisation i_m_1 i_m_2 i_ecc i_dist i_weights i_gw_lum_tol i_stat_tol i_n_proc i_interpolate_sc i_interpolate_g i_sc_params].
    match goal with |- rbind ?r _ = _ => assert (E1 : r = Ok (s_position s, s_inclination s, s_polarisation s)) end.
    { destruct SK as [(-> & -> & ->)|(P & I & Q & E0)]; auto.
      destruct (s_position s) as [p|]; [|easy]. destruct (s_inclination s) as [ii|]; [|easy]. destruct (s_polarisation s) as [q|]; [|easy]. cbn [rbind list_of].
      assert (F : existsb (fun e : num => negb (neqb e (Fin 0))) (s_ecc s) = false).
      { apply not_true_is_false. intros C. apply existsb_exists in C. destruct C as (e0 & He & C). rewrite (E0 e0 He) in C. rewrite neqb_t in C by reflexivity. discriminate. }
      rewrite F. cbn in L8. rewrite keep_pos by congruence. reflexivity. }
    rewrite E1. cbn [rbind py_has_units forallb negb andb].
    destruct (ensure_array _) as [al fl] eqn:EA.
    assert (ALE : al = [PQArr (s_m_1 s) tt; PQArr (s_m_2 s) tt; PQArr (s_dist s) tt; PQArr (s_f_orb s) tt; PArr (s_ecc s); opt_arr (s_weights s)]).
    { cbn in EA. destruct (s_weights s); cbn in EA; now injection EA as <- _. }
    subst al. cbn [fst len_of rbind list_of]. cbn zeta. cbn [existsb]. rewrite L2, L3, L4, L5, <- L1, !Nat.eqb_refl. cbn [negb orb].
    unfold mbind at 1. unfold assign_gw_lum_tol. cbn [s_harm]. rewrite HH. reflexivity. }
  cbn [set_harm s_class s_m_1 s_m_2 s_ecc s_dist s_n_proc s_f_orb s_position s_polarisation s_inclination s_weights s_stat_tol s_interpolate_sc].
  destruct (s_class s); try congruence; rewrite IE; reflexivity.
Qed.
