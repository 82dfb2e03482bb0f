(** Toy2.v -- concrete collections on which every SNR method works, for the examples beside the theorems. *)
From Coq Require Import String Reals ZArith List Lra Lia Bool.
From Verif Require Import Num NumFacts Np NpFacts Utils UtilsFacts Spec Strain StrainSpec StrainFacts Psd Snr SnrSpec SnrFacts SnrThms Interp Evol EvolSpec Harmonics HarmSpec
  HarmThms ScParams Source Index SourceSpec MethodSpec SourceFacts MethodFacts MethodThms SourceThms SourceThms2 PsdSpec History CurveSpec CurveFacts OdeintFacts MergeFacts Toy.
Import ListNotations.
Open Scope R_scope.

(** The sources [xs] without angles, merger times and stored SNRs, with the custom instrument number 0 (noise 1). *)
Definition toy_of (xs : list row) : src :=
  mkSrc KSource (map r_m1 xs) (map r_m2 xs) (map r_d xs) (map r_f xs) (map r_e xs) None None None None None None None (map r_merged xs)
        (Fin (1/100)) 1 toy_h None false None (custom_params 0).
Definition toy_row (m1 m2 d f e : R) : row := mkRow (Fin m1) (Fin m2) (Fin d) (Fin f) (Fin e) (mkAngles 0 0 0 0) (Fin 0) (Fin 0) (Fin 0) 0 false.
Lemma toy_collection xs : collection (toy_of xs) xs.
Proof. split; try reflexivity; left; reflexivity. Qed.
(** It is what the constructor returns. *)
Lemma toy_of_init xs : (forall r, In r xs -> r_merged r = false) ->
  init x_toy KSource (toy_args (map r_m1 xs) (map r_m2 xs) (map r_e xs) (map r_d xs) (map r_f xs) false (custom_params 0)) = Ok (toy_of xs).
Proof.
  intros H. rewrite (toy_init KSource _ _ _ _ _ false (custom_params 0) (custom_params 0) None); rewrite ?map_length; auto.
  unfold toy_src, toy_of. do 2 f_equal. rewrite map_length. unfold np_repeat. induction xs as [|r xs IH]; auto. cbn. rewrite (H r (or_introl eq_refl)), IH; auto.
  intros; apply H; now right.
Qed.
Lemma required_range jv lum tbl tol h e : lum_table lum tbl -> set_gw_lum_tol jv lum (Fin tol) no_harm = (h, Ok tt) -> (2 <= h_required h (Fin e) <= Z.of_nat (n_max lum))%Z.
Proof.
  intros T. unfold set_gw_lum_tol. cbn [h_gw_lum_tol no_harm].
  match goal with |- context [create_harmonics_functions lum ?h0] => destruct (create_harmonics_functions lum h0) as [h1 r] eqn:E end.
  match type of E with create_harmonics_functions _ ?h0 = _ => destruct (harmonics_required_monotone lum tbl tol h0 h1 r T eq_refl E) as [_ B] end. destruct r; [|intros H; discriminate H].
  unfold find_eccentric_transition. destruct (h_gw_lum_tol h1); [|intros H; discriminate H]. destruct (eccentric_transition jv n); [|intros H; discriminate H].
  intros H. apply (f_equal fst) in H. cbn [fst] in H. rewrite <- H. apply B.
Qed.
Lemma tolerance_range jv lum tol h : set_gw_lum_tol jv lum tol no_harm = (h, Ok tt) -> exists t, h_ecc_tol h = Some (Fin t) /\ 0 <= t.
Proof.
  unfold set_gw_lum_tol. cbn [h_gw_lum_tol no_harm].
  match goal with |- context [create_harmonics_functions lum ?h0] => destruct (create_harmonics_functions lum h0) as [h1 [u|]] end; [|intros H; discriminate H].
  unfold find_eccentric_transition. destruct (h_gw_lum_tol h1); [|intros H; discriminate H]. destruct (eccentric_transition jv n) as [et|] eqn:E; [|intros H; discriminate H].
  intros H. apply (f_equal fst) in H. cbn [fst] in H. rewrite <- H. destruct (transition_spec _ _ _ E) as (j & Hj & -> & _). exists (grid_ecc j). split; [reflexivity|].
  now apply grid_ecc_bounds.
Qed.
Lemma toy_required e : (2 <= h_required toy_h (Fin e) <= 3)%Z.
Proof. exact (required_range jv_toy lum_ex tbl_ex (1/20) toy_h e lum_ex_ok toy_h_ok). Qed.
Lemma toy_tol : exists t, h_ecc_tol toy_h = Some (Fin t) /\ 0 <= t.
Proof. exact (tolerance_range _ _ _ _ toy_h_ok). Qed.
Lemma odeint_model_shape : odeint_shape odeint_model.
Proof. intros rhs e0 ts. unfold odeint_model. destruct (rhs (Fin (1/2))), e0; rewrite ?map_length; reflexivity. Qed.
(** Objects with these settings; the observing time is still "auto" or already the mission length. *)
Definition toy_params (t : pval) : dict :=
  [("instrument", PStr "custom"); ("custom_psd", PFun 0); ("t_obs", t); ("L", PStr "auto"); ("approximate_R", PBool false); ("confusion_noise", PStr "auto")]%string.
Definition toy_time : R := mission_length (PStr "custom").
Definition toy_like (s : src) : Prop :=
  (s_params s = toy_params (PStr "auto") \/ s_params s = toy_params (PVal (Fin toy_time))) /\ s_interpolate_sc s = false /\ s_sc s = None /\
  s_harm s = toy_h /\ s_g s = None /\ s_position s = None /\ s_class s = KSource.
Lemma toy_of_like xs : toy_like (toy_of xs).
Proof. split; [now left|]. repeat (split; [reflexivity|]). reflexivity. Qed.
Lemma toy_used s : toy_like s -> params_of (used no_args s) = toy_params (PVal (Fin toy_time)) /\ a_t_obs (used no_args s) = PVal (Fin toy_time) /\
  exists t, params_of (asked no_args s) = toy_params t.
Proof.
  intros ([H|H] & _); unfold used, asked, given, current; rewrite H; (split; [reflexivity|]); (split; [reflexivity|]); eexists; reflexivity.
Qed.
Lemma toy_computable s xs n : (1 <= n)%nat -> toy_like s -> collection s xs -> (forall r, In r xs -> exists e, r_e r = Fin e /\ 0 <= e <= 1) ->
  computable x_toy s xs no_args toy_time n.
Proof.
  intros Hn HL HC He. destruct (toy_used s HL) as (U1 & U2 & U3). destruct HL as (HP & I & S & H & _). split.
  - exact HC.
  - destruct HP as [-> | ->]; reflexivity.
  - unfold in_step. now rewrite I.
  - exact U2.
  - rewrite U1. exists (fun _ => Fin (INR 0 + 1)). intros fs. reflexivity.
  - destruct HP as [HP|HP]; exists (fun _ => Fin (INR 0 + 1)); unfold asked, given, current; rewrite HP; intros fs; reflexivity.
  - destruct toy_tol as (t & T & _). exists t. now rewrite H.
  - intros r Hr. destruct (He r Hr) as (e & E & B). exists e. split; auto. split; auto. pose proof (toy_required e). rewrite H. lia.
  - exact Hn.
  - exact odeint_model_shape.
  - intros k i Hi. apply in_seq. lia.
Qed.
(** A circular binary is heard. *)
Lemma toy_loud s kw t r v h m1 m2 d f : toy_like s -> noise_curve (x_psd x_toy) kw None t (fun _ => Fin (INR 0 + 1)) -> 0 < t ->
  r_m1 r = Fin m1 -> r_m2 r = Fin m2 -> r_d r = Fin d -> r_f r = Fin f -> r_e r = Fin 0 -> 0 < m1 -> 0 < m2 -> 0 < d -> 0 < f ->
  stationary_snr x_toy s None kw t r v h -> exists y, v = Fin y /\ 0 < y.
Proof.
  intros (_ & _ & _ & LH & LG & LP & _) HP Ht R1 R2 R3 R4 R5 H1 H2 Hd Hf S. destruct toy_tol as (tol & T & P).
  inversion S as [A B|u h' A B C]; subst.
  2:{ exfalso. destruct A as (tol' & A & L). rewrite LH, T in A. injection A as <-. rewrite R5 in L. apply nlt_fin in L. lra. }
  rewrite R1, R2, R3, R4, LG in B. unfold sky_of_row in B. rewrite LP in B.
  change [chirp_mass (Fin m1) (Fin m2)] with (map (fun _ : unit => chirp_mass (Fin m1) (Fin m2)) [tt]) in B.
  change [Fin f] with (map (fun _ : unit => Fin f) [tt]) in B. change [Fin d] with (map (fun _ : unit => Fin d) [tt]) in B.
  change (pop_sky [r] None) with (pop_sky [tt] None) in B.
  rewrite (circ_stationary_map (x_psd x_toy) (x_jv x_toy) None _ _ _ [tt] t None None kw _ HP) in B. cbn [map] in B. injection B as <-.
  rewrite (chirp_mass_fin m1 m2) by auto. set (m := chirpR m1 m2). assert (Hm : 0 < m) by now apply chirpR_pos.
  assert (G : power_used jv_toy None 2 0 (gR J_toy 2 0)) by (apply (peters_g_fin jv_toy J_toy 2 0); [exact jv_toy_fin|lia]).
  assert (G1 : gR J_toy 2 0 = 1) by (unfold gR, J_toy; cbn; field).
  rewrite G1 in G. assert (PN : proper_noise (fun _ : num => Fin (INR 0 + 1))) by (intros f0 _; right; exists (INR 0 + 1); split; auto; cbn; lra).
  destruct (st_elem_fin jv_toy None t _ m f 0 d 2 1 None Hm Hf Hd ltac:(lra) ltac:(lia) G ltac:(lra) PN) as (y & E & Y & Q). cbn [option_map pop_amp] in E.
  match goal with |- exists y, nsqrt _ = _ /\ _ => change (exists y, nsqrt (st_elem jv_toy None (Fin t) (fun _ => Fin (INR 0 + 1)) (Fin m) (Fin f) (Fin 0) (Fin d) None 2) = Fin y /\ 0 < y) end.
  rewrite E, nsqrt_fin by auto. eexists. split; [reflexivity|]. apply sqrt_lt_R0. inversion Q as [s0 Hs Hy|]. subst.
  assert (P' : 0 < h0R m f d 1 2).
  { pose proof Ggrav_pos. pose proof clight_pos. pose proof PI_RGT_0. assert (0 < sqrt 1) by (apply sqrt_lt_R0; lra). assert (0 < IZR 2) by lra. assert (0 < sqrt (Rpower 2 (28/3) / 5)) by (apply sqrt_lt_R0; pos). unfold h0R. pos. }
  cbn [ampR]. rewrite sqrt_1, Rmult_1_l. cbn. apply Rdiv_lt_0_compat; [|lra]. apply Rmult_lt_0_compat; auto. nra.
Qed.
(** An SNR calculation on such an object: the new object is of the same kind, its rows have the new SNRs. *)
Lemma toy_noise kw : kw_of x_toy (toy_params (PVal (Fin toy_time))) = Ok kw -> forall t, noise_curve (x_psd x_toy) kw None t (fun _ => Fin (INR 0 + 1)).
Proof. intros H t fs. cbn in H. injection H as <-. reflexivity. Qed.
Definition whole (r : row) : Prop := exists m1 m2 d f, r_m1 r = Fin m1 /\ r_m2 r = Fin m2 /\ r_d r = Fin d /\ r_f r = Fin f /\ r_e r = Fin 0 /\ 0 < m1 /\ 0 < m2 /\ 0 < d /\ 0 < f.
Lemma toy_stationary s xs : toy_like s -> collection s xs -> (forall r, In r xs -> exists e, r_e r = Fin e /\ 0 <= e <= 1) ->
  exists s' vf hf, get_snr_stationary x_toy no_args None s = (s', Ok (map (fun r => if r_merged r then Fin 0 else vf r) xs)) /\
    toy_like s' /\ collection s' (map (fun r => with_snr (if r_merged r then old_snr s r else vf r) (hf r) r) xs) /\ s_t_merge s' = s_t_merge s /\
    s_snr s' = Some (map (fun r => if r_merged r then old_snr s r else vf r) xs) /\ forall r, In r xs -> whole r -> exists y, vf r = Fin y /\ 0 < y.
Proof.
  intros L C He. pose proof (toy_computable s xs 1 ltac:(lia) L C He) as HC0. assert (HC : computable x_toy s (map (fun r => r) xs) no_args toy_time 1) by now rewrite map_id.
  destruct (settings (fun r => r) x_toy no_args 1 s xs toy_time HC) as (sc & kw & p & tol & CU & K & P & T & U).
  assert (W : which_or_all None s = map (fun _ => true) xs) by (cbn; rewrite (n_sources_map _ _ C); apply np_repeat_map).
  pose proof (stationary_run (fun r => r) x_toy no_args 1 s xs toy_time HC sc kw p tol K P T U no_args None s (fun r => r) (fun _ => true) (good_s _ x_toy no_args 1 s xs toy_time HC)) as E.
  assert (R : related s s) by (repeat split). specialize (E R (ok_rows _ _ _ _ _ _ HC) (fun y => near_refl _) eq_refl W).
  rewrite filter_true in E. cbn [andb] in E.
  eexists _, (st_val x_toy s toy_time p (Fin tol)), (fun r => if negb (r_merged r) then st_msh x_toy s toy_time p (Fin tol) r else old_msh s r). split; [exact E|].
  assert (EQ : map (fun y => if negb (r_merged y) then st_val x_toy s toy_time p (Fin tol) y else old_snr s y) xs = map (fun r => if r_merged r then old_snr s r else st_val x_toy s toy_time p (Fin tol) r) xs)
    by (apply map_ext; intros y; now destruct (r_merged y)).
  rewrite EQ. destruct (toy_used s L) as (U1 & U2 & _). pose proof L as (L1 & L2 & L3 & L4 & L5 & L6 & L7).
  assert (SC : sc = None) by (unfold curve_in_use in CU; now rewrite L2 in CU).
  split; [split; [right; exact U1|]; repeat split; auto|]. split; [|split; [reflexivity|split; [reflexivity|]]].
  - apply (collection_after (fun r => r)). rewrite map_id. now apply collection_curve.
  - intros r Hr (m1 & m2 & d & f & R1 & R2 & R3 & R4 & R5 & P1 & P2 & P3 & P4). rewrite U1 in K. subst sc.
    destruct (He r Hr) as (e & Ee & E01).
    eapply (toy_loud s kw toy_time r _ _ m1 m2 d f L (toy_noise kw K toy_time)); eauto.
    + unfold toy_time, mission_length. cbn. unfold year. lra.
    + apply (st_val_spec x_toy s None toy_time p tol kw r e); auto. pose proof (toy_required e). rewrite L4. lia.
Qed.
