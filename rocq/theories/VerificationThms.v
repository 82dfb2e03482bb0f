(** VerificationThms.v -- the packaged verification binaries (C99). *)
From Coq Require Import String Reals ZArith List Bool Lra Lia.
From Verif Require Import Num NumFacts Np NpFacts Utils Spec UtilsFacts Strain Psd Snr Evol EvolFacts EvolThms Harmonics HarmSpec HarmThms ScParams Source Index SourceSpec IndexSpec History CurveSpec
  InitSpec InitFacts SourceFacts MethodSpec Units FileIO Verification VerificationData VerificationSpec FileSpec ReachFacts VerificationFacts.
Import ListNotations.
Open Scope list_scope.
Open Scope R_scope.

Lemma published_full : full_table published 16. Proof. constructor; reflexivity. Qed.
Lemma published_distinct : NoDup (vt_label published).
Proof. cbn [published vt_label]. repeat (constructor; [cbn; intuition discriminate|]). constructor. Qed.

(** ** Slow inspirals are stationary *)
Lemma cube_power r p : 0 < r -> Rpower (r ^ 3) (p / 3) = Rpower r p.
Proof. intros H. replace (r ^ 3) with (Rpower r 3) by (replace 3 with (INR 3) by (cbn; lra); now apply Rpower_pow). rewrite Rpower_mult. f_equal. lra. Qed.
Lemma slow_stationary f mc t : 0 < f <= 1/250 -> 0 < mc -> Ggrav * mc <= 8e-6 * clight ^ 3 -> 0 <= t <= 5 * yr ->
  stat_elem (Fin f) (Fin mc) (Fin t) (Fin 0) (Fin (1/100)) = true.
Proof.
  intros Hf Hm Hg Ht. pose proof Ggrav_pos as PG. pose proof clight_pos as PC. pose proof PI_RGT_0 as P0. pose proof PI_4 as P4.
  assert (GM : 0 < Ggrav * mc) by now apply Rmult_lt_0_compat.
  set (F := Rpower f (-8/3)). assert (PF : 0 < F) by apply exp_pos.
  assert (A : Rpower (Ggrav * mc) (5/3) <= (1/50) ^ 5 * clight ^ 5).
  { apply Rle_trans with (Rpower ((1/50 * clight) ^ 3) (5/3)).
    - apply Rle_Rpower_l; [lra|]. split; auto. replace ((1/50 * clight) ^ 3) with (8e-6 * clight ^ 3) by (simpl; lra). exact Hg.
    - rewrite cube_power by lra. replace 5 with (INR 5) at 1 by (cbn; lra). rewrite Rpower_pow by lra. rewrite Rpow_mult_distr. lra. }
  assert (B : Rpower 2 (32/3) * Rpower PI (8/3) <= 256 * (1/3) ^ 8 * F).
  { assert (E1 : Rpower 2 (32/3) = 256 * Rpower 2 (8/3)).
    { replace (32/3) with (INR 8 + 8/3) by (cbn; lra). rewrite Rpower_plus, Rpower_pow by lra. f_equal. simpl. lra. }
    assert (E2 : F * Rpower f (8/3) = 1) by (unfold F; rewrite <- Rpower_plus; replace (-8/3 + 8/3) with 0 by lra; apply Rpower_O; lra).
    assert (E3 : Rpower 2 (8/3) * Rpower PI (8/3) * Rpower f (8/3) <= (1/3) ^ 8).
    { rewrite (Rpower_mult_distr 2 PI) by lra. rewrite Rpower_mult_distr by lra.
      apply Rle_trans with (Rpower ((1/3) ^ 3) (8/3)).
      - apply Rle_Rpower_l; [lra|]. split; [apply Rmult_lt_0_compat; lra|]. apply Rle_trans with (2 * 4 * (1/250)); [|simpl; lra]. apply Rmult_le_compat; lra.
      - rewrite cube_power by lra. replace 8 with (INR 8) at 1 by (cbn; lra). rewrite Rpower_pow by lra. lra. }
    rewrite E1. apply Rmult_le_compat_r with (r := F) in E3; [|lra].
    replace (Rpower 2 (8/3) * Rpower PI (8/3) * Rpower f (8/3) * F) with (Rpower 2 (8/3) * Rpower PI (8/3)) in E3 by (rewrite Rmult_assoc, (Rmult_comm (Rpower f _)), E2; ring). lra. }
  assert (X : Rpower 2 (32/3) * Rpower PI (8/3) * t / (5 * clight ^ 5) * Rpower (Ggrav * mc) (5/3) * enhancement 0 <= F / 200).
  { assert (C5 : 0 < clight ^ 5) by now apply pow_lt. assert (R1 : 0 < Rpower 2 (32/3) * Rpower PI (8/3)) by (apply Rmult_lt_0_compat; apply exp_pos).
    rewrite enhancement_0, Rmult_1_r.
    apply Rle_trans with (256 * (1/3) ^ 8 * F * (5 * yr) / (5 * clight ^ 5) * ((1/50) ^ 5 * clight ^ 5)).
    - apply Rmult_le_compat; auto; [|apply Rlt_le, exp_pos|].
      + apply Rmult_le_pos; [apply Rmult_le_pos; lra|apply Rlt_le, Rinv_0_lt_compat; lra].
      + unfold Rdiv. apply Rmult_le_compat_r; [apply Rlt_le, Rinv_0_lt_compat; lra|]. apply Rmult_le_compat; lra.
    - replace (256 * (1/3) ^ 8 * F * (5 * yr) / (5 * clight ^ 5) * ((1/50) ^ 5 * clight ^ 5)) with (256 * (1/3) ^ 8 * (1/50) ^ 5 * yr * F) by (field; lra).
      apply Rle_trans with (1/200 * F); [|lra]. apply Rmult_le_compat_r; [lra|]. with_strategy transparent [yr] unfold yr. simpl. lra. }
  assert (Y : F * (199/200) <= innerR f mc t 0) by (unfold innerR; fold F; lra).
  apply stat_elem_char; try lra. split; [lra|].
  apply Rle_trans with (Rpower (F * (199/200)) (-3/8)); [apply Rpower_anti_base_le; lra|].
  rewrite <- Rpower_mult_distr by lra. unfold F. rewrite Rpower_mult. replace (-8/3 * (-3/8)) with 1 by lra. rewrite Rpower_1 by lra. apply Rmult_le_compat_l; [lra|].
  replace (-3/8) with (- (3/8)) by lra. rewrite Rpower_Ropp. apply Rle_trans with (/ (199/200)); [|lra]. apply Rinv_le_contravar; [lra|].
  rewrite <- (Rpower_1 (199/200)) at 1 by lra. unfold Rpower. destruct (Req_dec (ln (199/200)) 0) as [Z|Z]; [rewrite Z; right; f_equal; lra|].
  left. apply exp_increasing. assert (ln (199/200) < 0) by (rewrite <- ln_1; apply ln_increasing; lra). lra.
Qed.
Lemma chirp_le_total m1 m2 : 0 < m1 -> 0 < m2 -> chirpR m1 m2 <= m1 + m2.
Proof.
  intros H1 H2. unfold chirpR. assert (P : 0 < Rpower (m1 + m2) (1/5)) by apply exp_pos. apply Rmult_le_reg_r with (Rpower (m1 + m2) (1/5)); auto.
  replace (Rpower (m1 * m2) (3/5) / Rpower (m1 + m2) (1/5) * Rpower (m1 + m2) (1/5)) with (Rpower (m1 * m2) (3/5)) by (field; lra).
  apply Rle_trans with (Rpower ((m1 + m2) * (m1 + m2)) (3/5)).
  - apply Rle_Rpower_l; [lra|]. assert (0 < m1 * m2) by now apply Rmult_lt_0_compat. split; auto. apply Rmult_le_compat; lra.
  - rewrite <- Rpower_mult_distr by lra. right. rewrite <- (Rpower_1 (m1 + m2)) at 3 by lra. rewrite <- !Rpower_plus. f_equal. lra.
Qed.

(** ** The packaged binaries *)
Record vrow := mkVrow { v_m1 : R; v_m2 : R; v_f : R }.
Definition vrows : list vrow := map2 (fun p f => mkVrow (fst p) (snd p) f) (map2 (fun a b => (a, b)) published_m_1 published_m_2) published_f_GW.
Lemma vrows_m1 : map v_m1 vrows = published_m_1. Proof. reflexivity. Qed.
Lemma vrows_m2 : map v_m2 vrows = published_m_2. Proof. reflexivity. Qed.
Lemma vrows_f : map v_f vrows = published_f_GW. Proof. reflexivity. Qed.
Lemma vrows_ok r : In r vrows -> 0 < v_m1 r /\ 0 < v_m2 r /\ v_m1 r + v_m2 r <= 1.4 /\ 0 < v_f r <= 6.22.
Proof.
  unfold vrows, published_m_1, published_m_2, published_f_GW. cbn [map2 fst snd]. intros H. cbn [In] in H.
  repeat (destruct H as [<-|H]; [cbn [v_m1 v_m2 v_f]; lra|]). destruct H.
Qed.
Lemma msun_pos : 0 < u_size msun. Proof. cbn. pose proof Ggrav_pos. apply Rdiv_lt_0_compat; lra. Qed.
Lemma vrow_stationary r t : In r vrows -> 0 <= t <= 5 * yr ->
  stat_elem (Fin (v_f r * (1/1000) / 2)) (chirp_mass (Fin (v_m1 r * u_size msun)) (Fin (v_m2 r * u_size msun))) (Fin t) (Fin 0) (Fin (1/100)) = true.
Proof.
  intros H Ht. destruct (vrows_ok r H) as (A & B & C & D). pose proof msun_pos as PM. pose proof Ggrav_pos as PG.
  assert (A' : 0 < v_m1 r * u_size msun) by now apply Rmult_lt_0_compat. assert (B' : 0 < v_m2 r * u_size msun) by now apply Rmult_lt_0_compat.
  rewrite chirp_mass_fin by auto. apply slow_stationary; [lra|apply chirpR_pos|..|exact Ht].
  apply Rle_trans with (Ggrav * (1.4 * u_size msun)).
  - apply Rmult_le_compat_l; [lra|]. eapply Rle_trans; [apply chirp_le_total; auto|]. rewrite <- Rmult_plus_distr_r. apply Rmult_le_compat_r; lra.
  - cbn [u_size msun]. replace (Ggrav * (1.4 * (132712440000000000000 / Ggrav))) with (1.4 * 132712440000000000000) by (field; lra). with_strategy transparent [clight] unfold clight. simpl. lra.
Qed.
Lemma repeat_map {A B} (a : B) (l : list A) : repeat a (length l) = map (fun _ => a) l.
Proof. induction l; cbn; congruence. Qed.
Lemma bzip_and_true n : logical_and (repeat true n) (repeat true n) = Ok (repeat true n).
Proof. unfold logical_and. rewrite bzip_map2 by auto. f_equal. induction n; cbn; congruence. Qed.
Lemma bzip_and_false n : logical_and (repeat true n) (repeat false n) = Ok (repeat false n).
Proof. unfold logical_and. rewrite bzip_map2 by now rewrite !repeat_length. f_equal. induction n; cbn; congruence. Qed.
Lemma published_mask t : 0 <= t <= 5 * yr -> exists mc, bzip chirp_mass (vt_m_1 published) (vt_m_2 published) = Ok mc /\
  determine_stationarity (map (fun f => ndiv f (Fin 2)) (vt_f_GW published)) (np_repeat (Fin t) 16) (repeat (Fin 0) 16) None None (Some mc) (Fin (1/100)) = Ok (repeat true 16).
Proof.
  intros Ht. cbn [published vt_m_1 vt_m_2 vt_f_GW]. unfold in_size. rewrite <- vrows_m1, <- vrows_m2, <- vrows_f, !map_map, bzip_map. eexists. split; [reflexivity|].
  unfold np_repeat. change 16%nat with (length vrows). rewrite !repeat_map. rewrite determine_stationarity_map. f_equal. apply map_ext_in. intros r Hr.
  rewrite ndiv_fin by lra. rewrite stat_elem_eq. now apply vrow_stationary.
Qed.
Lemma stationary_thm x ecl b v t : verification_binaries x ecl published = Ok b -> holds_table x ecl published 16 b -> (v = PNil /\ t = 4 * yr \/ v = PVal (Fin t)) -> 0 <= t <= 5 * yr ->
  get_source_mask TriNone TriTrue v (vb_source b) = Ok (repeat true 16) /\ get_source_mask TriNone TriFalse v (vb_source b) = Ok (repeat false 16).
Proof.
  intros _ [? ? M1 M2 ? F E ? ? ? ? ? ? ? P ST ?] V Ht. destruct (published_mask t Ht) as (mc & HM & HD).
  assert (N : n_sources (vb_source b) = 16%nat) by (unfold n_sources; now rewrite M1).
  assert (T : time_of (resolve_t_obs (or_default v (get_or_none "t_obs" (s_params (vb_source b)))) (get_or_none "instrument" (s_params (vb_source b)))) = Ok (Fin t)).
  { rewrite P. destruct V as [[-> ->]| ->]; reflexivity. }
  unfold get_source_mask. cbn [rbind]. cbv zeta. rewrite T. cbn [rbind]. unfold m_c. rewrite M1, M2, HM. cbn [rbind]. rewrite N, F, E, ST, HD. cbn [rbind].
  split; [apply bzip_and_true|]. replace (map negb (repeat true 16)) with (repeat false 16) by reflexivity. apply bzip_and_false.
Qed.
Lemma no_subset_thm x ecl t b ops ind : verification_binaries x ecl t = Ok b -> getitem ind (fst (run x ops (vb_source b))) = Err NotImplementedErr.
Proof.
  intros H. destruct (histories_thm x ecl t b ops H) as ([C _] & _). unfold getitem. rewrite C. clear C. apply verification_fwd in H. destruct H as (p & s & i & P & A & Hp & Hi & Hq & Hw & Hm & HI & ->).
  cbn [vb_source s_class set_max_snr_harmonic]. apply init_fwd in HI. destruct HI as (f & pos & inc & pol & C & F). destruct (finish_arrays _ _ _ _ F) as (_ & _ & _ & _ & _ & _ & _ & _ & _ & _ & _ & _ & _ & K & _).
  now rewrite K.
Qed.
Lemma published_thm x ecl : world_ready x -> exists b, verification_binaries x ecl published = Ok b /\ holds_table x ecl published 16 b /\ NoDup (vb_labels b) /\
  forall v t, (v = PNil /\ t = 4 * yr \/ v = PVal (Fin t)) -> 0 <= t <= 5 * yr ->
    get_source_mask TriNone TriTrue v (vb_source b) = Ok (repeat true 16) /\ get_source_mask TriNone TriFalse v (vb_source b) = Ok (repeat false 16).
Proof.
  intros W. destruct (built_thm x ecl published 16 published_full W) as (b & Hb & HT). exists b. split; auto. split; auto. split; [rewrite (ht_labels _ _ _ _ _ HT); exact published_distinct|].
  intros v t V Ht. exact (stationary_thm x ecl b v t Hb HT V Ht).
Qed.
