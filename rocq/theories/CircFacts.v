(** CircFacts.v -- final statements about the circular evolution, stationarity and merger-time bounds. *)
From Coq Require Import String Reals ZArith List Bool Lra Lia.
From Coquelicot Require Import Coquelicot.
From Verif Require Import Num NumFacts Np NpFacts Utils Spec UtilsFacts Evol EvolSpec EvolFacts MergeFacts OdeFacts ArrEvolFacts.
Import ListNotations.
Open Scope R_scope.

Lemma merge_circ_sc m1 m2 a : 0 < m1 -> 0 < m2 -> 0 < a ->
  get_t_merge_circ_sc None (Some (Fin m1)) (Some (Fin m2)) (Some (Fin a)) None = Ok (Fin (tmR (betaR m1 m2) a)).
Proof.
  intros H1 H2 Ha. unfold get_t_merge_circ_sc, check_sc, check_mass_freq_input. cbn [rbind fst snd].
  rewrite beta_fin by auto. rewrite t_merge_circ_fin; auto using betaR_pos.
Qed.
Lemma merge_circ_sc_f m1 m2 f : 0 < m1 -> 0 < m2 -> 0 < f ->
  get_t_merge_circ_sc None (Some (Fin m1)) (Some (Fin m2)) None (Some (Fin f)) = Ok (Fin (tmR (betaR m1 m2) (aR f m1 m2))).
Proof.
  intros H1 H2 Ha. unfold get_t_merge_circ_sc, check_sc, check_mass_freq_input. cbn [rbind fst snd].
  rewrite beta_fin, get_a_fin by auto. rewrite t_merge_circ_fin; auto using betaR_pos.
Qed.
Lemma merge_circ_sc_b b a : 0 < b ->
  get_t_merge_circ_sc (Some (Fin b)) None None (Some (Fin a)) None = Ok (Fin (tmR b a)).
Proof.
  intros Hb. unfold get_t_merge_circ_sc, check_sc, check_mass_freq_input. cbn [rbind fst snd].
  now rewrite t_merge_circ_fin.
Qed.

(** the scalar call of evol_circ, from masses and separation, with explicit times *)

Lemma circ_call_a quad m1 m2 a n ts : 0 < m1 -> 0 < m2 ->
  circ_call quad m1 m2 a n (map Fin ts) ["a"%string] = Ok (Single (E1 (map (fun t => Fin (acR a (betaR m1 m2) t)) ts))).
Proof.
  intros H1 H2. unfold circ_call. rewrite evol_circ_scalar_m. cbn. rewrite app_nil_r, map_map.
  rewrite beta_fin by auto. do 3 f_equal. apply map_ext. intros t. apply circ_a_fin.
Qed.
Lemma circ_call_f quad m1 m2 a n ts : 0 < m1 -> 0 < m2 ->
  circ_call quad m1 m2 a n (map Fin ts) ["f_orb"%string]
  = Ok (Single (E1 (map (fun t => freq_of_a (Fin m1) (Fin m2) (Fin (acR a (betaR m1 m2) t))) ts))).
Proof.
  intros H1 H2. unfold circ_call. rewrite evol_circ_scalar_m. cbn -[freq_of_a]. rewrite app_nil_r, map_map.
  rewrite beta_fin by auto. do 3 f_equal. apply map_ext. intros t. now rewrite circ_a_fin.
Qed.

Lemma circ_call_a1 quad m1 m2 a n t : 0 < m1 -> 0 < m2 ->
  circ_call quad m1 m2 a n [Fin t] ["a"%string] = Ok (Single (E1 [Fin (acR a (betaR m1 m2) t)])).
Proof. intros. exact (circ_call_a quad m1 m2 a n [t] H H0). Qed.

Lemma circ_separation quad m1 m2 a0 : 0 < m1 -> 0 < m2 -> 0 < a0 ->
  exists (a : R -> R) (tm : R),
    get_t_merge_circ_sc None (Some (Fin m1)) (Some (Fin m2)) (Some (Fin a0)) None = Ok (Fin tm) /\ 0 < tm /\
    (forall n ts, circ_call quad m1 m2 a0 n (map Fin ts) ["a"%string] = Ok (Single (E1 (map (fun t => Fin (a t)) ts)))) /\
    a 0 = a0 /\
    (forall t, t < tm -> 0 < a t /\ is_derive a t (peters_da_dt m1 m2 (a t) 0)) /\
    (forall s t, s < t -> t <= tm -> a t < a s) /\
    (forall t, tm <= t -> a t = 0).
Proof.
  intros H1 H2 Ha. pose proof (betaR_pos m1 m2 H1 H2) as Hb.
  exists (acR a0 (betaR m1 m2)), (tmR (betaR m1 m2) a0).
  split; [now apply merge_circ_sc|]. split; [now apply tmR_pos|]. split; [intros; now apply circ_call_a|].
  split; [now apply acR_0|]. split; [|split].
  - intros t Ht. split; [now apply acR_pos|].
    rewrite peters_da_dt_beta by (try apply acR_pos; auto; lra). rewrite enhancement_0, Rmult_1_r.
    now apply acR_derive.
  - intros s t Hst Ht. apply acR_decr; auto. lra.
  - intros t Ht. now apply acR_after.
Qed.

Lemma circ_frequency quad m1 m2 a0 : 0 < m1 -> 0 < m2 -> 0 < a0 ->
  exists (a f : R -> R) (tm : R),
    get_t_merge_circ_sc None (Some (Fin m1)) (Some (Fin m2)) (Some (Fin a0)) None = Ok (Fin tm) /\
    (forall n ts, circ_call quad m1 m2 a0 n (map Fin ts) ["a"%string] = Ok (Single (E1 (map (fun t => Fin (a t)) ts)))) /\
    (forall n ts, circ_call quad m1 m2 a0 n (map Fin ts) ["f_orb"%string] = Ok (Single (E1 (map (fun t => Fin (f t)) ts)))) /\
    (forall t, t < tm -> a t <> tiny -> 0 < f t /\ kepler_third_law m1 m2 (a t) (f t)) /\
    (forall s t, s < t -> t < tm -> a s <> tiny -> a t <> tiny -> f s < f t) /\
    (forall t, tm <= t -> f t = 100).
Proof.
  intros H1 H2 Ha. pose proof (betaR_pos m1 m2 H1 H2) as Hb.
  exists (acR a0 (betaR m1 m2)),
    (fun t => match freq_of_a (Fin m1) (Fin m2) (Fin (acR a0 (betaR m1 m2) t)) with Fin r => r | _ => 0 end),
    (tmR (betaR m1 m2) a0).
  assert (FF : forall a, 0 <= a -> exists r, freq_of_a (Fin m1) (Fin m2) (Fin a) = Fin r).
  { intros a [Hp| <-].
    - destruct (Req_dec a tiny) as [->|N].
      + exists 100. unfold freq_of_a. rewrite neqb_f by lra. now rewrite neqb_t.
      + eexists. now apply freq_of_a_fin.
    - exists 100. apply freq_of_a_merged. }
  assert (NN : forall t, 0 <= acR a0 (betaR m1 m2) t).
  { intros t. destruct (Rlt_le_dec t (tmR (betaR m1 m2) a0)) as [L|L].
    - left. now apply acR_pos.
    - rewrite acR_after by auto. lra. }
  split; [now apply merge_circ_sc|]. split; [intros; now apply circ_call_a|]. split; [|split; [|split]].
  - intros n ts. rewrite circ_call_f by auto. do 3 f_equal. apply map_ext. intros t.
    destruct (FF _ (NN t)) as [r ->]. reflexivity.
  - intros t Ht Htiny. rewrite freq_of_a_fin by (auto; now apply acR_pos). split; [apply fR_pos|].
    apply fR_kepler; auto. now apply acR_pos.
  - intros s t Hst Ht Hs Ht'. rewrite !freq_of_a_fin by (auto; apply acR_pos; auto; lra).
    apply (kepler_mono_a m1 m2 (acR a0 (betaR m1 m2) t) (acR a0 (betaR m1 m2) s)); auto using fR_pos.
    + now apply acR_pos.
    + apply acR_decr; auto. lra.
    + apply fR_kepler; auto. now apply acR_pos.
    + apply fR_kepler; auto. apply acR_pos; auto. lra.
  - intros t Ht. rewrite acR_after by auto. now rewrite freq_of_a_merged.
Qed.

(** C14 *)
Lemma circ_two_steps quad m1 m2 a0 t1 t2 a1 tm n var : 0 < m1 -> 0 < m2 -> 0 < a0 ->
  get_t_merge_circ_sc None (Some (Fin m1)) (Some (Fin m2)) (Some (Fin a0)) None = Ok (Fin tm) -> t1 < tm ->
  circ_call quad m1 m2 a0 n [Fin t1] ["a"%string] = Ok (Single (E1 [Fin a1])) ->
  In var ["a"; "f_orb"; "f_GW"]%string ->
  circ_call quad m1 m2 a1 n [Fin t2] [var] = circ_call quad m1 m2 a0 n [Fin (t1 + t2)] [var].
Proof.
  intros H1 H2 Ha Htm Ht HA HV. pose proof (betaR_pos m1 m2 H1 H2) as Hb.
  rewrite merge_circ_sc in Htm by auto. inversion Htm; subst tm.
  rewrite (circ_call_a1 quad m1 m2 a0 n t1) in HA by auto. 
  assert (E : acR a0 (betaR m1 m2) t1 = a1) by congruence. subst a1.
  unfold circ_call. rewrite !evol_circ_scalar_m. rewrite !beta_fin by auto. cbn [map].
  rewrite !circ_a_fin, acR_compose by auto.
  destruct HV as [<-|[<-|[<-|[]]]]; reflexivity.
Qed.
Lemma Rsum_nonneg l : List.Forall (fun t => 0 <= t) l -> 0 <= Rsum l.
Proof. induction 1; simpl; lra. Qed.
Lemma circ_run_eq quad m1 m2 a0 n dts : 0 < m1 -> 0 < m2 -> 0 < a0 -> List.Forall (fun t => 0 <= t) dts ->
  Rsum dts < tmR (betaR m1 m2) a0 ->
  circ_run quad m1 m2 a0 n dts = Ok (Fin (acR a0 (betaR m1 m2) (Rsum dts))).
Proof.
  intros H1 H2 Ha HF. pose proof (betaR_pos m1 m2 H1 H2) as Hb. revert a0 Ha.
  induction HF as [|dt dts Hdt HF IH]; intros a0 Ha HS.
  - cbn. now rewrite acR_0.
  - pose proof (Rsum_nonneg dts HF) as HN. unfold Rsum in HS |- *. cbn [circ_run fold_right] in HS |- *.
    assert (L : dt < tmR (betaR m1 m2) a0) by (change (fold_right Rplus 0 dts) with (Rsum dts) in HS; lra).
    rewrite (circ_call_a1 quad m1 m2 a0 n dt) by auto.
    change (fold_right Rplus 0 dts) with (Rsum dts) in *.
    rewrite IH.
    + now rewrite acR_compose.
    + now apply acR_pos.
    + rewrite tmR_acR by auto. lra.
Qed.
Lemma circ_history quad m1 m2 a0 n dts tm : 0 < m1 -> 0 < m2 -> 0 < a0 -> List.Forall (fun t => 0 <= t) dts ->
  get_t_merge_circ_sc None (Some (Fin m1)) (Some (Fin m2)) (Some (Fin a0)) None = Ok (Fin tm) -> Rsum dts < tm ->
  exists a, circ_run quad m1 m2 a0 n dts = Ok (Fin a) /\
            circ_call quad m1 m2 a0 n [Fin (Rsum dts)] ["a"%string] = Ok (Single (E1 [Fin a])).
Proof.
  intros H1 H2 Ha HF HT HS. rewrite merge_circ_sc in HT by auto. inversion HT; subst tm.
  eexists. split; [now apply circ_run_eq|]. apply circ_call_a1; auto.
Qed.

(** C15 *)
Lemma circ_merged_iff quad m1 m2 a0 n t tm : 0 < m1 -> 0 < m2 -> 0 < a0 ->
  get_t_merge_circ_sc None (Some (Fin m1)) (Some (Fin m2)) (Some (Fin a0)) None = Ok (Fin tm) ->
  (circ_call quad m1 m2 a0 n [Fin t] ["a"%string] = Ok (Single (E1 [Fin 0])) <-> tm <= t).
Proof.
  intros H1 H2 Ha HT. pose proof (betaR_pos m1 m2 H1 H2) as Hb. rewrite merge_circ_sc in HT by auto.
  inversion HT; subst tm. rewrite (circ_call_a1 quad m1 m2 a0 n t) by auto. cbn [map]. split.
  - intros E. assert (E' : acR a0 (betaR m1 m2) t = 0) by congruence.
    destruct (Rlt_le_dec t (tmR (betaR m1 m2) a0)) as [L|L]; auto. pose proof (acR_pos a0 _ t Hb L). lra.
  - intros L. now rewrite acR_after.
Qed.
Lemma circ_countdown quad m1 m2 a0 n t tm : 0 < m1 -> 0 < m2 -> 0 < a0 ->
  get_t_merge_circ_sc None (Some (Fin m1)) (Some (Fin m2)) (Some (Fin a0)) None = Ok (Fin tm) -> t < tm ->
  exists a, circ_call quad m1 m2 a0 n [Fin t] ["a"%string] = Ok (Single (E1 [Fin a])) /\
    get_t_merge_circ_sc None (Some (Fin m1)) (Some (Fin m2)) (Some (Fin a)) None = Ok (Fin (tm - t)).
Proof.
  intros H1 H2 Ha HT L. pose proof (betaR_pos m1 m2 H1 H2) as Hb. rewrite merge_circ_sc in HT by auto.
  inversion HT; subst tm. exists (acR a0 (betaR m1 m2) t).
  split; [apply circ_call_a1; auto|].
  rewrite merge_circ_sc by (auto; now apply acR_pos). now rewrite tmR_acR.
Qed.

(** C16 *)
Lemma circ_call_freq_eq quad m1 m2 f n t : 0 < m1 -> 0 < m2 -> 0 < f ->
  circ_call_freq quad m1 m2 f n [Fin t] ["f_orb"%string] =
  Ok (Single (E1 [freq_of_a (Fin m1) (Fin m2) (Fin (acR (aR f m1 m2) (betaR m1 m2) t))])).
Proof.
  intros H1 H2 Hf. unfold circ_call_freq. rewrite evol_circ_scalar_f. rewrite beta_fin, get_a_fin by auto.
  cbn -[freq_of_a circ_a_elem]. now rewrite circ_a_fin.
Qed.
Lemma circ_call_freq_a quad m1 m2 f n t : 0 < m1 -> 0 < m2 -> 0 < f ->
  circ_call_freq quad m1 m2 f n [Fin t] ["a"%string] =
  Ok (Single (E1 [Fin (acR (aR f m1 m2) (betaR m1 m2) t)])).
Proof.
  intros H1 H2 Hf. unfold circ_call_freq. rewrite evol_circ_scalar_f. rewrite beta_fin, get_a_fin by auto.
  cbn -[freq_of_a circ_a_elem]. now rewrite circ_a_fin.
Qed.
Lemma evolve_one f mc t e mf : evolve_f_orb_circ [f] [mc] [t] [e] mf = Ok [circ_f_elem f mc t e mf].
Proof. exact (evolve_f_orb_circ_map (fun _ : unit => f) (fun _ => mc) (fun _ => t) (fun _ => e) mf [tt]). Qed.

Lemma circ_agree quad m1 m2 f t n mf mc tm a : 0 < m1 -> 0 < m2 -> 0 < f ->
  chirp_mass (Fin m1) (Fin m2) = Fin mc ->
  get_t_merge_circ_sc None (Some (Fin m1)) (Some (Fin m2)) None (Some (Fin f)) = Ok (Fin tm) ->
  circ_call_freq quad m1 m2 f n [Fin t] ["a"%string] = Ok (Single (E1 [Fin a])) -> a <> tiny ->
  (t < tm -> exists x, evolve_f_orb_circ [Fin f] [Fin mc] [Fin t] [Fin 0] mf = Ok [Fin x] /\
                       circ_call_freq quad m1 m2 f n [Fin t] ["f_orb"%string] = Ok (Single (E1 [Fin x]))) /\
  (tm < t -> evolve_f_orb_circ [Fin f] [Fin mc] [Fin t] [Fin 0] mf = Ok [mf] /\ a = 0) /\
  (t = tm -> evolve_f_orb_circ [Fin f] [Fin mc] [Fin t] [Fin 0] mf = Ok [PInf] /\ a = 0).
Proof.
  intros H1 H2 Hf Hc HT HA Htiny. pose proof (betaR_pos m1 m2 H1 H2) as Hb. rewrite merge_circ_sc_f in HT by auto.
  inversion HT; subst tm. rewrite chirp_mass_fin in Hc by auto. apply Fin_inj in Hc. subst mc.
  rewrite circ_call_freq_a in HA by auto.
  assert (E : acR (aR f m1 m2) (betaR m1 m2) t = a) by congruence. clear HA.
  rewrite evolve_one, circ_call_freq_eq by auto.
  assert (Ha : 0 < aR f m1 m2) by apply aR_pos. assert (Hm : 0 < chirpR m1 m2) by apply chirpR_pos.
  assert (IN : innerR f (chirpR m1 m2) t 0 = KR (m1 + m2) * (aR f m1 m2 ^ 4 - 4 * betaR m1 m2 * t)).
  { rewrite <- (fR_aR f m1 m2) at 1 by auto. rewrite inner_K by auto. rewrite enhancement_0. ring. }
  pose proof (KR_pos (m1 + m2)) as HK. pose proof (before_merger (aR f m1 m2) (betaR m1 m2) t Hb) as BM.
  split; [|split].
  - intros L. pose proof (proj1 BM L) as P. exists (fR a m1 m2).
    assert (Hap : 0 < a) by (rewrite <- E; now apply acR_pos).
    rewrite circ_f_pos by (auto; try lra; rewrite IN; now apply Rmult_lt_0_compat).
    rewrite IN, <- (acR_pow4 (aR f m1 m2)), E by auto. rewrite K38 by auto.
    rewrite freq_of_a_fin by auto. auto.
  - intros L. split; [|rewrite <- E; apply acR_after; auto; lra].
    rewrite circ_f_neg; auto; [lra|]. rewrite IN.
    assert (aR f m1 m2 ^ 4 - 4 * betaR m1 m2 * t < 0).
    { unfold tmR in L. apply Rmult_lt_compat_r with (r := 4 * betaR m1 m2) in L; [|lra].
      unfold Rdiv in L. rewrite Rmult_assoc, Rinv_l in L by lra. lra. }
    nra.
  - intros ->. split; [|rewrite <- E; apply acR_after; auto; lra].
    rewrite circ_f_zero; auto; [lra|]. rewrite IN. unfold tmR. field. lra.
Qed.

(** C19: all regimes *)
Lemma small_lower b a e : 0 < b -> 0 < a -> 0 < e < 15/100 -> tmR b a / enhancement e <= tsmR b a e.
Proof.
  intros Hb Ha He. assert (He1 : 0 < e < 1) by lra. destruct (e_facts e He1) as [A B].
  rewrite tsmR_alt by auto. pose proof (tmR_pos b a Hb Ha) as HT. unfold Rdiv.
  apply Rmult_le_compat_l; [lra|]. pose proof (enhancement_pos e ltac:(lra)) as HP.
  set (N := 1 + 73/24 * e ^ 2 + 37/96 * e ^ 4).
  assert (E2 : 0 < e ^ 2 < 225/10000) by (simpl; nra).
  assert (E4 : e ^ 4 = e ^ 2 * e ^ 2) by ring.
  assert (S : 0 < sqrt (1 - e ^ 2)) by now apply sqrt_lt_R0.
  assert (SS : sqrt (1 - e ^ 2) * sqrt (1 - e ^ 2) = 1 - e ^ 2) by (apply sqrt_sqrt; lra).
  set (s := sqrt (1 - e ^ 2)) in *.
  assert (S1 : s < 1) by nra.
  assert (Q4 : Rpower (1 - e ^ 2) 4 = s ^ 8).
  { replace 4 with (INR 4) by (simpl; ring). rewrite Rpower_pow by auto. rewrite <- SS. ring. }
  rewrite Q4.
  assert (EN : / enhancement e = s ^ 7 / N).
  { unfold enhancement. fold N. fold s. field. split; [unfold N; nra|lra]. }
  rewrite EN.
  assert (PW : / (1 + 121/304 * e ^ 2) ^ 2 <= Rpower (1 + 121/304 * e ^ 2) (-3480/2299)).
  { replace (/ (1 + 121/304 * e ^ 2) ^ 2) with (Rpower (1 + 121/304 * e ^ 2) (- INR 2)).
    - apply Rlt_le. apply Rpower_lt; [lra|simpl; lra].
    - rewrite Rpower_Ropp, Rpower_pow by auto. reflexivity. }
  apply Rle_trans with (s ^ 8 * / (1 + 121/304 * e ^ 2) ^ 2).
  2:{ apply Rmult_le_compat_l; [|exact PW]. apply pow_le. lra. }
  set (w := 1 + 121/304 * e ^ 2) in *.
  assert (HN : 0 < N) by (unfold N; nra).
  assert (K : w ^ 2 <= s * N).
  { apply Rle_trans with (s * s * N).
    2:{ apply Rmult_le_compat_r; [lra|]. rewrite <- (Rmult_1_r s) at 3. apply Rmult_le_compat_l; lra. }
    rewrite SS. unfold w, N. rewrite E4. set (y := e ^ 2) in *.
    assert (Q : 0 <= y * ((49/24 - 2 * (121/304)) - (73/24 - 37/96 + (121/304) * (121/304)) * y - 37/96 * (y * y))).
    { apply Rmult_le_pos; [lra|]. clearbody y. clear - E2. nra. }
    apply Rminus_le. replace ((1 + 121/304 * y) ^ 2 - (1 - y) * (1 + 73/24 * y + 37/96 * (y * y)))
      with (- (y * ((49/24 - 2 * (121/304)) - (73/24 - 37/96 + (121/304) * (121/304)) * y - 37/96 * (y * y)))) by field.
    lra. }
  replace (s ^ 7 / N) with (s ^ 7 * / w ^ 2 * (w ^ 2 / N)) by (field; lra).
  replace (s ^ 8 * / w ^ 2) with (s ^ 7 * / w ^ 2 * s) by (field; lra).
  apply Rmult_le_compat_l.
  - left. pos.
  - apply Rmult_le_reg_r with N; auto. unfold Rdiv. rewrite Rmult_assoc, Rinv_l by lra. lra.
Qed.
Lemma large_lower b a e : 0 < b -> 0 < a -> 0 < e < 1 -> tmR b a / enhancement e <= tlgR b a e.
Proof.
  intros Hb Ha He. destruct (e_facts e He) as [A B]. rewrite tlgR_alt by auto.
  pose proof (tmR_pos b a Hb Ha) as HT. unfold Rdiv at 1.
  apply Rmult_le_compat_l; [lra|]. assert (S : 0 < sqrt (1 - e ^ 2)) by now apply sqrt_lt_R0.
  unfold enhancement. rewrite Rpower_72 by auto. assert (0 < e ^ 2) by (apply pow_lt; lra). assert (0 < e ^ 4) by (apply pow_lt; lra).
  assert (HN : 1 <= 1 + 73/24 * e ^ 2 + 37/96 * e ^ 4) by lra. set (N := 1 + 73/24 * e ^ 2 + 37/96 * e ^ 4) in *.
  assert (P : 0 < sqrt (1 - e ^ 2) ^ 7) by pos. set (q := sqrt (1 - e ^ 2) ^ 7) in *.
  replace (/ (N / q)) with (q * / N) by (field; lra).
  assert (/ N <= 1) by (rewrite <- Rinv_1; apply Rinv_le_contravar; lra).
  assert (0 < / N) by (apply Rinv_0_lt_compat; lra). nra.
Qed.
Lemma merge_ecc_default quad m1 m2 a e : quad_exact quad -> 0 < m1 -> 0 < m2 -> 0 < a -> 0 <= e < 1 ->
  exists t, get_t_merge_ecc_sc quad (Fin e) (Some (Fin a)) None None (Some (Fin m1)) (Some (Fin m2))
                    small_e_tol_default large_e_tol_default true = Ok (Fin t) /\
    0 < t <= tmR (betaR m1 m2) a /\ tmR (betaR m1 m2) a / enhancement e <= t /\ (e = 0 -> t = tmR (betaR m1 m2) a).
Proof.
  intros HQ H1 H2 Ha He. pose proof (betaR_pos m1 m2 H1 H2) as Hb. pose proof (tmR_pos _ a Hb Ha) as HT.
  unfold get_t_merge_ecc_sc, check_sc, check_mass_freq_input. cbn [rbind fst snd]. rewrite beta_fin by auto.
  unfold get_t_merge_ecc_sc_core, small_e_tol_default, large_e_tol_default.
  destruct He as [[He0|<-] He1].
  - rewrite neqb_f by lra. rewrite c_0_fin by auto.
    destruct (Rlt_le_dec e (15/100)) as [L|L].
    + rewrite nlt_t by auto. exists (tsmR (betaR m1 m2) a e).
      pose proof (tsmR_bounds (betaR m1 m2) a e Hb Ha ltac:(lra)).
      pose proof (small_lower (betaR m1 m2) a e Hb Ha ltac:(lra)).
      rewrite t_small_fin by auto. repeat split; auto; lra.
    + rewrite nlt_f by auto. unfold ngt. destruct (Rlt_le_dec (1 - 1/10000) e) as [L2|L2].
      * rewrite nlt_t by auto. exists (tlgR (betaR m1 m2) a e).
        pose proof (tlgR_bounds (betaR m1 m2) a e Hb Ha ltac:(lra)).
        pose proof (large_lower (betaR m1 m2) a e Hb Ha ltac:(lra)).
        rewrite t_large_fin by (auto; lra). repeat split; auto; lra.
      * rewrite nlt_f by auto. exists (texR (betaR m1 m2) a e).
        pose proof (texR_bounds (betaR m1 m2) a e Hb Ha ltac:(lra)).
        rewrite t_exact_fin by (auto; lra). repeat split; auto; lra.
  - rewrite neqb_t by auto. exists (tmR (betaR m1 m2) a). rewrite t_merge_circ_fin by auto.
    rewrite enhancement_0. repeat split; auto; lra.
Qed.

(** C18: merged binaries are not stationary *)
Lemma merged_not_stationary quad m1 m2 a e f mc T t tol : quad_exact quad -> 0 < m1 -> 0 < m2 -> 0 < a -> 0 <= e < 1 ->
  get_f_orb_from_a (Fin a) (Fin m1) (Fin m2) = Fin f -> chirp_mass (Fin m1) (Fin m2) = Fin mc ->
  get_t_merge_ecc_sc quad (Fin e) (Some (Fin a)) None None (Some (Fin m1)) (Some (Fin m2))
                    small_e_tol_default large_e_tol_default true = Ok (Fin t) ->
  t <= T -> f * (1 + tol) < 1000000000 ->
  stat_elem (Fin f) (Fin mc) (Fin T) (Fin e) (Fin tol) = false.
Proof.
  intros HQ H1 H2 Ha He Ef Em Et HT Hm. pose proof (betaR_pos m1 m2 H1 H2) as Hb.
  destruct (merge_ecc_default quad m1 m2 a e HQ H1 H2 Ha He) as [t' [Et' [_ [Lo _]]]].
  assert (t' = t) by congruence. subst t'.
  rewrite get_f_fin in Ef by auto. apply Fin_inj in Ef. rewrite chirp_mass_fin in Em by auto. apply Fin_inj in Em. subst f mc.
  destruct (stat_elem _ _ _ _ _) eqn:S; auto. exfalso.
  apply stat_elem_char in S; auto using fR_pos, chirpR_pos; [|lra]. destruct S as [P _].
  rewrite inner_K in P by auto. pose proof (KR_pos (m1 + m2)) as HK. pose proof (enhancement_pos e He) as HF.
  assert (tmR (betaR m1 m2) a <= T * enhancement e).
  { apply Rmult_le_reg_r with (/ enhancement e); [now apply Rinv_0_lt_compat|].
    rewrite Rmult_assoc, Rinv_r by lra. unfold Rdiv in Lo. lra. }
  assert (a ^ 4 <= 4 * betaR m1 m2 * T * enhancement e).
  { unfold tmR in H. apply Rmult_le_compat_r with (r := 4 * betaR m1 m2) in H; [|lra].
    unfold Rdiv in H. rewrite Rmult_assoc, Rinv_l in H by lra. lra. }
  nra.
Qed.
