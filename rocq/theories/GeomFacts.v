(** GeomFacts.v -- multiplying masses, lengths and times by k and dividing frequencies by k. *)
From Coq Require Import Reals ZArith List Bool String Lra Lia.
From Coquelicot Require Import Coquelicot.
From Verif Require Import Num NumFacts Np NpFacts Utils Spec UtilsFacts Evol EvolSpec EvolFacts MergeFacts Strain StrainSpec StrainFacts
  AccuracySpec AccuracyThms MonoFacts OdeFacts ArrEvolFacts EccEvolFacts OdeintFacts.
Import ListNotations.
Open Scope R_scope.

(** What evol_ecc returns, with the separations and frequencies spelled out. *)
Definition ecc_call quad odeint sched n_proc n m1 m2 a0 e0 ts var :=
  evol_ecc quad odeint sched (POther (Fin e0)) TNone n (S1 (map Fin ts)) PNone (PQScalar (Fin m1) tt)
       (PQScalar (Fin m2) tt) (PQScalar (Fin a0) tt) PNone [var] n_proc false true (Fin 0) None.
Lemma ecc_call_exact quad odeint sched n_proc n m1 m2 a0 e0 T e ts : odeint_exact odeint ->
  0 < m1 -> 0 < m2 -> 0 < a0 -> 0 < e0 < 1 -> 0 <= T -> complete_schedule 1 sched ->
  e 0 = e0 -> follows_de_dt (betaR m1 m2) (c0R a0 e0) T e -> sorted (0 :: ts) -> (forall t, In t ts -> t <= T) ->
  let result g := Ok (Single (E1 (map (fun t => Fin (g t)) (0 :: ts))), S1 (map Fin (0 :: ts))) in
  let a t := aeR (e t) (c0R a0 e0) in
  let call := ecc_call quad odeint sched n_proc n m1 m2 a0 e0 (0 :: ts) in
  call "ecc"%string = result e /\ call "a"%string = result a /\
  (List.Forall (fun t => tiny < a t) (0 :: ts) -> call "f_orb"%string = result (fun t => fR (a t) m1 m2)).
Proof.
  intros HO H1 H2 Ha He HT HS E0 HF Hs Hts result a call. unfold result.
  pose proof (betaR_pos m1 m2 H1 H2) as Hb. pose proof (c0R_pos a0 e0 Ha He) as Hc.
  assert (R : forall t, In t (0 :: ts) -> 0 <= t <= T).
  { intros t [<-|Ht]; [lra|]. split; [|auto]. destruct (In_nth _ _ 0 Ht) as [i [Hi E]]. rewrite <- E.
    apply (Hs 0%nat (S i)); simpl; lia. }
  assert (SC : forall var, call var = _)
   by (intros var; unfold call, ecc_call; eapply (evol_ecc_eval quad odeint sched n_proc TNone n (S1 (map Fin (0 :: ts)))
        _ _ _ _ _ _ _ _ _ _ _ _ _ [var] false true (Fin 0) None
        unit [tt] (fun _ => Fin e0) (fun _ => Fin (betaR m1 m2)) (fun _ => Fin a0) (Some (fun _ => Fin m1)) (Some (fun _ => Fin m2)) _ 
        (fun _ => map Fin (0 :: ts)));
        [reflexivity|unfold check_arr, check_mass_freq_input; cbn; now rewrite beta_fin by auto|reflexivity|reflexivity|reflexivity|reflexivity|reflexivity|intros; assumption]).
  assert (ER : ecc_row odeint (Fin e0) (Fin a0) (Fin (betaR m1 m2)) (map Fin (0 :: ts)) = map (fun t => Fin (e t)) (0 :: ts)).
  { unfold ecc_row. rewrite c_0_fin by auto. rewrite <- E0 at 2.
    rewrite (HO (betaR m1 m2) (c0R a0 e0) T e ts); auto. apply map_nan_fin. }
  assert (SR : sep_row odeint (Fin e0) (Fin a0) (Fin (betaR m1 m2)) (map Fin (0 :: ts)) = map (fun t => Fin (a t)) (0 :: ts)).
  { unfold sep_row. rewrite ER, map_map. apply map_ext_in. intros t Ht. rewrite c_0_fin by auto.
    destruct (HF t (R t Ht)) as [Het _]. now apply get_a_from_ecc_fin. }
  split; [|split].
  - rewrite SC. clear - ER. set (row := map Fin (0 :: ts)) in *. set (er := map (fun t => Fin (e t)) (0 :: ts)) in *. clearbody row er.
    cbn -[ecc_row]. rewrite ER. now rewrite app_nil_r.
  - rewrite SC. clear - SR. set (row := map Fin (0 :: ts)) in *. set (er := map _ (0 :: ts)) in *. clearbody row er.
    cbn -[sep_row]. rewrite SR. now rewrite app_nil_r.
  - intros HA. rewrite Forall_forall in HA. pose proof tiny_pos as TP.
    assert (FR : freq_row odeint (Fin m1) (Fin m2) (Fin e0) (Fin a0) (Fin (betaR m1 m2)) (map Fin (0 :: ts)) = map (fun t => Fin (fR (a t) m1 m2)) (0 :: ts)).
    { unfold freq_row. rewrite SR, map_map. apply map_ext_in. intros t Ht. specialize (HA t Ht). apply freq_of_a_fin; auto; lra. }
    rewrite SC. clear - FR. set (row := map Fin (0 :: ts)) in *. set (er := map _ (0 :: ts)) in *. clearbody row er.
    cbn -[freq_row]. rewrite FR. now rewrite app_nil_r.
Qed.

Section Scale.
Variable k : R.
Hypothesis K : 0 < k.

Lemma scaled_pos x : 0 < x -> 0 < k * x.
Proof. intros. now apply Rmult_lt_0_compat. Qed.
Lemma slowed_pos x : 0 < x -> 0 < x / k.
Proof. intros. now apply Rdiv_lt_0_compat. Qed.
Lemma chirp_scale m1 m2 : 0 < m1 -> 0 < m2 -> chirpR (k * m1) (k * m2) = k * chirpR m1 m2.
Proof.
  intros. unfold chirpR. replace (k * m1 + k * m2) with (k * (m1 + m2)) by ring.
  apply eq_by_ln; try pos. lnexp. lra.
Qed.
Lemma a_scale f m1 m2 : 0 < f -> 0 < m1 -> 0 < m2 -> aR (f / k) (k * m1) (k * m2) = k * aR f m1 m2.
Proof.
  intros. unfold aR. pose proof PI_RGT_0. pose proof Ggrav_pos. replace (k * m1 + k * m2) with (k * (m1 + m2)) by ring.
  apply eq_by_ln; try pos. lnexp. lra.
Qed.
Lemma f_scale a m1 m2 : 0 < a -> 0 < m1 -> 0 < m2 -> fR (k * a) (k * m1) (k * m2) = fR a m1 m2 / k.
Proof.
  intros. unfold fR. pose proof PI_RGT_0. pose proof Ggrav_pos. replace (k * m1 + k * m2) with (k * (m1 + m2)) by ring.
  apply eq_by_ln; try pos. lnexp. lra.
Qed.
Lemma beta_scale m1 m2 : betaR (k * m1) (k * m2) = k ^ 3 * betaR m1 m2.
Proof. unfold betaR. pose proof clight_pos. field. lra. Qed.
Lemma c0_scale a e : c0R (k * a) e = k * c0R a e.
Proof. unfold c0R. ring. Qed.
Lemma ae_scale e c : aeR e (k * c) = k * aeR e c.
Proof. unfold aeR, Rdiv. ring. Qed.
Lemma dedt_scale b c e : 0 < c -> dedtR (k ^ 3 * b) (k * c) e = dedtR b c e / k.
Proof.
  intros C. unfold dedtR. set (x := Rpower e _ * _). set (y := Rpower (1 + _) _). 
  assert (Y : y <> 0) by (unfold y; nz). clearbody x y. field. lra.
Qed.
Lemma fdot_scale mc f e n : 0 < mc -> 0 < f -> fdotR (k * mc) (f / k) e n = fdotR mc f e n / k ^ 2.
Proof.
  intros. unfold fdotR. pose proof PI_RGT_0. pose proof Ggrav_pos. pose proof clight_pos.
  replace (Rpower (2 * PI * (f / k)) (11/3)) with (Rpower (2 * PI * f) (11/3) * Rpower k (-11/3)).
  2: { apply eq_by_ln; try pos. lnexp. lra. }
  replace (Rpower (Ggrav * (k * mc)) (5/3)) with (Rpower (Ggrav * mc) (5/3) * Rpower k (5/3)).
  2: { apply eq_by_ln; try pos. lnexp. lra. }
  replace (k ^ 2) with (/ (Rpower k (-11/3) * Rpower k (5/3))).
  2: { apply eq_by_ln; try pos. lnexp. lra. }
  pose proof (Rpower_pos k (-11/3)) as P. pose proof (Rpower_pos k (5/3)) as Q.
  set (p := Rpower k (-11/3)) in *. set (q := Rpower k (5/3)) in *. clearbody p q. field. lra.
Qed.
Lemma tm_scale m1 m2 a : 0 < m1 -> 0 < m2 -> tmR (betaR (k * m1) (k * m2)) (k * a) = k * tmR (betaR m1 m2) a.
Proof. intros. rewrite beta_scale. pose proof (betaR_pos m1 m2 H H0). unfold tmR. field. lra. Qed.
Lemma ac_scale a m1 m2 t : acR (k * a) (betaR (k * m1) (k * m2)) (k * t) = k * acR a (betaR m1 m2) t.
Proof.
  rewrite beta_scale. unfold acR. set (b := betaR m1 m2). set (d := a ^ 4 - 4 * b * t).
  replace ((k * a) ^ 4 - 4 * (k ^ 3 * b) * (k * t)) with (k ^ 4 * d) by (unfold d; ring).
  assert (P : 0 < k ^ 4) by pos. 
  destruct (Rle_dec (k ^ 4 * d) 0) as [H|H], (Rle_dec d 0) as [G|G]; try nra.
  assert (0 < d) by lra. clearbody d. apply eq_by_ln; try pos. lnexp. lra.
Qed.
Lemma inner_scale f mc t e : 0 < f -> 0 < mc -> innerR (f / k) (k * mc) (k * t) e = Rpower k (8/3) * innerR f mc t e.
Proof.
  intros. unfold innerR. pose proof Ggrav_pos. pose proof clight_pos.
  replace (Rpower (f / k) (-8/3)) with (Rpower k (8/3) * Rpower f (-8/3)).
  2: { apply eq_by_ln; try pos. lnexp. lra. }
  replace (Rpower (Ggrav * (k * mc)) (5/3)) with (Rpower k (8/3) * / k * Rpower (Ggrav * mc) (5/3)).
  2: { apply eq_by_ln; try pos. lnexp. lra. }
  field. lra.
Qed.
Lemma h0_scale m f d g n : 0 < m -> 0 < f -> 0 < d -> h0R (k * m) (f / k) (k * d) g n = h0R m f d g n.
Proof.
  intros. unfold h0R. pose proof PI_RGT_0.
  set (x := sqrt _ * _ / _). set (y := sqrt g / IZR n).
  replace (Rpower (k * m) (5/3)) with (Rpower k (5/3) * Rpower m (5/3)) by (apply eq_by_ln; try pos; lnexp; lra).
  replace (Rpower (PI * (f / k)) (2/3)) with (k * / Rpower k (5/3) * Rpower (PI * f) (2/3)) by (apply eq_by_ln; try pos; lnexp; lra).
  pose proof (Rpower_pos k (5/3)). clearbody x y. field. lra.
Qed.
Lemma hc_scale m f e d g n : 0 < m -> 0 < f -> 0 < d -> hcR (k * m) (f / k) e (k * d) g n = hcR m f e d g n.
Proof.
  intros. unfold hcR.
  set (x := sqrt _ * _ / _). set (y := sqrt (g / IZR n)).
  replace (Rpower (k * m) (5/6)) with (Rpower k (5/6) * Rpower m (5/6)) by (apply eq_by_ln; try pos; lnexp; lra).
  replace (Rpower (f / k) (-1/6)) with (k * / Rpower k (5/6) * Rpower f (-1/6)) by (apply eq_by_ln; try pos; lnexp; lra).
  pose proof (Rpower_pos k (5/6)) as P. set (p := Rpower k (5/6)) in *. set (q := Rpower m (5/6)). set (r := Rpower f (-1/6)). set (z := sqrt (enhancement e)).
  clearbody p q r x y z. unfold Rdiv. set (w := / z). clearbody w. field. lra.
Qed.

(** ** The functions *)
Lemma utils_scale m1 m2 f a e ce n : 0 < m1 -> 0 < m2 -> 0 < f -> 0 < a -> 0 < e < 1 -> 0 < ce -> (1 <= n)%Z ->
  exists mc r1 r2 r3 r4 r5 r6,
    chirp_mass (Fin m1) (Fin m2) = Fin mc /\ chirp_mass (Fin (k * m1)) (Fin (k * m2)) = Fin (k * mc) /\
    get_a_from_f_orb (Fin f) (Fin m1) (Fin m2) = Fin r1 /\ get_a_from_f_orb (Fin (f / k)) (Fin (k * m1)) (Fin (k * m2)) = Fin (k * r1) /\
    get_f_orb_from_a (Fin a) (Fin m1) (Fin m2) = Fin r2 /\ get_f_orb_from_a (Fin (k * a)) (Fin (k * m1)) (Fin (k * m2)) = Fin (r2 / k) /\
    beta (Fin m1) (Fin m2) = Fin r3 /\ beta (Fin (k * m1)) (Fin (k * m2)) = Fin (k ^ 3 * r3) /\
    c_0 (Fin a) (Fin e) = Fin r4 /\ c_0 (Fin (k * a)) (Fin e) = Fin (k * r4) /\
    get_a_from_ecc (Fin e) (Fin ce) = Fin r5 /\ get_a_from_ecc (Fin e) (Fin (k * ce)) = Fin (k * r5) /\
    fn_dot (Fin mc) (Fin f) (Fin e) [n] = Ok [Fin r6] /\ fn_dot (Fin (k * mc)) (Fin (f / k)) (Fin e) [n] = Ok [Fin (r6 / k ^ 2)].
Proof.
  intros M1 M2 F A E C N. pose proof (scaled_pos m1 M1) as M1'. pose proof (scaled_pos m2 M2) as M2'. pose proof (scaled_pos a A) as A'. pose proof (slowed_pos f F) as F'.
  assert (MC : 0 < chirpR m1 m2) by (unfold chirpR; pos). pose proof (scaled_pos _ MC) as MC'.
  exists (chirpR m1 m2), (aR f m1 m2), (fR a m1 m2), (betaR m1 m2), (c0R a e), (aeR e ce), (fdotR (chirpR m1 m2) f e n).
  rewrite !chirp_mass_fin, !get_a_fin, !get_f_fin, !beta_fin, !c_0_fin, !get_a_from_ecc_fin by auto.
  rewrite chirp_scale, a_scale, f_scale, beta_scale, c0_scale, ae_scale by auto.
  unfold fn_dot. cbn [existsb]. rewrite (proj2 (Z.ltb_ge n 1)) by lia. cbn [orb map].
  rewrite !fn_dot_elem_fin by (auto; lra). rewrite fdot_scale by auto.
  repeat split.
Qed.
Lemma de_dt_scale m1 m2 c e : 0 < c -> 0 < e < 1 -> exists r,
  de_dt (beta (Fin m1) (Fin m2)) (Fin c) (Fin e) = Fin r /\ de_dt (beta (Fin (k * m1)) (Fin (k * m2))) (Fin (k * c)) (Fin e) = Fin (r / k).
Proof.
  intros C E. exists (dedtR (betaR m1 m2) c e). rewrite !beta_fin, beta_scale. rewrite !de_dt_fin by (auto using scaled_pos).
  now rewrite dedt_scale.
Qed.
Lemma merger_scale quad m1 m2 a e small large exact : quad_exact quad -> 0 < m1 -> 0 < m2 -> 0 < a -> 0 <= e < 1 ->
  exists t, merger_time quad m1 m2 a e (Fin small) (Fin large) exact = Ok (Fin t) /\
    merger_time quad (k * m1) (k * m2) (k * a) e (Fin small) (Fin large) exact = Ok (Fin (k * t)).
Proof.
  intros Q M1 M2 A E. destruct (same_ratio quad Q e small large exact E) as (r & _ & H).
  destruct (H m1 m2 a M1 M2 A) as (c & Ec & F). destruct (H (k * m1) (k * m2) (k * a)) as (c' & Ec' & F'); auto using scaled_pos.
  rewrite circ_time in Ec by auto. rewrite circ_time in Ec' by auto using scaled_pos. rewrite tm_scale in Ec' by auto.
  injection Ec as <-. injection Ec' as <-. eexists. split; [exact F|]. rewrite F'. f_equal. f_equal. ring.
Qed.
Lemma circ_merger_scale m1 m2 a : 0 < m1 -> 0 < m2 -> 0 < a ->
  exists t, get_t_merge_circ_sc None (Some (Fin m1)) (Some (Fin m2)) (Some (Fin a)) None = Ok (Fin t) /\
    get_t_merge_circ_sc None (Some (Fin (k * m1))) (Some (Fin (k * m2))) (Some (Fin (k * a))) None = Ok (Fin (k * t)).
Proof. intros. eexists. rewrite !circ_time by auto using scaled_pos. rewrite tm_scale by auto. now split. Qed.
Lemma evolution_scale quad m1 m2 a0 n : exists a : R -> R, forall ts,
  circ_call quad m1 m2 a0 n (map Fin ts) ["a"%string] = Ok (Single (E1 (map (fun t => Fin (a t)) ts))) /\
  circ_call quad (k * m1) (k * m2) (k * a0) n (map (fun t => Fin (k * t)) ts) ["a"%string] = Ok (Single (E1 (map (fun t => Fin (k * a t)) ts))).
Proof.
  exists (acR a0 (betaR m1 m2)). intros ts. unfold circ_call. rewrite !evol_circ_scalar_m, !beta_fin.
  cbn -[Rmult betaR acR circ_a_elem]. rewrite ?map_map, ?app_nil_r. split; do 3 f_equal; apply map_ext; intros t; rewrite circ_a_fin; [reflexivity|].
  now rewrite ac_scale.
Qed.
Lemma frequencies_scale quad m1 m2 a0 n ts : 0 < m1 -> 0 < m2 ->
  exists a f : R -> R,
  circ_call quad m1 m2 a0 n (map Fin ts) ["a"%string] = Ok (Single (E1 (map (fun t => Fin (a t)) ts))) /\
  (List.Forall (fun t => AU / 10 ^ 30 < a t /\ AU / 10 ^ 30 < k * a t) ts ->
   circ_call quad m1 m2 a0 n (map Fin ts) ["f_orb"%string] = Ok (Single (E1 (map (fun t => Fin (f t)) ts))) /\
   circ_call quad (k * m1) (k * m2) (k * a0) n (map (fun t => Fin (k * t)) ts) ["f_orb"%string] = Ok (Single (E1 (map (fun t => Fin (f t / k)) ts)))).
Proof.
  intros M1 M2. exists (acR a0 (betaR m1 m2)), (fun t => fR (acR a0 (betaR m1 m2) t) m1 m2). unfold circ_call. rewrite !evol_circ_scalar_m, !beta_fin.
  cbn -[Rmult betaR acR circ_a_elem freq_of_a pow]. rewrite ?map_map, ?app_nil_r. split.
  { do 3 f_equal. apply map_ext. intros t. now rewrite circ_a_fin. }
  intros H. assert (T : AU / 10 ^ 30 = tiny) by (unfold tiny, AU; lra). rewrite T in H. pose proof tiny_pos as TP. rewrite Forall_forall in H.
  split; do 3 f_equal; apply map_ext_in; intros t I; specialize (H t I); cbn beta in H; rewrite circ_a_fin.
  - rewrite freq_of_a_fin by (auto; lra). reflexivity.
  - rewrite ac_scale. rewrite freq_of_a_fin by (auto using scaled_pos; lra). rewrite f_scale by (auto; lra). reflexivity.
Qed.
Lemma circ_f_scale f mc t e mf : 0 < f -> 0 < mc -> 0 <= e < 1 ->
  circ_f_elem (Fin (f / k)) (Fin (k * mc)) (Fin (k * t)) (Fin e) (Fin (mf / k)) = (circ_f_elem (Fin f) (Fin mc) (Fin t) (Fin e) (Fin mf) / Fin k)%num.
Proof.
  intros F M E. pose proof (Rpower_pos k (8/3)) as P. pose proof (inner_scale f mc t e F M) as I.
  destruct (Rtotal_order (innerR f mc t e) 0) as [H|[H|H]].
  - rewrite !circ_f_neg; auto using scaled_pos, slowed_pos; try lra; [now rewrite ndiv_fin by lra|]. rewrite I. nra.
  - rewrite !circ_f_zero; auto using scaled_pos, slowed_pos; try lra; [|rewrite I, H; ring].
    cbn. rewrite (proj2 (Rltb_false k 0)) by lra. reflexivity.
  - rewrite !circ_f_pos; auto using scaled_pos, slowed_pos; try lra; [|rewrite I; now apply Rmult_lt_0_compat].
    rewrite ndiv_fin by lra. rewrite I. f_equal. set (x := innerR f mc t e) in *. clearbody x. apply eq_by_ln; try pos. lnexp. lra.
Qed.
Lemma evolve_f_scale f mc t e mf : 0 < f -> 0 < mc -> 0 <= e < 1 ->
  exists r, evolve_f_orb_circ [Fin f] [Fin mc] [Fin t] [Fin e] (Fin mf) = Ok [r] /\
    evolve_f_orb_circ [Fin (f / k)] [Fin (k * mc)] [Fin (k * t)] [Fin e] (Fin (mf / k)) = Ok [(r / Fin k)%num].
Proof.
  intros F M E. pose proof (fun f mc t e => evolve_f_orb_circ_map (fun _ : unit => f) (fun _ => mc) (fun _ => t) (fun _ => e)) as D.
  exists (circ_f_elem (Fin f) (Fin mc) (Fin t) (Fin e) (Fin mf)). split; [exact (D _ _ _ _ _ [tt])|].
  rewrite <- circ_f_scale by auto. exact (D _ _ _ _ _ [tt]).
Qed.
Lemma quotient_scale r f : 0 < f -> ((r / Fin k - Fin (f / k)) / Fin (f / k))%num = ((r - Fin f) / Fin f)%num.
Proof.
  intros F. pose proof (slowed_pos f F) as F'. destruct r as [x| | |].
  - rewrite ndiv_fin by lra. rewrite !nsub_fin, !ndiv_fin by lra. f_equal. field. lra.
  - cbn. rewrite !(proj2 (Rltb_false _ 0)) by lra. cbn. rewrite !(proj2 (Rltb_false _ 0)) by lra. reflexivity.
  - cbn. rewrite !(proj2 (Rltb_false _ 0)) by lra. cbn. rewrite !(proj2 (Rltb_false _ 0)) by lra. reflexivity.
  - reflexivity.
Qed.
Lemma labels_scale (bins : list (R * R * R * R)) tol :
  List.Forall (fun '(f, mc, t, e) => 0 < f /\ 0 < mc /\ 0 <= e < 1 /\ f * (1 + tol) < 10 ^ 9 /\ f / k * (1 + tol) < 10 ^ 9) bins ->
  determine_stationarity (map (fun '(f, mc, t, e) => Fin (f / k)) bins) (map (fun '(f, mc, t, e) => Fin (k * t)) bins)
    (map (fun '(f, mc, t, e) => Fin e) bins) None None (Some (map (fun '(f, mc, t, e) => Fin (k * mc)) bins)) (Fin tol) =
  determine_stationarity (map (fun '(f, mc, t, e) => Fin f) bins) (map (fun '(f, mc, t, e) => Fin t) bins)
    (map (fun '(f, mc, t, e) => Fin e) bins) None None (Some (map (fun '(f, mc, t, e) => Fin mc) bins)) (Fin tol).
Proof.
  intros H. rewrite !determine_stationarity_map. f_equal. apply map_ext_in. intros [[[f mc] t] e] I. rewrite Forall_forall in H.
  specialize (H _ I). cbn beta iota in H. destruct H as (F & M & E & B & B'). pose proof (slowed_pos f F) as F'.
  pose proof (Rpower_pos k (8/3)) as P. pose proof (inner_scale f mc t e F M) as J. pose proof (circ_f_scale f mc t e 1 F M E) as C.
  destruct (Rlt_le_dec (innerR f mc t e) 0) as [N|N].
  - rewrite !circ_f_neg; auto using scaled_pos; try lra; [|rewrite J; nra].
    unfold merge_f_default. rewrite !nsub_fin, !ndiv_fin by lra.
    assert (D : forall x, 0 < x -> x * (1 + tol) < 10 ^ 9 -> nle (Fin ((1000000000 - x) / x)) (Fin tol) = false).
    { intros x X Y. apply nle_f. apply (Rmult_lt_reg_r x); [exact X|]. replace ((1000000000 - x) / x * x) with (1000000000 - x) by (field; lra). lra. }
    now rewrite !D.
  - assert (D : circ_f_elem (Fin (f / k)) (Fin (k * mc)) (Fin (k * t)) (Fin e) merge_f_default = (circ_f_elem (Fin f) (Fin mc) (Fin t) (Fin e) merge_f_default / Fin k)%num).
    { destruct N as [N|N].
      - rewrite !circ_f_pos in * by (auto using scaled_pos; try lra; rewrite J; now apply Rmult_lt_0_compat). exact C.
      - rewrite !circ_f_zero in * by (auto using scaled_pos; try lra; rewrite J, <- N; ring). exact C. }
    rewrite D, quotient_scale by exact F. reflexivity.
Qed.
Lemma strain_scale jv gi m f e n d g o : 0 < m -> 0 < f -> 0 < d -> 0 <= e < 1 -> (1 <= n)%Z -> power_used jv gi n e g ->
  exists h hc, h_0_single jv gi m f e n d o = Ok [[[Fin h]]] /\ h_0_single jv gi (k * m) (f / k) e n (k * d) o = Ok [[[Fin h]]] /\
    h_c_single jv gi m f e n d o = Ok [[[Fin hc]]] /\ h_c_single jv gi (k * m) (f / k) e n (k * d) o = Ok [[[Fin hc]]].
Proof.
  intros M F D E N P. do 2 eexists. rewrite !(fun m f d Hm Hf Hd => h_0_single_fin jv gi m f e n d g o Hm Hf Hd ltac:(lra) N P) by auto using scaled_pos, slowed_pos.
  rewrite !(fun m f d Hm Hf Hd => h_c_single_fin jv gi m f e n d g o Hm Hf Hd E N P) by auto using scaled_pos, slowed_pos.
  rewrite h0_scale, hc_scale by auto. repeat split.
Qed.
Lemma follows_scale b c T e : 0 < c -> follows_de_dt b c T e -> follows_de_dt (k ^ 3 * b) (k * c) (k * T) (fun t => e (t / k)).
Proof.
  intros C H t Ht. assert (Ht' : 0 <= t / k <= T).
  { split; [apply Rmult_le_reg_l with k|apply Rmult_le_reg_l with k]; try exact K; replace (k * (t / k)) with t by (field; lra); lra. }
  destruct (H _ Ht') as [E (d & D & I)]. split; [exact E|]. exists (d / k). split.
  - rewrite de_dt_fin in D by auto. apply Fin_inj in D. rewrite de_dt_fin by (auto using scaled_pos). rewrite dedt_scale by auto. now rewrite D.
  - replace (d / k) with (scal (/ k) d) by (unfold scal; cbn; unfold mult; cbn; field; lra).
    apply (is_derive_comp e (fun t => t / k)); [exact I|]. replace (/ k) with (scal 1 (/ k)) by (unfold scal; cbn; unfold mult; cbn; ring).
    apply (is_derive_scal_l (fun t => t) t 1 (/ k)). apply (is_derive_id t).
Qed.
Lemma eccentric_scale quad odeint sched n_proc n m1 m2 a0 e0 b c T e ts : odeint_exact odeint ->
  0 < m1 -> 0 < m2 -> 0 < a0 -> 0 < e0 < 1 -> 0 <= T -> complete_schedule 1 sched ->
  beta (Fin m1) (Fin m2) = Fin b -> c_0 (Fin a0) (Fin e0) = Fin c -> e 0 = e0 -> follows_de_dt b c T e ->
  sorted (0 :: ts) -> (forall t, In t ts -> t <= T) ->
  let call := ecc_call quad odeint sched n_proc n m1 m2 a0 e0 (0 :: ts) in
  let call' := ecc_call quad odeint sched n_proc n (k * m1) (k * m2) (k * a0) e0 (map (Rmult k) (0 :: ts)) in
  let result g := Ok (Single (E1 (map (fun t => Fin (g t)) (0 :: ts))), S1 (map Fin (0 :: ts))) in
  let result' g := Ok (Single (E1 (map (fun t => Fin (g t)) (0 :: ts))), S1 (map Fin (map (Rmult k) (0 :: ts)))) in
  exists a f : R -> R,
    call "ecc"%string = result e /\ call' "ecc"%string = result' e /\
    call "a"%string = result a /\ call' "a"%string = result' (fun t => k * a t) /\
    (List.Forall (fun t => AU / 10 ^ 30 < a t /\ AU / 10 ^ 30 < k * a t) (0 :: ts) ->
     call "f_orb"%string = result f /\ call' "f_orb"%string = result' (fun t => f t / k)).
Proof.
  intros HO H1 H2 Ha He HT HS Hb Hc0 E0 HF Hs Hts call call' result result'.
  rewrite beta_fin in Hb. apply Fin_inj in Hb. subst b. rewrite c_0_fin in Hc0 by auto. apply Fin_inj in Hc0. subst c.
  pose proof (c0R_pos a0 e0 Ha He) as Hc.
  pose proof (ecc_call_exact quad odeint sched n_proc n m1 m2 a0 e0 T e ts HO H1 H2 Ha He HT HS E0 HF Hs Hts) as (A1 & A2 & A3).
  assert (F' : follows_de_dt (betaR (k * m1) (k * m2)) (c0R (k * a0) e0) (k * T) (fun t => e (t / k))).
  { rewrite beta_scale, c0_scale. now apply follows_scale. }
  assert (Z : k * 0 = 0) by ring.
  assert (M : map (Rmult k) (0 :: ts) = 0 :: map (Rmult k) ts) by (cbn [map]; now rewrite Z).
  assert (S' : sorted (0 :: map (Rmult k) ts)).
  { rewrite <- M. intros i j Hij Hj. rewrite map_length in Hj. assert (N : forall i, nth i (map (Rmult k) (0 :: ts)) 0 = k * nth i (0 :: ts) 0) by (intros l; rewrite <- (map_nth (Rmult k)); now rewrite Z).
    rewrite !N. apply Rmult_le_compat_l; [lra|]. now apply Hs. }
  assert (T' : forall t, In t (map (Rmult k) ts) -> t <= k * T).
  { intros t I. apply in_map_iff in I. destruct I as (u & <- & I). apply Rmult_le_compat_l; [lra|auto]. }
  pose proof (ecc_call_exact quad odeint sched n_proc n (k * m1) (k * m2) (k * a0) e0 (k * T) (fun t => e (t / k)) (map (Rmult k) ts) HO
    (scaled_pos _ H1) (scaled_pos _ H2) (scaled_pos _ Ha) He ltac:(apply Rmult_le_pos; lra) HS
    ltac:(cbv beta; unfold Rdiv; rewrite Rmult_0_l; exact E0) F' S' T') as (B1 & B2 & B3).
  rewrite <- M in B1, B2, B3. cbv zeta in A1, A2, A3, B1, B2, B3.
  assert (D : forall t, k * t / k = t) by (intros; field; lra).
  exists (fun t => aeR (e t) (c0R a0 e0)), (fun t => fR (aeR (e t) (c0R a0 e0)) m1 m2).
  split; [exact A1|]. split. { unfold call', result'. rewrite B1. rewrite map_map. do 4 f_equal. apply map_ext. intros t. now rewrite D. }
  split; [exact A2|]. split. { unfold call', result'. rewrite B2. rewrite map_map. do 4 f_equal. apply map_ext. intros t. now rewrite D, c0_scale, ae_scale. }
  intros H. assert (TT : AU / 10 ^ 30 = tiny) by (unfold tiny, AU; lra). rewrite TT in H. pose proof tiny_pos as TP. rewrite Forall_forall in H. split.
  - apply A3. apply Forall_forall. intros t I. now apply H.
  - unfold call', result'. rewrite B3.
    + rewrite map_map. do 4 f_equal. apply map_ext_in. intros t I. specialize (H t I). cbn beta in H. rewrite D, c0_scale, ae_scale. rewrite f_scale by (auto; lra). reflexivity.
    + apply Forall_forall. intros t I. apply in_map_iff in I. destruct I as (u & <- & I). specialize (H u I). cbn beta in H. rewrite D, c0_scale, ae_scale. lra.
Qed.
End Scale.
