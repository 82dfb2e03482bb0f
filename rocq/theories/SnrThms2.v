(** SnrThms2.v -- noise bands, sky positions, locality and the evolving SNR as an integral. *)
From Coq Require Import String Reals ZArith List Bool Lra Lia.
From Verif Require Import Num NumFacts Np NpFacts Utils Spec UtilsFacts Strain DetectorFacts Evol EvolSpec EvolFacts MergeFacts OdeFacts ArrEvolFacts CircFacts EccEvolFacts LocalFacts
  EvolThms StrainSpec StrainFacts Psd PsdSpec PsdFacts PsdThms ArgFacts ScaleFacts Snr SnrSpec SnrFacts SnrThms.
Import ListNotations.
Open Scope R_scope.

(** *** C44 *)
Lemma built_in_noise w kw t B : built_in_curve w kw t B -> 0 < t ->
  exists p, noise_curve w kw None t p /\ proper_noise p /\ forall f, 0 < f -> (p (Fin f) = PInf <-> ~ B f).
Proof.
  intros H Ht. destruct H as [L c Hi HL HL0 HR Hc Hb|L c Hi HL HL0 Hc Hb|c Hi Hc Hb].
  - destruct (lisa_band w c t L (kw_approximate_R kw) Hb Ht HL0 HR) as [p [P1 [P2 P3]]]. exists p. split; [|split].
    + intros fs. unfold noise. rewrite Hi. rewrite (psd_lisa _ _ _ _ _ _ _ (Fin t) (Fin L) c); auto. now left.
    + intros f Hf. destruct (outside_dec 1e-7 2 (Fin f)) as [O|[g [E O]]]; [left; now apply P2|]. inversion E; subst. right. apply P3. auto.
    + intros f Hf. rewrite P2. unfold outside. split; [intros H; now apply H|]. intros H g E. inversion E; subst; auto.
  - destruct (tianqin_band c t L Hb Ht HL0) as [p [P1 P2]]. exists p. split; [|split].
    + intros fs. unfold noise. rewrite Hi. rewrite (psd_tianqin _ _ _ _ _ _ _ (Fin t) (Fin L) c); auto. now left.
    + intros f Hf. right. now apply P2.
    + intros f Hf. destruct (P2 f Hf) as [v [E _]]. rewrite E. split; [discriminate|tauto].
  - destruct (decigo_band c t 1e-3 1e2 Hb Ht ltac:(lra)) as [p [P1 [P2 P3]]]. exists p. split; [|split].
    + intros fs. unfold noise. rewrite Hi. rewrite (psd_decigo _ _ _ _ _ _ _ (Fin t) c); auto. now left.
    + intros f Hf. destruct (outside_dec 1e-3 1e2 (Fin f)) as [O|[g [E O]]]; [left; now apply P2|]. inversion E; subst. right. apply P3. auto.
    + intros f Hf. rewrite P2. unfold outside. split; [intros H; now apply H|]. intros H g E. inversion E; subst; auto.
Qed.
Lemma out_of_band w jv gi X (m f e d : X -> R) xs t hr kw B : built_in_curve w kw t B -> 0 < t ->
  (forall x, In x xs -> good_source jv gi (m x) (f x) (e x) (d x)) ->
  exists v : X -> Z -> R,
    snr_ecc_stationary w jv gi (map (fun x => Fin (m x)) xs) (map (fun x => Fin (f x)) xs) (map (fun x => Fin (e x)) xs)
      (map (fun x => Fin (d x)) xs) (Fin t) hr None false true kw
    = Ok (Snr2 (map (fun x => map (fun n => Fin (v x n)) (map Z.of_nat (seq 1 hr))) xs)) /\
    forall x n, In x xs -> (1 <= n <= Z.of_nat hr)%Z -> ~ B (IZR n * f x) -> v x n = 0.
Proof.
  intros HB Ht HG. destruct (built_in_noise w kw t B HB Ht) as [p [P1 [P2 P3]]].
  destruct (stationary_formula w jv gi X m f e d xs t hr None kw p P1 P2 ltac:(lra) HG) as [v [V1 [V2 V3]]].
  exists v. split; auto. intros x n Hx Hn Hout. destruct (V3 x n Hx Hn) as [_ [h [_ S]]].
  destruct (HG x Hx) as [_ [Hf _]]. assert (0 < IZR n * f x) by (pose proof (IZR_pos n ltac:(lia)); nra).
  rewrite (proj2 (P3 _ H)) in S by auto. now inversion S.
Qed.
Lemma Rsum_app l k : Rsum (l ++ k) = Rsum l + Rsum k.
Proof. induction l; cbn [app]; rewrite ?Rsum_cons; [unfold Rsum; cbn; ring|]. rewrite IHl. ring. Qed.
Lemma arange1_app h h' : (h <= h')%nat -> exists l, arange1 h' = arange1 h ++ l.
Proof.
  intros H. unfold arange1. replace h' with (h + (h' - h))%nat by lia. rewrite seq_app, map_app. eauto.
Qed.
Lemma more_harmonics w jv gi X (m f e d : X -> R) xs t hr hr' sc kw p : noise_curve w kw sc t p -> proper_noise p -> 0 <= t ->
  (forall x, In x xs -> good_source jv gi (m x) (f x) (e x) (d x)) -> (hr <= hr')%nat ->
  let call h := snr_ecc_stationary w jv gi (map (fun x => Fin (m x)) xs) (map (fun x => Fin (f x)) xs) (map (fun x => Fin (e x)) xs)
                        (map (fun x => Fin (d x)) xs) (Fin t) h sc false false kw in
  exists s s' : X -> R, call hr = Ok (Snr (map (fun x => Fin (s x)) xs)) /\ call hr' = Ok (Snr (map (fun x => Fin (s' x)) xs)) /\
    forall x, In x xs -> 0 <= s x <= s' x.
Proof.
  intros Hp Hpp Ht HG Hh call. 
  set (S h x := sqrt (Rsum (map (stR jv gi t p (m x) (f x) (e x) (d x)) (arange1 h)))).
  assert (E : forall h, call h = Ok (Snr (map (fun x => Fin (S h x)) xs))).
  { intros h. unfold call. rewrite (ecc_stationary_map _ _ _ _ _ _ _ _ _ _ _ _ _ _ p) by auto. unfold returned. do 2 f_equal. rewrite map_map.
    apply map_ext_in. intros x Hx. rewrite row_good by auto. rewrite nsum_fin.
    apply nsqrt_fin. apply Rsum_map_nonneg. intros n Hn. apply arange1_in in Hn. apply st_elem_good; auto; lia. }
  exists (S hr), (S hr'). split; [|split]; auto. intros x Hx. split; [apply sqrt_pos|]. unfold S. apply sqrt_le_1_alt.
  destruct (arange1_app hr hr' Hh) as [l El].
  assert (forall n, In n l -> 0 <= stR jv gi t p (m x) (f x) (e x) (d x) n).
  { intros n Hn. assert (I : In n (arange1 hr')) by (rewrite El; apply in_or_app; auto). apply arange1_in in I. apply st_elem_good; auto; lia. }
  rewrite El, map_app, Rsum_app. pose proof (Rsum_map_nonneg _ l H). lra.
Qed.

(** *** C12 *)
Lemma sns_scale h t N u v a : 0 <= a -> signal_to_noise_squared (1 * h) t N u -> signal_to_noise_squared (sqrt a * h) t N v -> v = a * u.
Proof.
  intros Ha H. inversion H; subst; intros K; inversion K; subst; [|ring].
  rewrite !Rpow_mult_distr, pow2_sqrt by auto. unfold Rdiv. ring.
Qed.
Lemma located_snr w jv gi X (m f d : X -> R) xs (o : X -> angles) t sc kw p :
  noise_curve w kw sc t p -> proper_noise p -> 0 <= t -> (exists g, power_used jv gi 2 0 g) ->
  (forall x, In x xs -> 0 < m x /\ 0 < f x /\ 0 < d x) ->
  let call sky := snr_circ_stationary w jv gi (map (fun x => Fin (m x)) xs) (map (fun x => Fin (f x)) xs) (map (fun x => Fin (d x)) xs) (Fin t) sky sc kw in
  exists s s' : X -> R, call (pop_sky xs None) = Ok (map (fun x => Fin (s x)) xs) /\ call (pop_sky xs (Some o)) = Ok (map (fun x => Fin (s' x)) xs) /\
    forall x, In x xs -> 0 <= s' x <= s x /\ (0 < s x -> s' x < s x).
Proof.
  intros Hp Hpp Ht [g Hg] HX call.
  set (S a x := match st_elem jv gi (Fin t) p (Fin (m x)) (Fin (f x)) (Fin 0) (Fin (d x)) (pop_amp a x) 2 with Fin r => r | _ => 0 end).
  assert (V : forall a x, In x xs -> st_elem jv gi (Fin t) p (Fin (m x)) (Fin (f x)) (Fin 0) (Fin (d x)) (pop_amp a x) 2 = Fin (S a x) /\ 0 <= S a x /\
     signal_to_noise_squared (sqrt (ampR (option_map (fun g => g x) a)) * h0R (m x) (f x) (d x) g 2) t (p (Fin (IZR 2 * f x))) (S a x)).
  { intros a x Hx. destruct (HX x Hx) as [A [B C]].
    destruct (st_elem_fin jv gi t p (m x) (f x) 0 (d x) 2 g (option_map (fun g => g x) a) A B C ltac:(lra) ltac:(lia) Hg Ht Hpp) as [v [E [P Q]]].
    assert (E' : st_elem jv gi (Fin t) p (Fin (m x)) (Fin (f x)) (Fin 0) (Fin (d x)) (pop_amp a x) 2 = Fin v).
    { rewrite <- E. destruct a; reflexivity. }
    unfold S. rewrite E'. auto. }
  assert (E : forall a, call (pop_sky xs a) = Ok (map (fun x => Fin (sqrt (S a x))) xs)).
  { intros a. unfold call. rewrite (circ_stationary_map _ _ _ _ _ _ _ _ _ _ _ p) by auto. f_equal. apply map_ext_in. intros x Hx.
    destruct (V a x Hx) as [-> [P _]]. now apply nsqrt_fin. }
  exists (fun x => sqrt (S None x)), (fun x => sqrt (S (Some o) x)). split; auto. split; auto.
  intros x Hx. destruct (V None x Hx) as [_ [P Q]]. destruct (V (Some o) x Hx) as [_ [P' Q']]. cbn [option_map ampR] in Q, Q'.
  rewrite sqrt_1 in Q. 
  assert (K : exists k, 0 <= k < 1 /\ S (Some o) x = k * S None x).
  { pose proof (modR_bounds (lat (o x)) (lon (o x)) (psi (o x)) (inc (o x))) as MB. set (a := modR _ _ _ _) in *.
    exists a. split; [lra|]. eapply sns_scale; eauto. lra. }
  destruct K as [k [Hk ->]]. split; [split; [apply sqrt_pos|apply sqrt_le_1_alt; nra]|].
  intros Hs. assert (0 < S None x). { destruct P as [P|P]; auto. rewrite <- P, sqrt_0 in Hs. lra. }
  apply sqrt_lt_1_alt. nra.
Qed.

(** *** C78: every source on its own *)
Lemma returned_local {X} rm r2 (r : X -> list num) xs : (forall x, r x <> []) ->
  (r2 = true -> returned rm r2 (map r xs) = Ok (Snr2 (map r xs))) /\
  (r2 = false -> rm = false -> returned rm r2 (map r xs) = Ok (Snr (map (fun x => nsqrt (nsum (r x))) xs))) /\
  (r2 = false -> rm = true -> returned rm r2 (map r xs) = Ok (SnrMax (map (fun x => nsqrt (nsum (r x))) xs) (map (fun x => loudest (r x)) xs))).
Proof.
  intros H. unfold returned. split; [intros ->; reflexivity|]. split; intros -> ->.
  - now rewrite map_map.
  - rewrite argmax_axis1_rows by auto. cbn [rbind]. now rewrite map_map.
Qed.
Lemma arange1_ne hr : (1 <= hr)%nat -> arange1 hr <> [].
Proof. intros H E. apply (f_equal (@length Z)) in E. rewrite arange1_length in E. cbn in E. lia. Qed.
Lemma map_ne {A B} (f : A -> B) l : l <> [] -> map f l <> [].
Proof. destruct l; [congruence|discriminate]. Qed.
Lemma local_stationary w jv gi X (m f d e : X -> num) xs (o : option (X -> angles)) hr t sc kw p : noise_curve w kw sc t p -> (1 <= hr)%nat ->
  let circ ys := snr_circ_stationary w jv gi (map m ys) (map f ys) (map d ys) (Fin t) (pop_sky ys o) sc kw in
  let ecc rm r2 ys := snr_ecc_stationary w jv gi (map m ys) (map f ys) (map e ys) (map d ys) (Fin t) hr sc rm r2 kw in
  exists (s s' : X -> num) (h : X -> Z) (r : X -> list num), forall ys, (forall y, In y ys -> In y xs) ->
    circ ys = Ok (map s ys) /\ ecc false false ys = Ok (Snr (map s' ys)) /\ ecc true false ys = Ok (SnrMax (map s' ys) (map h ys)) /\
    ecc false true ys = Ok (Snr2 (map r ys)).
Proof.
  intros Hp Hh circ ecc. unfold circ, ecc.
  set (r := fun x => map (st_elem jv gi (Fin t) p (m x) (f x) (e x) (d x) None) (arange1 hr)).
  exists (fun x => nsqrt (st_elem jv gi (Fin t) p (m x) (f x) (Fin 0) (d x) (pop_amp o x) 2)), (fun x => nsqrt (nsum (r x))), (fun x => loudest (r x)), r.
  intros ys _. split; [now apply circ_stationary_map|].
  assert (forall x, r x <> []) as N by (intros; apply map_ne, arange1_ne; auto).
  assert (E : forall rm r2, snr_ecc_stationary w jv gi (map m ys) (map f ys) (map e ys) (map d ys) (Fin t) hr sc rm r2 kw = returned rm r2 (map r ys))
    by (intros; now apply ecc_stationary_map).
  rewrite !E. repeat split; now apply returned_local.
Qed.
Lemma local_evolving w jv gi quad odeint X (m1 m2 f d e : X -> num) xs hr t n (tm : option (X -> num)) sc kw p : 
  noise_curve w kw sc t p -> (1 <= hr)%nat -> (1 <= n)%nat -> odeint_shape odeint ->
  (forall x, In x xs -> exists r, e x = Fin r /\ 0 <= r <= 1) ->
  let tms ys := option_map (fun g => map g ys) tm in
  let circ ys := snr_circ_evolving w jv gi quad (map m1 ys) (map m2 ys) (map f ys) (map d ys) (Fin t) n (tms ys) sc kw in
  let ecc n_proc sched rm r2 ys := snr_ecc_evolving w jv gi quad odeint sched (map m1 ys) (map m2 ys) (map f ys) (map d ys) (map e ys) hr (Fin t) n (tms ys) sc n_proc rm r2 kw in
  exists (s s' : X -> num) (h : X -> Z) (r : X -> list num), forall ys, (forall y, In y ys -> In y xs) ->
    circ ys = Ok (map s ys) /\ 
    forall n_proc sched, ((1 < n_proc)%nat -> complete_schedule (length ys) sched) ->
      ecc n_proc sched false false ys = Ok (Snr (map s' ys)) /\ ecc n_proc sched true false ys = Ok (SnrMax (map s' ys) (map h ys)) /\
      ecc n_proc sched false true ys = Ok (Snr2 (map r ys)).
Proof.
  intros Hp Hh Hn Hod He tms circ ecc. unfold circ, ecc.
  set (r := fun x => map (ev_snr2 jv gi p (chirp_mass (m1 x) (m2 x)) (d x)
        (ecc_track odeint (m1 x) (m2 x) (f x) (e x) (match tm with Some g => g x | None => ecc_tm quad (m1 x) (m2 x) (f x) (e x) end) (Fin t) n)) (arange1 hr)).
  exists (fun x => nsqrt (ev_snr2 jv gi p (chirp_mass (m1 x) (m2 x)) (d x)
        (circ_track (m1 x) (m2 x) (f x) (match tm with Some g => g x | None => circ_tm (m1 x) (m2 x) (f x) end) (Fin t) n) 2)),
    (fun x => nsqrt (nsum (r x))), (fun x => loudest (r x)), r.
  intros ys Hys. unfold tms. fold (otm ys tm). split; [now apply circ_evolving_map|]. intros n_proc sched Hs.
  assert (forall x, r x <> []) as N by (intros; apply map_ne, arange1_ne; auto).
  assert (E : forall rm r2, snr_ecc_evolving w jv gi quad odeint sched (map m1 ys) (map m2 ys) (map f ys) (map d ys) (map e ys) hr (Fin t) n (otm ys tm) sc n_proc rm r2 kw = returned rm r2 (map r ys))
    by (intros; apply ecc_evolving_map; auto).
  rewrite !E. repeat split; now apply returned_local.
Qed.

(** *** C79: the integral *)
Definition evR jv gi p m d n (q : R * R) : R := match ev_elem jv gi p (Fin m) (Fin d) n (Fin (fst q), Fin (snd q)) with Fin y => y | _ => 0 end.
Lemma ev_elem_fin jv gi p m d n f e g : 0 < m -> 0 < d -> 0 < f -> 0 <= e < 1 -> (1 <= n)%Z -> power_used jv gi n e g -> proper_noise p ->
  ev_elem jv gi p (Fin m) (Fin d) n (Fin f, Fin e) = Fin (evR jv gi p m d n (f, e)) /\ integrand jv gi p m d n (f, e) (evR jv gi p m d n (f, e)) /\
  (0 < g -> p (Fin (IZR n * f)) <> PInf -> 0 < evR jv gi p m d n (f, e)).
Proof.
  intros Hm Hd Hf He Hn Hg Hp. unfold integrand, evR, ev_elem. cbn [fst snd].
  destruct (hc_fin jv gi m f e n d g None Hm Hf Hd He Hn Hg) as [E G0]. cbn [option_map pop_amp] in E. rewrite E.
  rewrite (h_c_single_fin jv gi m f e n d g None) by auto. cbn [ampR] in *. rewrite sqrt_1, Rmult_1_l.
  pose proof (IZR_pos n Hn). assert (Hnf : 0 < IZR n * f) by nra. rewrite nZ_mul, !npowi2.
  assert (0 < (IZR n * f) ^ 2) by (apply pow_lt; auto).
  destruct (Hp _ Hnf) as [-> | [s [-> Hs]]].
  - rewrite nmul_pinf by auto. cbn [ndiv]. split; auto. split; [split; [lra|]|tauto]. eexists. split; [reflexivity|constructor].
  - rewrite nmul_fin, ndiv_fin by nra. split; auto. split.
    + split; [|eexists; split; [reflexivity|constructor]]. apply Rmult_le_pos; [apply pow2_ge_0|]. left. apply Rinv_0_lt_compat. nra.
    + intros Gp _. apply Rdiv_lt_0_compat; [|nra]. apply pow_lt. unfold hcR.
      pose proof (enhancement_pos e He). pose proof Ggrav_pos. pose proof clight_pos. pose proof PI_RGT_0.
      assert (0 < sqrt (g / IZR n)) by (apply sqrt_lt_R0; apply Rdiv_lt_0_compat; auto).
      assert (0 < sqrt (enhancement e)) by (now apply sqrt_lt_R0).
      assert (0 < sqrt (Rpower 2 (5/3) / (3 * Rpower PI (4/3)))) by (apply sqrt_lt_R0; pos). pos.
Qed.
Lemma trapz_fin pts : trapz (map (fun q => Fin (snd q)) pts) (map (fun q => Fin (fst q)) pts) = Fin (trapezium pts).
Proof.
  induction pts as [|[x0 y0] [|[x1 y1] pts] IH]; auto.
  change (trapz (map (fun q => Fin (snd q)) ((x0, y0) :: (x1, y1) :: pts)) (map (fun q => Fin (fst q)) ((x0, y0) :: (x1, y1) :: pts)))
    with (nadd (nmul (nsub (Fin x1) (Fin x0)) (ndiv (nadd (Fin y1) (Fin y0)) (Fin 2)))
               (trapz (map (fun q => Fin (snd q)) ((x1, y1) :: pts)) (map (fun q => Fin (fst q)) ((x1, y1) :: pts)))).
  rewrite IH. rewrite nadd_fin, ndiv_fin, nsub_fin, nmul_fin, nadd_fin by lra. f_equal.
  change (trapezium ((x0, y0) :: (x1, y1) :: pts)) with ((x1 - x0) * (y0 + y1) / 2 + trapezium ((x1, y1) :: pts)). field.
Qed.
Lemma ev_snr2_fin jv gi p m d n (track : list (R * R)) : 0 < m -> 0 < d -> (1 <= n)%Z -> proper_noise p ->
  (forall q, In q track -> 0 < fst q /\ 0 <= snd q < 1 /\ exists g, power_used jv gi n (snd q) g) ->
  ev_snr2 jv gi p (Fin m) (Fin d) (map (fun q => (Fin (fst q), Fin (snd q))) track) n
  = Fin (trapezium (map (fun q => (IZR n * fst q, evR jv gi p m d n q)) track)).
Proof.
  intros Hm Hd Hn Hp HT. unfold ev_snr2. rewrite !map_map. rewrite <- trapz_fin. rewrite !map_map. f_equal.
  apply map_ext_in. intros [f e] Hq. destruct (HT _ Hq) as [A [B [g G]]]. cbn [fst snd] in *. now apply (ev_elem_fin jv gi p m d n f e g).
Qed.
Lemma trapezium_nonneg (pts : list (R * R)) : sorted (map fst pts) -> (forall q, In q pts -> 0 <= snd q) -> 0 <= trapezium pts.
Proof.
  induction pts as [|[x0 y0] [|[x1 y1] pts] IH]; intros S H; try (cbn; lra).
  change (trapezium ((x0, y0) :: (x1, y1) :: pts)) with ((x1 - x0) * (y0 + y1) / 2 + trapezium ((x1, y1) :: pts)).
  assert (x0 <= x1) by (apply (S 0%nat 1%nat); cbn; lia).
  assert (0 <= y0) by (apply (H (x0, y0)); cbn; auto). assert (0 <= y1) by (apply (H (x1, y1)); cbn; auto).
  assert (0 <= trapezium ((x1, y1) :: pts)). { apply IH. - intros i j L1 L2. apply (S (Datatypes.S i) (Datatypes.S j)); cbn in *; lia. - intros q Hq. apply H. now right. }
  assert (0 <= (x1 - x0) * (y0 + y1)) by (apply Rmult_le_pos; lra). lra.
Qed.
Lemma trapezium_scale_sorted k l : 0 < k -> sorted l -> sorted (map (Rmult k) l).
Proof.
  intros Hk S i j L1 L2. rewrite map_length in L2. rewrite !(nth_map_in _ _ _ 0) by lia. specialize (S i j L1 L2). nra.
Qed.
Lemma unmerged_id fs : (forall f, In f fs -> f <> 100) -> unmerged (map Fin fs) = map Fin fs.
Proof.
  intros H. unfold unmerged, replace_merged. rewrite !map_map. apply map_ext_in. intros f Hf. unfold f_merged. rewrite neqb_f; auto.
Qed.
Lemma unmerged_ecc_id es fs : (forall f, In f fs -> f <> 100) -> unmerged_ecc es (map Fin fs) = map Fin fs.
Proof.
  intros H. unfold unmerged_ecc, replace_merged. rewrite map_map. apply map_ext_in. intros f Hf. unfold f_merged. rewrite neqb_f; auto.
Qed.
Lemma combine_map2 {A B C D} (f : A -> C) (g : B -> D) l k : combine (map f l) (map g k) = map (fun q => (f (fst q), g (snd q))) (combine l k).
Proof. revert k. induction l; destruct k; cbn; auto. now rewrite IHl. Qed.
Lemma combine_both {A B C} (f : A -> B) (g : A -> C) l : combine (map f l) (map g l) = map (fun x => (f x, g x)) l.
Proof. induction l; cbn; congruence. Qed.
Lemma combine_same {A B} (l : list A) (f : A -> B) : combine l (map f l) = map (fun x => (x, f x)) l.
Proof. induction l; cbn; congruence. Qed.

(** the integral of one harmonic along a track *)
Lemma track_integral jv gi p m d n (track : list (R * R)) : 0 < m -> 0 < d -> (1 <= n)%Z -> proper_noise p ->
  (forall q, In q track -> 0 < fst q /\ 0 <= snd q < 1 /\ exists g, power_used jv gi n (snd q) g) -> sorted (map fst track) ->
  exists ys, Forall2 (integrand jv gi p m d n) track ys /\
    0 <= trapezium (combine (map (fun q => IZR n * fst q) track) ys) /\
    ev_snr2 jv gi p (Fin m) (Fin d) (map (fun q => (Fin (fst q), Fin (snd q))) track) n
    = Fin (trapezium (combine (map (fun q => IZR n * fst q) track) ys)).
Proof.
  intros Hm Hd Hn Hp HT HS. exists (map (evR jv gi p m d n) track). 
  assert (IN : forall q, In q track -> integrand jv gi p m d n q (evR jv gi p m d n q)).
  { intros [f e] Hq. destruct (HT _ Hq) as [A [B [g G]]]. apply (ev_elem_fin jv gi p m d n f e g); auto. }
  rewrite combine_both. split; [|split].
  - clear HS HT. induction track; cbn; constructor; auto using in_eq. apply IHtrack. intros; apply IN; now right.
  - apply trapezium_nonneg.
    + rewrite map_map. cbn [fst]. rewrite <- (map_map fst (Rmult (IZR n))). apply trapezium_scale_sorted; auto using IZR_pos.
    + intros q Hq. apply in_map_iff in Hq. destruct Hq as [z [<- Hz]]. cbn. apply IN; auto.
  - now rewrite ev_snr2_fin by auto.
Qed.
