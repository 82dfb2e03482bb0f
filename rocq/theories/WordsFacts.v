(** WordsFacts.v -- harmonic numbers in machine words. *)
From Coq Require Import String Reals ZArith List Bool Lra Lia.
From Verif Require Import Num NumFacts Np NpFacts Utils Strain StrainSpec StrainFacts Psd Evol Snr SnrSpec SnrFacts Words.
Import ListNotations.
Open Scope R_scope.

Lemma wrap_small b z : (1 <= b)%Z -> (- 2 ^ (b - 1) <= z < 2 ^ (b - 1))%Z -> wrap b z = z.
Proof.
  intros B H. unfold wrap. assert (E : (2 ^ b = 2 * 2 ^ (b - 1))%Z) by (rewrite <- Z.pow_succ_r by lia; f_equal; lia).
  rewrite Z.mod_small; lia.
Qed.
Lemma wrap_over b z : (1 <= b)%Z -> (2 ^ (b - 1) <= z < 2 ^ b)%Z -> wrap b z = (z - 2 ^ b)%Z.
Proof.
  intros B H. unfold wrap. assert (E : (2 ^ b = 2 * 2 ^ (b - 1))%Z) by (rewrite <- Z.pow_succ_r by lia; f_equal; lia).
  replace (z + 2 ^ (b - 1))%Z with ((z - 2 ^ (b - 1)) + 1 * 2 ^ b)%Z by lia. rewrite Z.mod_add by lia. rewrite Z.mod_small; lia.
Qed.
(** Bounds on the other integers of peters_g while n^4 is below twice the largest word. *)
Lemma small_terms M n : (128 <= M)%Z -> (1 <= n)%Z -> (n ^ 4 < 2 * M)%Z -> (3 * n ^ 2 < M /\ n + 2 < M)%Z.
Proof.
  intros HM Hn H. assert (E4 : (n ^ 4 = (n ^ 2) * (n ^ 2))%Z) by (change 4%Z with (2 + 2)%Z; apply Z.pow_add_r; lia). rewrite E4 in H.
  assert (E2 : (n ^ 2 = n * n)%Z) by (change 2%Z with (1 + 1)%Z; rewrite Z.pow_add_r, Z.pow_1_r by lia; reflexivity).
  set (q := (n ^ 2)%Z) in *. assert (Q : (n <= q)%Z) by nia. assert (A : (3 * q < M)%Z) by (destruct (Z_lt_ge_dec (3 * q) M); [assumption|exfalso; nia]).
  split; [exact A|]. destruct (Z.eq_dec n 1); [lia|nia].
Qed.
Lemma words b n : (8 <= b)%Z -> (1 <= n)%Z -> (n ^ 4 < 2 ^ b)%Z ->
  wrap b (n + -2) = (n - 2)%Z /\ wrap b (n + -1) = (n - 1)%Z /\ wrap b (n + 1) = (n + 1)%Z /\ wrap b (n + 2) = (n + 2)%Z /\ wrap b (3 * wrap b (n ^ 2)) = (3 * n ^ 2)%Z.
Proof.
  intros B N H. assert (E : (2 ^ b = 2 * 2 ^ (b - 1))%Z) by (rewrite <- Z.pow_succ_r by lia; f_equal; lia).
  assert (M : (128 <= 2 ^ (b - 1))%Z) by (change 128%Z with (2 ^ 7)%Z; apply Z.pow_le_mono_r; lia).
  destruct (small_terms (2 ^ (b - 1)) n) as (A1 & A2); [lia|lia|lia|]. assert (P : (0 <= n ^ 2)%Z) by (apply Z.pow_nonneg; lia).
  rewrite (wrap_small b (n ^ 2)) by lia. rewrite !wrap_small by lia. repeat split; lia.
Qed.

Lemma peters_g_exact b jv n e : (8 <= b)%Z -> (1 <= n)%Z -> (n ^ 4 < 2 ^ (b - 1))%Z -> peters_g_w b jv n e = peters_g jv n e.
Proof.
  intros B N H. assert (E : (2 ^ b = 2 * 2 ^ (b - 1))%Z) by (rewrite <- Z.pow_succ_r by lia; f_equal; lia).
  assert (P : (0 <= n ^ 4)%Z) by (apply Z.pow_nonneg; lia).
  destruct (words b n) as (W1 & W2 & W3 & W4 & W5); [lia|lia|lia|]. unfold peters_g_w, peters_g. rewrite W1, W2, W3, W4, W5. rewrite (wrap_small b (n ^ 4)) by lia.
  repeat f_equal. unfold nZ. rewrite nmul_fin. f_equal. now rewrite mult_IZR.
Qed.
(** Between half and all of the words, n^4 becomes negative. *)
Lemma peters_g_negative b jv n e g : (8 <= b)%Z -> (1 <= n)%Z -> (2 ^ (b - 1) <= n ^ 4 < 2 ^ b)%Z -> peters_g jv n (Fin e) = Fin g -> 0 < g ->
  exists g', peters_g_w b jv n (Fin e) = Fin g' /\ g' < 0.
Proof.
  intros B N H. destruct (words b n) as (W1 & W2 & W3 & W4 & W5); [lia|lia|lia|]. unfold peters_g_w, peters_g. cbv zeta. rewrite W1, W2, W3, W4, W5. rewrite (wrap_over b (n ^ 4)) by lia.
  assert (T : nZ (3 * n ^ 2) = nmul (Fin 3) (nZ (n ^ 2))) by (unfold nZ; rewrite nmul_fin; f_equal; now rewrite mult_IZR). rewrite T. clear T.
  match goal with |- nmul _ ?X = _ -> _ => set (S := X) end. unfold nZ. rewrite !ndiv_fin by lra.
  assert (K : 0 < IZR (n ^ 4) / 32) by (apply Rdiv_lt_0_compat; [apply IZR_lt; apply Z.pow_pos_nonneg; lia|lra]).
  assert (L : IZR (n ^ 4 - 2 ^ b) / 32 < 0) by (assert (IZR (n ^ 4 - 2 ^ b) < 0) by (apply IZR_lt; lia); lra).
  set (q := IZR (n ^ 4) / 32) in *. set (r := IZR (n ^ 4 - 2 ^ b) / 32) in *. clearbody S q r. destruct S as [s| | |].
  - rewrite !nmul_fin. intros E G. injection E as E. eexists. split; [reflexivity|]. assert (0 < s) by (apply Rmult_lt_reg_l with q; [exact K|rewrite Rmult_0_r, E; exact G]). nra.
  - intros E. exfalso. revert E. cbn. repeat match goal with |- context [Rltb ?a ?b] => destruct (Rltb a b) | |- context [Reqb ?a ?b] => destruct (Reqb a b) end; discriminate.
  - intros E. exfalso. revert E. cbn. repeat match goal with |- context [Rltb ?a ?b] => destruct (Rltb a b) | |- context [Reqb ?a ?b] => destruct (Reqb a b) end; discriminate.
  - intros E. discriminate E.
Qed.

(** *** Up to the limit nothing changes *)
Definition fits_in (b : Z) (n : Z) : Prop := (1 <= n)%Z /\ (n ^ 4 < 2 ^ (b - 1))%Z.
Lemma g_exact b jv gi n e : (8 <= b)%Z -> fits_in b n -> g_value_w b jv gi n e = g_value jv gi n e.
Proof. intros B (N & H). unfold g_value_w, g_value. destruct gi; [reflexivity|]. now apply peters_g_exact. Qed.
Lemma n_dependent_ext d1 d2 ns ecc : (forall n e, In n ns -> d1 n e = d2 n e) -> n_dependent d1 ns ecc = n_dependent d2 ns ecc.
Proof. intros H. unfold n_dependent. apply map_ext. intros r. apply map_ext. intros e. apply map_ext_in. auto. Qed.
Lemma h_0_exact b jv gi m f e ns d s : (8 <= b)%Z -> List.Forall (fun n => (1 <= n)%Z -> (n ^ 4 < 2 ^ (b - 1))%Z) ns ->
  h_0_n_w b jv gi m f e ns d s = h_0_n jv gi m f e ns d s.
Proof.
  intros B H. unfold h_0_n_w, h_0_n. destruct (existsb _ ns) eqn:X; [reflexivity|].
  assert (D : n_dependent (h0_dep_w b jv gi) ns e = n_dependent (h0_dep jv gi) ns e); [|now rewrite D].
  apply n_dependent_ext. intros n y I. unfold h0_dep_w, h0_dep. rewrite g_exact; [reflexivity|exact B|].
  assert (N : (1 <= n)%Z). { destruct (Z_lt_le_dec n 1) as [L|L]; [|exact L]. exfalso. assert (Y : existsb (fun k => (k <? 1)%Z) ns = true); [|congruence]. apply existsb_exists. exists n. split; [exact I|lia]. }
  split; [exact N|]. rewrite Forall_forall in H. auto.
Qed.
Lemma h_c_exact b jv gi m f e ns d s : (8 <= b)%Z -> List.Forall (fun n => (1 <= n)%Z -> (n ^ 4 < 2 ^ (b - 1))%Z) ns ->
  h_c_n_w b jv gi m f e ns d s = h_c_n jv gi m f e ns d s.
Proof.
  intros B H. unfold h_c_n_w, h_c_n. destruct (existsb _ ns) eqn:X; [reflexivity|].
  assert (D : n_dependent (hc_dep_w b jv gi) ns e = n_dependent (hc_dep jv gi) ns e); [|now rewrite D].
  apply n_dependent_ext. intros n y I. unfold hc_dep_w, hc_dep. rewrite g_exact; [reflexivity|exact B|].
  assert (N : (1 <= n)%Z). { destruct (Z_lt_le_dec n 1) as [L|L]; [|exact L]. exfalso. assert (Y : existsb (fun k => (k <? 1)%Z) ns = true); [|congruence]. apply existsb_exists. exists n. split; [exact I|lia]. }
  split; [exact N|]. rewrite Forall_forall in H. auto.
Qed.
Lemma range_fits b hr : (Z.of_nat hr ^ 4 < 2 ^ (b - 1))%Z -> List.Forall (fun n => (1 <= n)%Z -> (n ^ 4 < 2 ^ (b - 1))%Z) (arange1 hr).
Proof. intros H. apply Forall_forall. intros n I N. apply arange1_in in I. assert (n ^ 4 <= Z.of_nat hr ^ 4)%Z by (apply Z.pow_le_mono_l; lia). lia. Qed.
Lemma stationary_exact b w jv gi m f e d t hr sc rm r2 kw : (8 <= b)%Z -> (Z.of_nat hr ^ 4 < 2 ^ (b - 1))%Z ->
  snr_ecc_stationary_w b w jv gi m f e d t hr sc rm r2 kw = snr_ecc_stationary w jv gi m f e d t hr sc rm r2 kw.
Proof. intros B H. unfold snr_ecc_stationary_w, snr_ecc_stationary. rewrite h_0_exact; [reflexivity|exact B|now apply range_fits]. Qed.
Lemma rbind_ext {A B} (r : res A) (f g : A -> res B) : (forall x, f x = g x) -> rbind r f = rbind r g.
Proof. intros H. destruct r; cbn; auto. Qed.
Lemma evolving_exact b w jv gi quad odeint sched m1 m2 f d e hr t n tm sc np rm r2 kw : (8 <= b)%Z -> (Z.of_nat hr ^ 4 < 2 ^ (b - 1))%Z ->
  snr_ecc_evolving_w b w jv gi quad odeint sched m1 m2 f d e hr t n tm sc np rm r2 kw = snr_ecc_evolving w jv gi quad odeint sched m1 m2 f d e hr t n tm sc np rm r2 kw.
Proof.
  intros B H. unfold snr_ecc_evolving_w, snr_ecc_evolving. apply rbind_ext. intros mc. apply rbind_ext. intros tm'. cbv zeta. apply rbind_ext. intros out.
  destruct (fst out) as [v|l]; [reflexivity|]. destruct l as [|x l]; [reflexivity|]. destruct x; try reflexivity. destruct l as [|y l]; [reflexivity|]. destruct y; try reflexivity. destruct l; try reflexivity.
  destruct (has_empty_row _); [reflexivity|]. rewrite h_c_exact; [reflexivity|exact B|now apply range_fits].
Qed.

(** *** Beyond it *)
Definition h0_elem_w b jv gi m f e (n : Z) d amp : num := mod_elem amp (nmul (h0_indep m f d) (h0_dep_w b jv gi n e)).
Definition hc_elem_w b jv gi m f e (n : Z) d amp : num := mod_elem amp (nmul (hc_indep m f e d) (hc_dep_w b jv gi n e)).
Lemma h_0_n_w_map {X} b jv gi (m d : X -> num) rows xs ns o : existsb (fun k => (k <? 1)%Z) ns = false ->
  h_0_n_w b jv gi (map m xs) (f_rows rows xs) (e_rows rows xs) ns (map d xs) (pop_sky xs o) =
  Ok (map (fun x => map (fun p => map (fun k => h0_elem_w b jv gi (m x) (fst p) (snd p) k (d x) (pop_amp o x)) ns) (rows x)) xs).
Proof.
  intros Hn. unfold h_0_n_w. rewrite Hn. unfold f_rows. rewrite bzip2_col_rows. cbn [rbind].
  rewrite bzip2_rows_col. cbn [rbind].
  rewrite n_dependent_rows.
  replace (map (fun x => map (fun y : num * num => h0_indep (fst y) (snd y) (d x)) (map (fun f => (m x, f)) (map fst (rows x)))) xs)
     with (map (fun x => map (fun p => h0_indep (m x) (fst p) (d x)) (rows x)) xs).
  2:{ apply map_ext. intros x. now rewrite !map_map. }
  rewrite bzip3_parts. cbn [rbind]. now rewrite modulate_map.
Qed.
Lemma h_c_n_w_map {X} b jv gi (m d : X -> num) rows xs ns o : existsb (fun k => (k <? 1)%Z) ns = false ->
  h_c_n_w b jv gi (map m xs) (f_rows rows xs) (e_rows rows xs) ns (map d xs) (pop_sky xs o) =
  Ok (map (fun x => map (fun p => map (fun k => hc_elem_w b jv gi (m x) (fst p) (snd p) k (d x) (pop_amp o x)) ns) (rows x)) xs).
Proof.
  intros Hn. unfold h_c_n_w. rewrite Hn. rewrite bzip2_cols. cbn [rbind].
  unfold f_rows. rewrite bzip2_col_rows. cbn [rbind].
  replace (map (fun x => map (fun f : num => (m x, d x, f)) (map fst (rows x))) xs)
     with (map (fun x => map (fun p : num * num => (m x, d x, fst p)) (rows x)) xs).
  2:{ apply map_ext. intros x. now rewrite !map_map. }
  unfold e_rows at 1. rewrite (bzip2_rows _ rows (fun x p => (m x, d x, fst p)) (fun x p => snd p)). cbn [rbind].
  rewrite n_dependent_rows, bzip3_parts. cbn [rbind]. now rewrite modulate_map.
Qed.
Lemma nmul_nan x : nmul x NaN = NaN.
Proof. destruct x; reflexivity. Qed.
Lemma nadd_nan x : nadd x NaN = NaN.
Proof. destruct x; reflexivity. Qed.
Lemma ndiv_nan x : ndiv NaN x = NaN.
Proof. destruct x; reflexivity. Qed.
Lemma nsqrt_negative g : g < 0 -> nsqrt (Fin g) = NaN.
Proof. intros H. unfold nsqrt, npowr. unfold Rltb, Reqb. destruct (Rlt_dec 0 g); [lra|]. destruct (Req_EM_T g 0); [lra|reflexivity]. Qed.
Lemma nsum_nan l : In NaN l -> nsum l = NaN.
Proof.
  unfold nsum. assert (Z : forall l, fold_left nadd l NaN = NaN) by (induction l0 as [|x l0 IH]; [reflexivity|exact IH]).
  generalize (Fin 0). induction l as [|x l IH]; intros a I; [destruct I|]. cbn [fold_left]. destruct I as [->|I]; [rewrite nadd_nan; apply Z|now apply IH].
Qed.
Section beyond.
  Variables (b : Z) (jv : Z -> num -> num) (n : Z) (e g : R).
  Hypothesis B : (8 <= b)%Z.
  Hypothesis N : (1 <= n)%Z.
  Hypothesis O : (2 ^ (b - 1) <= n ^ 4 < 2 ^ b)%Z.
  Hypothesis P : peters_g jv n (Fin e) = Fin g.
  Hypothesis G : 0 < g.
  Lemma h0_elem_nan m f d amp : h0_elem_w b jv None m f (Fin e) n d amp = NaN.
  Proof.
    destruct (peters_g_negative b jv n e g B N O P G) as (g' & E & L). unfold h0_elem_w, h0_dep_w, g_value_w. rewrite E, nsqrt_negative by exact L.
    rewrite ndiv_nan, nmul_nan. unfold mod_elem. destruct amp; [apply nmul_nan|reflexivity].
  Qed.
  Lemma hc_elem_nan m f d amp : hc_elem_w b jv None m f (Fin e) n d amp = NaN.
  Proof.
    destruct (peters_g_negative b jv n e g B N O P G) as (g' & E & L). unfold hc_elem_w, hc_dep_w, g_value_w. assert (Q : 0 < IZR n) by (apply IZR_lt; lia).
    rewrite E. unfold nZ. rewrite ndiv_fin by lra. rewrite nsqrt_negative by (apply Rmult_lt_reg_r with (IZR n); [exact Q|unfold Rdiv; rewrite Rmult_assoc, Rinv_l; lra]).
    rewrite nmul_nan. unfold mod_elem. destruct amp; [apply nmul_nan|reflexivity].
  Qed.
  Lemma single_nan m f d : h_0_n_w b jv None [m] [[f]] [[Fin e]] [n] [d] no_sky = Ok [[[NaN]]] /\ h_c_n_w b jv None [m] [[f]] [[Fin e]] [n] [d] no_sky = Ok [[[NaN]]].
  Proof.
    assert (K : existsb (fun k => (k <? 1)%Z) [n] = false) by (cbn; destruct (Z.ltb_spec n 1); [lia|reflexivity]).
    pose proof (h_0_n_w_map b jv None (fun _ : unit => m) (fun _ => d) (fun _ => [(f, Fin e)]) [tt] [n] None K) as H0.
    pose proof (h_c_n_w_map b jv None (fun _ : unit => m) (fun _ => d) (fun _ => [(f, Fin e)]) [tt] [n] None K) as Hc.
    cbn [map f_rows e_rows fst snd] in H0, Hc. rewrite h0_elem_nan in H0. rewrite hc_elem_nan in Hc. split; [exact H0|exact Hc].
  Qed.
End beyond.
Lemma stationary_w_map b w jv gi {X} (m f e d : X -> num) xs t hr sc rm r2 kw p : noise_curve w kw sc t p ->
  snr_ecc_stationary_w b w jv gi (map m xs) (map f xs) (map e xs) (map d xs) (Fin t) hr sc rm r2 kw =
  returned rm r2 (map (fun x => map (fun k => ndiv (nmul (npowi (h0_elem_w b jv gi (m x) (f x) (e x) k (d x) None) 2) (Fin t)) (p (nmul (nZ k) (f x)))) (arange1 hr)) xs).
Proof.
  intros Hp. unfold snr_ecc_stationary_w. destruct (newaxis_rows f e xs) as [-> ->].
  change no_sky with (pop_sky xs None). rewrite h_0_n_w_map by apply arange1_ok. cbn [rbind map fst snd].
  rewrite !map_length, Nat.eqb_refl. cbn [negb]. rewrite (noise2_map _ _ _ _ p) by auto. cbn [rbind]. rewrite !map_map.
  unfold bzip2. rewrite bzipM_map. erewrite mapM_ext; [rewrite mapM_ok; cbn [rbind]; reflexivity|].
  intros x _. cbn [concat]. rewrite app_nil_r, !map_map. rewrite bzip_map. reflexivity.
Qed.
Lemma snr_nan b w jv {X} (m f d : X -> num) (e : X -> R) xs t hr sc kw p n g i x : (8 <= b)%Z -> noise_curve w kw sc t p ->
  (1 <= n <= Z.of_nat hr)%Z -> (2 ^ (b - 1) <= n ^ 4 < 2 ^ b)%Z -> nth_error xs i = Some x -> peters_g jv n (Fin (e x)) = Fin g -> 0 < g ->
  exists v, snr_ecc_stationary_w b w jv None (map m xs) (map f xs) (map (fun x => Fin (e x)) xs) (map d xs) (Fin t) hr sc false false kw = Ok (Snr v) /\ nth_error v i = Some NaN.
Proof.
  intros B C N O I P G. rewrite (stationary_w_map b w jv None m f (fun x => Fin (e x)) d xs t hr sc false false kw p C). unfold returned. eexists. split; [reflexivity|].
  rewrite map_map. rewrite nth_error_map, I. cbn [option_map]. rewrite nsum_nan; [reflexivity|]. apply in_map_iff. exists n. split; [|apply arange1_in; lia].
  rewrite (h0_elem_nan b jv n (e x) g) by (auto; lia). reflexivity.
Qed.

Lemma limits n : (1 <= n)%Z -> ((n ^ 4 < 2 ^ (64 - 1))%Z <-> (n <= 55108)%Z) /\ ((n ^ 4 < 2 ^ (32 - 1))%Z <-> (n <= 215)%Z).
Proof.
  intros N. assert (L : forall k M, (0 <= k)%Z -> (k ^ 4 < M)%Z -> (M <= (k + 1) ^ 4)%Z -> (n ^ 4 < M <-> n <= k)%Z).
  { intros k M K A C. split; intros H.
    - destruct (Z_le_gt_dec n k) as [D|D]; [exact D|]. exfalso. assert ((k + 1) ^ 4 <= n ^ 4)%Z by (apply Z.pow_le_mono_l; lia). lia.
    - assert (n ^ 4 <= k ^ 4)%Z by (apply Z.pow_le_mono_l; lia). lia. }
  split; apply L; vm_compute; congruence.
Qed.
Lemma power_of_ones n : (1 <= n)%Z -> exists g, peters_g (fun _ _ => Fin 1) n (Fin (1 / 2)) = Fin g /\ 0 < g.
Proof.
  intros N. assert (P : 0 < IZR n) by (apply IZR_lt; lia). assert (P4 : 0 < IZR (n ^ 4)) by (apply IZR_lt, Z.pow_pos_nonneg; lia). assert (P2 : 0 < IZR (n ^ 2)) by (apply IZR_lt, Z.pow_pos_nonneg; lia).
  unfold peters_g, nZ. cbv zeta. repeat first [rewrite ndiv_fin by lra|rewrite nmul_fin|rewrite nsub_fin|rewrite nadd_fin|rewrite npowi2]. eexists. split; [reflexivity|].
  apply Rmult_lt_0_compat; [apply Rdiv_lt_0_compat; lra|].
  set (b1 := 1 - _ + _ + _ - _). set (b2 := 1 - _ + _). assert (0 <= b1 ^ 2) by apply pow2_ge_0. assert (0 <= b2 ^ 2) by apply pow2_ge_0.
  assert (0 < 4 / (3 * IZR (n ^ 2)) * 1 ^ 2) by (rewrite pow1, Rmult_1_r; apply Rdiv_lt_0_compat; lra).
  assert (E : 1 - (1 / 2) ^ 2 = 3 / 4) by lra. rewrite E. lra.
Qed.
