(** CurveThms.v -- theorem-level statements on the sensitivity curve of a Source. *)
From Coq Require Import String Reals ZArith List Lra Lia Bool.
From Verif Require Import Num NumFacts Np Utils Strain Psd PsdSpec PsdFacts Snr Interp Evol Harmonics InterpFacts HarmSpec HarmThms ScParams Source Index
  History CurveSpec CurveFacts Toy.
Import ListNotations.
Open Scope R_scope.

Lemma ok_inj {A} (a b : A) : Ok a = Ok b -> a = b. Proof. intros H. now inversion H. Qed.
(** ** The grid *)
Lemma INR_9999 : INR (Z.to_nat 10000 - 1) = 9999.
Proof. rewrite minus_INR by (pose proof ten_thousand; lia). rewrite INR_IZR_INZ, Z2Nat.id by lia. cbn. lra. Qed.
Definition gridR : list R := logspace (-7) log10_2 (Z.to_nat 10000).
Lemma grid_eq : curve_grid = map Fin gridR. Proof. reflexivity. Qed.
Lemma gridR_length : length gridR = Z.to_nat 10000. Proof. unfold gridR, logspace. now rewrite map_length, linspace_length. Qed.
Lemma gridR_nth j : (j < Z.to_nat 10000)%nat -> nth_error gridR j = Some (grid_f j).
Proof.
  intros H. unfold gridR, logspace, grid_f. erewrite map_nth_error; [|apply linspace_nth; [apply ten_thousand|exact H]].
  rewrite INR_9999. do 2 f_equal. unfold log10_2. lra.
Qed.
Lemma ln10_pos : 0 < ln 10. Proof. rewrite <- ln_1. apply ln_increasing; lra. Qed.
Lemma grid_f_lt i j : (i < j)%nat -> grid_f i < grid_f j.
Proof.
  intros H. unfold grid_f. apply Rpower_lt; [lra|]. apply Rplus_lt_compat_l. apply Rmult_lt_compat_r; [|now apply lt_INR].
  assert (0 < ln 2 / ln 10) by (apply Rdiv_lt_0_compat; [rewrite <- ln_1; apply ln_increasing; lra|apply ln10_pos]). lra.
Qed.
Lemma gridR_increasing : increasing gridR.
Proof.
  intros i j a b Hi Hj L. assert (i < length gridR /\ j < length gridR)%nat as [Li Lj] by (split; apply nth_error_Some; congruence).
  rewrite gridR_length in *. rewrite gridR_nth in Hi, Hj by auto. inversion Hi; inversion Hj; subst. now apply grid_f_lt.
Qed.
Lemma grid_f_0 : grid_f 0 = 1e-7.
Proof.
  unfold grid_f. cbn [INR]. replace (-7 + 0 * ((ln 2 / ln 10 + 7) / 9999)) with (- INR 7) by (cbn [INR]; lra).
  rewrite Rpower_Ropp, Rpower_pow by lra. cbn [pow]. lra.
Qed.
Lemma grid_f_last : grid_f (Z.to_nat 10000 - 1) = 2.
Proof.
  unfold grid_f. rewrite INR_9999. replace (-7 + 9999 * ((ln 2 / ln 10 + 7) / 9999)) with (ln 2 / ln 10) by lra.
  unfold Rpower. replace (ln 2 / ln 10 * ln 10) with (ln 2) by (field; apply Rgt_not_eq, ln10_pos). apply exp_ln. lra.
Qed.

(** ** C82: what an interpolated curve is *)
Lemma curve_spec x d c p : exact_curve x d p -> curve_of x d = Ok c -> tabulates c (fun f => p (Fin f)).
Proof.
  intros Hp H. unfold curve_of in H. rewrite Hp in H. cbn [rbind] in H.
  rewrite map_length, Nat.eqb_refl in H. apply ok_inj in H. subst c. rewrite grid_eq.
  set (ys := map p (map Fin gridR)).
  assert (Hl : length gridR = length ys) by (unfold ys; now rewrite !map_length).
  assert (Hy : forall j, (j < Z.to_nat 10000)%nat -> nth_error ys j = Some (p (Fin (grid_f j)))).
  { intros j Hj. unfold ys. rewrite map_map. erewrite map_nth_error; [|apply gridR_nth, Hj]. reflexivity. }
  split; [|split].
  - intros j Hj. apply (interp1d_grid gridR ys _ _ gridR_increasing Hl j); auto using gridR_nth.
  - intros j f u v Hj Hf Hu Hv.
    destruct (Req_dec f (grid_f (S j))) as [->|N].
    + rewrite (interp1d_grid gridR ys _ _ gridR_increasing Hl (S j) _ (Fin v)); auto using gridR_nth; [|rewrite Hy; congruence].
      pose proof (grid_f_lt j (S j) ltac:(lia)). f_equal. field. lra.
    + rewrite (interp1d_between gridR ys _ _ gridR_increasing Hl j (grid_f j) (grid_f (S j)) (Fin u) (Fin v)); try lra.
      * apply segment_fin. apply grid_f_lt. lia.
      * apply gridR_nth. lia.
      * now apply gridR_nth.
      * rewrite Hy by lia. congruence.
      * rewrite Hy by auto. congruence.
  - intros f [Hf|Hf].
    + apply (interp1d_below gridR ys (Fin 1e30) (Fin 1e30) gridR_increasing Hl (grid_f 0)); [apply gridR_nth; pose proof ten_thousand; lia|now rewrite grid_f_0].
    + apply (interp1d_above gridR ys (Fin 1e30) (Fin 1e30) gridR_increasing Hl (grid_f (Z.to_nat 10000 - 1))); [|now rewrite grid_f_last].
      rewrite gridR_length. apply gridR_nth. pose proof ten_thousand. lia.
Qed.
(** Interpolated values lie between the neighbouring exact ones. *)
Lemma between_thm c p j f u v : tabulates c p -> (S j < Z.to_nat 10000)%nat -> grid_f j <= f <= grid_f (S j) ->
  p (grid_f j) = Fin u -> p (grid_f (S j)) = Fin v -> exists y, c (Fin f) = Fin y /\ Rmin u v <= y <= Rmax u v.
Proof.
  intros (_ & H & _) Hj Hf Hu Hv. rewrite (H j f u v Hj Hf Hu Hv). eexists. split; [reflexivity|].
  pose proof (grid_f_lt j (S j) ltac:(lia)) as L. set (t := (f - grid_f j) / (grid_f (S j) - grid_f j)).
  assert (0 <= t <= 1).
  { unfold t. split; [apply Rmult_le_pos; [lra|apply Rlt_le, Rinv_0_lt_compat; lra]|]. apply (Rmult_le_reg_r (grid_f (S j) - grid_f j)); [lra|]. unfold Rdiv. rewrite Rmult_assoc, Rinv_l; lra. }
  unfold Rmin, Rmax. destruct (Rle_dec u v); nra.
Qed.

(** ** What construction establishes *)
Definition built (k : klass) (i : init_args) (m_1 m_2 dist f_orb ecc : list num) (w : option (list num)) (pos : option (list (num * num)))
  (inc pol : option (list num)) : src :=
  mkSrc k m_1 m_2 dist f_orb ecc w pos inc pol None None None (np_repeat false (length m_1)) (i_stat_tol i) (i_n_proc i) no_harm None
        (i_interpolate_sc i) None [].
Definition finish (x : ext) (i : init_args) : M unit :=
  mbind (assign_gw_lum_tol x (i_gw_lum_tol i)) (fun _ => mbind (assign_params x (i_sc_params i) None) (fun _ => set_g x (i_interpolate_g i))).
Lemma init_tail x k i s : init x k i = Ok s -> exists m_1 m_2 dist f_orb ecc w pos inc pol,
  (length m_2 = length m_1 /\ length dist = length m_1 /\ length f_orb = length m_1 /\ length ecc = length m_1) /\
  finish x i (built k i m_1 m_2 dist f_orb ecc w pos inc pol) = (s, Ok tt).
Proof.
  unfold init. destruct (negb _ && negb _); [discriminate|].
  match goal with |- rbind ?r _ = _ -> _ => destruct r as [[[pos inc] pol]|e] end; cbn [rbind]; [|discriminate].
  match goal with |- rbind ?r _ = _ -> _ => destruct r as [fo|e] end; cbn [rbind]; [|discriminate].
  destruct (negb _); [discriminate|].
  destruct (fst (ensure_array _)) as [|m_1 [|m_2 [|dist [|f_orb [|ecc [|w [|]]]]]]]; try discriminate.
  destruct (len_of ecc) as [n|e]; cbn [rbind]; [|discriminate].
  cbn zeta. destruct (existsb _ _) eqn:Ex; [discriminate|].
  match goal with |- match ?c with _ => _ end = _ -> _ => destruct c as [s1 [[]|e]] eqn:E end; [|discriminate]. intros H. injection H as ->.
  exists (list_of m_1), (list_of m_2), (list_of dist), (list_of f_orb), (list_of ecc), (if py_exists w then Some (list_of w) else None), pos, inc, pol.
  split; [|exact E].
  cbn [existsb] in Ex. rewrite Nat.eqb_refl in Ex. cbn [negb orb] in Ex. repeat (apply orb_false_elim in Ex; destruct Ex as [?H Ex]).
  repeat match goal with H : negb _ = false |- _ => apply negb_false_iff, Nat.eqb_eq in H end. auto.
Qed.
Lemma finish_cases x i s0 s : finish x i s0 = (s, Ok tt) -> exists h d s1,
  set_gw_lum_tol (x_jv x) (x_lum x) (i_gw_lum_tol i) (s_harm s0) = (h, Ok tt) /\ make_params (i_sc_params i) = Ok d /\
  set_sc x (put_params d (set_harm h s0)) = (s1, Ok tt) /\ s = set_g_attr (if i_interpolate_g i then Some (x_g x) else None) s1.
Proof.
  unfold finish, assign_gw_lum_tol, mbind. destruct (set_gw_lum_tol _ _ _ _) as [h [[]|e]]; [|discriminate].
  rewrite assign_cases. destruct (make_params _) as [d|e]; [|discriminate]. cbn zeta beta iota.
  destruct (set_sc x (put_params d (set_harm h s0))) as [s1 [[]|e]] eqn:E; [|discriminate]. intros H. injection H as <-. eauto 9.
Qed.
Lemma set_sc_in_step x s s' : set_sc x s = (s', Ok tt) -> in_step x s'.
Proof.
  unfold set_sc, in_step. destruct (s_interpolate_sc s) eqn:E.
  - destruct (curve_of x (s_params s)) as [c|e] eqn:F; [|discriminate]. intros H. injection H as <-. cbn. rewrite E. eauto.
  - intros H. injection H as <-. cbn. now rewrite E.
Qed.
Lemma in_step_only x : curve_only (fun s => six s /\ in_step x s).
Proof. intros s s' E1 E2 E3 [H1 H2]. unfold six, in_step in *. now rewrite <- E1, <- E2, <- E3. Qed.
Lemma init_in_step x k i s : init x k i = Ok s -> six s /\ in_step x s.
Proof.
  intros H. apply init_tail in H. destruct H as (m_1 & m_2 & dist & f & e & w & pos & inc & pol & _ & H).
  apply finish_cases in H. destruct H as (h & d & s1 & _ & Hd & Hs & ->).
  assert (six s1 /\ in_step x s1) as [A B]; [|split; auto]. split; [|now apply (set_sc_in_step x _ _ Hs)].
  unfold six. pose proof (set_sc_params x (put_params d (set_harm h (built k i m_1 m_2 dist f e w pos inc pol)))) as [P _].
  rewrite Hs in P. cbn [fst] in P. rewrite P. cbn. apply (make_params_keys _ _ Hd).
Qed.
Lemma in_step_tracks x s : in_step x s -> tracks x s.
Proof. unfold in_step, tracks. destruct (s_interpolate_sc s); auto. intros (c & A & B) c'. congruence. Qed.

(** ** C50: histories *)
Lemma history_any x k i s ops : init x k i = Ok s -> forallb supported ops = true -> tracks x (fst (run x ops s)).
Proof.
  intros H Ho. destruct (init_in_step _ _ _ _ H) as [A B]. apply (run_preserves x (ok50 x) supported); auto.
  - intros o Hs. now apply tracks_step.
  - split; auto. now apply in_step_tracks.
Qed.
Definition good x (s : src) : Prop := six s /\ in_step x s.
Lemma set_sc_triple x : triple six (fun _ => True) (set_sc x) /\ forall s, six s -> match set_sc x s with (s', Ok _) => good x s' | _ => True end.
Proof.
  split; intros s H; destruct (set_sc x s) as [s' [[]|e]] eqn:E; auto.
  - pose proof (six_set_sc x s H) as K. now rewrite E in K.
  - split; [pose proof (six_set_sc x s H) as K; now rewrite E in K|]. now apply (set_sc_in_step x s).
Qed.
Lemma good_put x d s : d = s_params s -> good x s -> good x (put_params d s).
Proof. intros -> H. exact H. Qed.
Lemma good_update x new : triple (good x) (fun _ => True) (params_update x new).
Proof.
  intros s Hg. pose proof Hg as [H6 H]. pose proof (six_update x new s H6) as K6. rewrite update_cases in *.
  destruct (check_keys (keys new)) as [[]|e] eqn:E; [|exact I]. cbn zeta in *.
  destruct (existsb _ new) eqn:Ex.
  - match goal with |- context [set_sc x ?s1] => destruct (set_sc x s1) as [s' [[]|e]] eqn:F end; auto. split; [exact K6|now apply (set_sc_in_step x _ _ F)].
  - apply good_put; auto. apply put_all_same. intros [k v] Hk. cbn.
    rewrite lookup_get.
    + f_equal. apply peqb_eq. destruct (peqb (get_or_none k (s_params s)) v) eqn:P; auto. exfalso.
      assert (existsb (fun kv => negb (peqb (get_or_none (fst kv) (s_params s)) (snd kv))) new = true); [|congruence].
      apply existsb_exists. exists (k, v). split; auto. cbn. now rewrite P.
    + unfold six in H6. rewrite H6. apply (proj1 (check_keys_ok _) E). now apply (in_map fst) in Hk.
Qed.
Lemma good_setitem x k v : triple (good x) (fun _ => True) (params_setitem x k v).
Proof.
  intros s Hg. pose proof Hg as [H6 H]. pose proof (six_setitem x k v s H6) as K6. rewrite setitem_cases in *.
  destruct (check_keys [k]) as [[]|e] eqn:E; [|exact I]. cbn zeta in *.
  destruct (peqb (get_or_none k (s_params s)) v) eqn:P; cbn [negb] in *.
  - apply good_put; auto. apply put_same. apply peqb_eq in P. subst v. apply lookup_get. unfold six in H6. rewrite H6.
    apply (proj1 (check_keys_ok _) E). now left.
  - match goal with |- context [set_sc x ?s1] => destruct (set_sc x s1) as [s' [[]|e]] eqn:F end; auto. split; [exact K6|now apply (set_sc_in_step x _ _ F)].
Qed.
Lemma good_assign x new s : good x s -> match assign_params x new (Some (s_params s)) s with (s', Ok _) => good x s' | _ => True end.
Proof.
  intros Hg. pose proof Hg as [H6 H]. pose proof (six_assign x new (Some (s_params s)) s H6) as K6. rewrite assign_cases in *.
  destruct (make_params new) as [d|e] eqn:E; [|exact I]. cbn zeta in *.
  destruct (dict_eqb d (s_params s)) eqn:P; cbn [negb] in *.
  - apply good_put; [|exact Hg]. exact (dict_eqb_eq _ _ (make_params_keys _ _ E) H6 P).
  - match goal with |- context [set_sc x ?s1] => destruct (set_sc x s1) as [s' [[]|e]] eqn:F end; auto. split; [exact K6|now apply (set_sc_in_step x _ _ F)].
Qed.
Lemma good_step x o : supported o = true -> triple (good x) (fun _ => True) (step x o).
Proof.
  destruct o; intros Ho; try discriminate Ho; clear Ho;
    try (apply (other_steps _ _ (in_step_only x) (fun _ _ => I) x (good_update x)); exact I).
  - apply good_setitem. - apply good_update. - intros s H. cbn [step]; rewrite mbind_self. now apply good_assign.
  - intros s [H6 H]. cbn [step]. now apply (proj2 (set_sc_triple x)).
Qed.
Lemma history_ok x k i s ops s' : init x k i = Ok s -> forallb supported ops = true ->
  run x ops s = (s', repeat (Ok tt) (length ops)) -> in_step x s'.
Proof.
  intros H Ho Hr. assert (G : good x s) by now apply (init_in_step x k i). clear H.
  revert s G Ho Hr. induction ops as [|o ops IH]; intros s G Ho Hr; cbn in *.
  - injection Hr as <-. apply G.
  - apply andb_prop in Ho. destruct Ho as [Ho1 Ho2]. pose proof (good_step x o Ho1 s G) as T. destruct (step x o s) as [s1 r].
    destruct (run x ops s1) as [s2 rs] eqn:E. injection Hr as E1 E2 E3. subst. apply (IH s1); auto.
Qed.
(** Masking and copying keep the curve, the flag and the parameters. *)
Lemma getitem_settings ind s s2 : getitem ind s = Ok s2 ->
  s_class s2 = s_class s /\ s_stat_tol s2 = s_stat_tol s /\ s_n_proc s2 = s_n_proc s /\ s_harm s2 = s_harm s /\ s_g s2 = s_g s /\
  s_interpolate_sc s2 = s_interpolate_sc s /\ s_sc s2 = s_sc s /\ make_params (s_params s) = Ok (s_params s2).
Proof.
  unfold getitem. intros H.
  assert (K : forall A (r : res A) f, rbind r f = Ok s2 -> exists a, f a = Ok s2) by (intros A [a|e] f; cbn; [eauto|discriminate]).
  destruct (s_class s) eqn:C; try discriminate;
  do 14 (apply K in H; destruct H as [? H]); destruct (make_params (s_params s)) eqn:P; cbn in H; try discriminate; injection H as <-; cbn; auto 10.
Qed.
Lemma getitem_in_step x ind s s2 : six s -> getitem ind s = Ok s2 -> (in_step x s -> in_step x s2) /\ (tracks x s -> tracks x s2) /\ s_params s2 = s_params s.
Proof.
  intros H6 H. apply getitem_settings in H. destruct H as (_ & _ & _ & _ & _ & F & S & P).
  rewrite (make_params_same _ H6) in P. injection P as P. unfold in_step, tracks. rewrite F, S, <- P. auto.
Qed.
Lemma masking_thm x k i s ops ind s2 : init x k i = Ok s -> forallb supported ops = true -> getitem ind (fst (run x ops s)) = Ok s2 ->
  tracks x s2 /\ s_params s2 = s_params (fst (run x ops s)).
Proof.
  intros H Ho G.
  assert (six (fst (run x ops s))).
  { apply (run_preserves x six supported); auto; [|now apply (init_in_step x k i)]. intros o. destruct o; try discriminate; intros _; now apply six_step. }
  destruct (getitem_in_step x ind _ s2 H0 G) as (_ & A & B). split; auto. apply A. now apply (history_any x k i).
Qed.
(** ** C50: what breaks it *)
Lemma toggle_thm x s : in_step x s -> s_interpolate_sc s = true ->
  snd (run x [Toggle false] s) = [Ok tt] /\ s_interpolate_sc (fst (run x [Toggle false] s)) = false /\ s_sc (fst (run x [Toggle false] s)) <> None.
Proof. unfold in_step. intros H E. rewrite E in H. destruct H as (c & _ & H). cbn. rewrite H. repeat split. discriminate. Qed.
Lemma ior_step x new s : six s -> (forall k, In k (keys new) -> In k documented) ->
  dict_eqb (put_all new (s_params s)) (put_all new (s_params s)) = true ->
  step x (Ior new) s = (put_params (put_all new (s_params s)) s, Ok tt).
Proof.
  intros H6 K HE. cbn [step]. unfold params_ior. rewrite mbind_modify, mbind_self, assign_cases. cbn [put_params set_curve s_params].
  rewrite make_params_same; [|rewrite put_all_keys; auto; unfold six in H6; rewrite H6; auto]. cbn zeta. rewrite HE. cbn [negb].
  reflexivity.
Qed.
Lemma repeat_thm x s k v e c : in_step x s -> s_interpolate_sc s = true -> s_sc s = Some c -> In k documented -> peqb v v = true ->
  peqb (get_or_none k (s_params s)) v = false -> curve_of x (put k v (s_params s)) = Err e ->
  exists s', run x [SetItem k v; SetItem k v] s = (s', [Err e; Ok tt]) /\ s_interpolate_sc s' = true /\
             s_sc s' = Some c /\ curve_of x (s_params s') = Err e.
Proof.
  intros H F S K V N C. exists (put_params (put k v (s_params s)) s).
  assert (CK : check_keys [k] = Ok tt) by (apply check_keys_ok; intros k' [<-|[]]; exact K).
  assert (E1 : step x (SetItem k v) s = (put_params (put k v (s_params s)) s, Err e)).
  { cbn [step]. rewrite setitem_cases, CK. cbn zeta. rewrite N. cbn [negb]. unfold set_sc. cbn [s_interpolate_sc put_params set_curve s_params].
    now rewrite F, C. }
  assert (E2 : step x (SetItem k v) (put_params (put k v (s_params s)) s) = (put_params (put k v (s_params s)) s, Ok tt)).
  { cbn [step]. rewrite setitem_cases, CK. cbn zeta. cbn [s_params put_params set_curve].
    assert (L : lookup k (put k v (s_params s)) = Some v) by (rewrite lookup_put, String.eqb_refl; reflexivity).
    unfold get_or_none. rewrite L, V. cbn [negb]. rewrite (put_same _ _ _ L). reflexivity. }
  cbn [run]. rewrite E1, E2. cbn. auto.
Qed.
Lemma twin_thm x t s s1 new : in_step x s -> s_interpolate_sc s = false -> evolve_new x t s = (s1, Ok new) ->
  s_interpolate_sc new = true /\ s_sc new = None.
Proof.
  intros H F E. unfold in_step in H. rewrite F in H. unfold evolve_new in E.
  assert (P : triple (fun s => s_sc s = None) (fun s => s_sc s = None) (ensure_t_merge x)).
  { apply ensure_keeps; auto. intros a b _ E2 _. congruence. }
  specialize (P s H). unfold mbind at 1 in E. destruct (ensure_t_merge x s) as [s2 [tm|e]]; [|discriminate].
  rewrite mbind_self, mbind_lift in E. destruct (evolved x t tm s2) as [[[mg ec] f]|e]; [|discriminate].
  rewrite mbind_lift in E.
  match type of E with match ?r with _ => _ end = _ => destruct r as [n|e] end; [|discriminate].
  rewrite mbind_lift in E. destruct (times_of _ _) as [ts|e]; [|discriminate].
  rewrite mbind_lift in E. destruct (remaining _ _) as [l|e]; [|discriminate]. injection E as <- <-. cbn. auto.
Qed.

(** ** C51 *)
Lemma keys_thm x k i s ops : init x k i = Ok s -> forallb keeps_keys ops = true -> keys (s_params (fst (run x ops s))) = documented.
Proof. intros H Ho. apply (run_preserves x six keeps_keys); auto; [intros; now apply six_step|now apply (init_in_step x k i)]. Qed.
Lemma check_keys_unknown ks k : In k ks -> ~ In k documented -> check_keys ks = Err KeyError.
Proof. intros H N. destruct (check_keys_err ks) as [E|E]; auto. exfalso. apply N. now apply (proj1 (check_keys_ok ks) E). Qed.
Lemma unknown_thm x s k v new : ~ In k documented -> In k (keys new) ->
  step x (SetItem k v) s = (s, Err KeyError) /\ step x (Update new) s = (s, Err KeyError) /\ step x (Assign new) s = (s, Err KeyError) /\
  step x Remove s = (s, Err TypeError).
Proof.
  intros N H. cbn [step]. split; [|split; [|split]].
  - rewrite setitem_cases, (check_keys_unknown [k] k); auto. now left.
  - rewrite update_cases, (check_keys_unknown _ k); auto.
  - rewrite mbind_self, assign_cases. unfold make_params. rewrite (check_keys_unknown _ k); auto.
  - reflexivity.
Qed.
Lemma unknown_init x kl i k : ~ In k documented -> In k (keys (i_sc_params i)) -> forall s, init x kl i <> Ok s.
Proof.
  intros N H s E. apply init_tail in E. destruct E as (m_1 & m_2 & dist & f & e & w & pos & inc & pol & _ & E). apply finish_cases in E.
  destruct E as (h & d & s1 & _ & Hd & _). unfold make_params in Hd. rewrite (check_keys_unknown _ k) in Hd; auto. discriminate.
Qed.
(** What a successful (or failing) write leaves. *)
Lemma set_sc_keeps_params x s : s_params (fst (set_sc x s)) = s_params s. Proof. apply set_sc_params. Qed.
Lemma setitem_value x s k v k' : In k documented ->
  lookup k' (s_params (fst (step x (SetItem k v) s))) = if String.eqb k' k then Some v else lookup k' (s_params s).
Proof.
  intros K. cbn [step]. rewrite setitem_cases, (proj2 (check_keys_ok [k])) by (intros k2 [<-|[]]; exact K). cbn zeta.
  destruct (negb _); [rewrite set_sc_keeps_params|]; cbn; apply lookup_put.
Qed.
Lemma update_value x s new k' : (forall k, In k (keys new) -> In k documented) -> NoDup (keys new) ->
  lookup k' (s_params (fst (step x (Update new) s))) = match lookup k' new with Some v => Some v | None => lookup k' (s_params s) end.
Proof.
  intros K N. cbn [step]. rewrite update_cases, (proj2 (check_keys_ok _)) by exact K. cbn zeta.
  destruct (existsb _ _); [rewrite set_sc_keeps_params|]; cbn; now apply lookup_put_all.
Qed.
Lemma default_lookup k : In k documented -> lookup k default_params = Some (default_of k).
Proof. intros H. cbn in H. repeat (destruct H as [<-|H]; [reflexivity|]). destruct H. Qed.
Lemma made_value new d k' : make_params new = Ok d -> NoDup (keys new) -> In k' documented ->
  lookup k' d = Some (match lookup k' new with Some v => v | None => default_of k' end).
Proof.
  unfold make_params. intros E N K. destruct (check_keys _); cbn [rbind] in E; [|discriminate]. injection E as <-.
  rewrite lookup_put_all by exact N. rewrite default_lookup by exact K. now destruct (lookup k' new).
Qed.
Lemma assign_value x s new k' : (forall k, In k (keys new) -> In k documented) -> NoDup (keys new) -> In k' documented ->
  lookup k' (s_params (fst (step x (Assign new) s))) = Some (match lookup k' new with Some v => v | None => default_of k' end).
Proof.
  intros K N K'. cbn [step]. rewrite mbind_self, assign_cases. destruct (make_params new) as [d|e] eqn:E.
  - cbn zeta. destruct (negb _); [rewrite set_sc_keeps_params|]; cbn; now apply made_value.
  - exfalso. unfold make_params in E. rewrite (proj2 (check_keys_ok _)) in E by exact K. discriminate.
Qed.
Lemma init_value x kl i s k' : init x kl i = Ok s -> NoDup (keys (i_sc_params i)) -> In k' documented ->
  lookup k' (s_params s) = Some (match lookup k' (i_sc_params i) with Some v => v | None => default_of k' end).
Proof.
  intros H N K. apply init_tail in H. destruct H as (m_1 & m_2 & dist & f & e & w & pos & inc & pol & _ & H).
  apply finish_cases in H. destruct H as (h & d & s1 & _ & Hd & Hs & ->).
  pose proof (set_sc_params x (put_params d (set_harm h (built kl i m_1 m_2 dist f e w pos inc pol)))) as [P _].
  rewrite Hs in P. cbn [fst] in P. cbn [set_g_attr s_params]. rewrite P. cbn [put_params s_params]. now apply made_value.
Qed.
Lemma put_new k v d : ~ In k (keys d) -> keys (put k v d) = (keys d ++ [k])%list.
Proof.
  induction d as [|[k2 v2] d IH]; intros N; cbn; [reflexivity|].
  destruct (String.eqb_spec k k2) as [E|Nk]; [exfalso; apply N; left; auto|]. cbn. f_equal. apply IH. intros H. apply N. now right.
Qed.
Lemma ior_unknown x s k v : six s -> ~ In k documented ->
  snd (step x (Ior [(k, v)]) s) = Err KeyError /\ keys (s_params (fst (step x (Ior [(k, v)]) s))) = (documented ++ [k])%list.
Proof.
  intros H6 N. cbn [step]. unfold params_ior. rewrite mbind_modify, mbind_self, assign_cases. cbn [put_params set_curve s_params].
  assert (E : keys (put_all [(k, v)] (s_params s)) = (documented ++ [k])%list).
  { unfold six in H6. unfold put_all. cbn [fold_left fst snd]. rewrite put_new, H6; [reflexivity|]. now rewrite H6. }
  unfold make_params. rewrite (check_keys_unknown _ k); [|rewrite E; apply in_or_app; right; now left|exact N]. cbn. auto.
Qed.
Lemma setdefault_unknown x s k v : six s -> ~ In k documented ->
  snd (step x (SetDefault k v) s) = Ok tt /\ In k (keys (s_params (fst (step x (SetDefault k v) s)))).
Proof.
  intros H6 N. cbn. destruct (lookup k (s_params s)) eqn:L.
  - exfalso. apply N. unfold six in H6. rewrite <- H6. apply lookup_in. eauto.
  - split; auto. cbn. apply lookup_in. rewrite lookup_put, String.eqb_refl. eauto.
Qed.

(** ** C52 *)
Lemma same_args a s t : a_t_obs a = PNil -> get_or_none "t_obs"%string (s_params s) = PStr "auto" ->
  t = auto_t_obs (instrument_of a s) ->
  resolve_args (fill_args a (s_params s)) = resolve_args (fill_args (with_t_obs a t) (s_params s)).
Proof. intros A B ->. unfold resolve_args, fill_args, with_t_obs. cbn [a_t_obs a_instrument a_custom a_L a_approximate_R a_confusion]. rewrite A, B. reflexivity. Qed.
Lemma method_default x values a which s t : a_t_obs a = PNil -> get_or_none "t_obs"%string (s_params s) = PStr "auto" ->
  t = auto_t_obs (instrument_of a s) -> snr_method x values a which s = snr_method x values (with_t_obs a t) which s.
Proof. intros A B C. unfold snr_method. rewrite !mbind_self. now rewrite (same_args a s t A B C). Qed.
(** After such a call the observing time is no longer "auto". *)
Lemma method_sticky x values a which s s' r : a_t_obs a = PNil -> get_or_none "t_obs"%string (s_params s) = PStr "auto" ->
  snr_method x values a which s = (s', r) -> six s -> (exists v, r = Ok v) -> get_or_none "t_obs"%string (s_params s') = PVal (auto_t_obs (instrument_of a s)).
Proof.
  intros A B E H6 [v ->]. unfold snr_method in E. rewrite mbind_self in E. cbn zeta in E.
  set (a' := resolve_args (fill_args a (s_params s))) in *.
  assert (K : check_keys (keys (args_dict a')) = Ok tt).
  { apply check_keys_ok. cbn. intros k. unfold documented. cbn. tauto. }
  assert (P : forall s2, params_update x (args_dict a') s = (s2, Ok tt) -> get_or_none "t_obs"%string (s_params s2) = PVal (auto_t_obs (instrument_of a s))).
  { intros s2 F. rewrite update_cases, K in F. cbn zeta in F.
    assert (Q : s_params s2 = put_all (args_dict a') (s_params s)).
    { destruct (existsb _ _); [|now inversion F]. pose proof (set_sc_keeps_params x (put_params (put_all (args_dict a') (s_params s)) s)) as Z. rewrite F in Z. exact Z. }
    unfold get_or_none. rewrite Q, lookup_put_all; [|cbn; repeat constructor; cbn; intuition discriminate].
    cbn. unfold a', resolve_args, fill_args. cbn. rewrite A, B. reflexivity. }
  unfold mbind at 1 in E. destruct (params_update x (args_dict a') s) as [s2 [[]|e]] eqn:F; [|discriminate].
  rewrite mbind_self, !mbind_lift in E. destruct (logical_and _ _) as [insp|e]; [|discriminate]. rewrite mbind_lift in E.
  destruct (values a' insp s2) as [w|e]; [|discriminate]. unfold record_snr, mbind, modify, lift in E. cbn in E.
  assert (S : s_params s' = s_params s2) by (injection E as <- _; reflexivity). rewrite S. now apply P.
Qed.
Lemma method_keeps_t x values a which s s' r t : a_t_obs a = PNil -> get_or_none "t_obs"%string (s_params s) = PVal t ->
  snr_method x values a which s = (s', r) -> (exists v, r = Ok v) -> 
  get_or_none "t_obs"%string (s_params s') = PVal t /\ snr_method x values a which s = snr_method x values (with_t_obs a t) which s.
Proof.
  intros A B E [v ->]. split.
  - unfold snr_method in E. rewrite mbind_self in E. cbn zeta in E.
    set (a' := resolve_args (fill_args a (s_params s))) in *.
    assert (K : check_keys (keys (args_dict a')) = Ok tt) by (apply check_keys_ok; cbn; intros k; unfold documented; cbn; tauto).
    assert (P : forall s2, params_update x (args_dict a') s = (s2, Ok tt) -> get_or_none "t_obs"%string (s_params s2) = PVal t).
    { intros s2 F. rewrite update_cases, K in F. cbn zeta in F.
      assert (Q : s_params s2 = put_all (args_dict a') (s_params s)).
      { destruct (existsb _ _); [|now inversion F]. pose proof (set_sc_keeps_params x (put_params (put_all (args_dict a') (s_params s)) s)) as Z. rewrite F in Z. exact Z. }
      unfold get_or_none. rewrite Q, lookup_put_all; [|cbn; repeat constructor; cbn; intuition discriminate].
      cbn. unfold a', resolve_args, fill_args. cbn. rewrite A, B. reflexivity. }
    unfold mbind at 1 in E. destruct (params_update x (args_dict a') s) as [s2 [[]|e]] eqn:F; [|discriminate].
    rewrite mbind_self, !mbind_lift in E. destruct (logical_and _ _) as [insp|e]; [|discriminate]. rewrite mbind_lift in E.
    destruct (values a' insp s2) as [w|e]; [|discriminate]. unfold record_snr, mbind, modify, lift in E. cbn in E.
    assert (S : s_params s' = s_params s2) by (injection E as <- _; reflexivity). rewrite S. now apply P.
  - unfold snr_method. rewrite !mbind_self. unfold fill_args, with_t_obs. cbn [a_t_obs a_instrument a_custom a_L a_approximate_R a_confusion].
    rewrite A, B. reflexivity.
Qed.
(** get_snr: the same values as with the time given explicitly. *)
Lemma update_frame x new s s' r : params_update x new s = (s', r) -> exists sc d, s' = set_curve (s_interpolate_sc s) sc d s.
Proof.
  rewrite update_cases. destruct (check_keys _) as [[]|e]; [|intros H; injection H as <- _; exists (s_sc s), (s_params s); now destruct s].
  cbn zeta. unfold set_sc. cbn [s_interpolate_sc put_params set_curve s_params s_sc]. destruct (existsb _ _).
  - destruct (s_interpolate_sc s) eqn:F.
    + destruct (curve_of _ _); intros H; injection H as <- _; unfold put_sc, put_params, set_curve; cbn; rewrite ?F; eauto.
    + intros H; injection H as <- _; unfold put_sc, put_params, set_curve; cbn; rewrite ?F; eauto.
  - intros H; injection H as <- _. unfold put_params, set_curve. eauto.
Qed.
Lemma args_known a : check_keys (keys (args_dict a)) = Ok tt.
Proof. apply check_keys_ok. cbn. intros k. unfold documented. cbn. tauto. Qed.
Lemma update_params_eq x a s s' r : params_update x (args_dict a) s = (s', r) -> s_params s' = put_all (args_dict a) (s_params s).
Proof.
  rewrite update_cases, args_known. cbn zeta. destruct (existsb _ _).
  - intros F. pose proof (set_sc_keeps_params x (put_params (put_all (args_dict a) (s_params s)) s)) as Z. rewrite F in Z. exact Z.
  - intros F. injection F as <- _. reflexivity.
Qed.
Lemma args_lookup a d k : lookup k (put_all (args_dict a) d) = match lookup k (args_dict a) with Some v => Some v | None => lookup k d end.
Proof. apply lookup_put_all. cbn. repeat constructor; cbn; intuition discriminate. Qed.
Lemma put_args_twice a b d : keys d = documented -> put_all (args_dict b) (put_all (args_dict a) d) = put_all (args_dict b) d.
Proof.
  intros K. assert (KA : forall c d', keys d' = documented -> keys (put_all (args_dict c) d') = documented).
  { intros c d' K'. rewrite put_all_keys; auto. intros k. rewrite K'. apply (proj1 (check_keys_ok _) (args_known c)). }
  apply same_keys_eq.
  - rewrite KA; auto using documented_nodup.
  - rewrite !KA; auto.
  - intros k. rewrite !args_lookup. cbn. repeat (destruct (String.eqb k _); [reflexivity|]). reflexivity.
Qed.
Lemma in_step_unique x s f c c' d : in_step x (set_curve f c d s) -> in_step x (set_curve f c' d s) -> c = c'.
Proof.
  unfold in_step. cbn [s_interpolate_sc s_sc s_params set_curve]. destruct f.
  - intros (u & A & B) (v & A' & B'). rewrite A in A'. apply ok_inj in A'. congruence.
  - congruence.
Qed.
Definition explicit (a : snr_args) : Prop := a_t_obs a = PStr "auto" /\ exists i, a_instrument a = PStr i.
Lemma fill_explicit a t d : explicit a -> t = auto_t_obs (a_instrument a) -> resolve_args (fill_args a d) = resolve_args (fill_args (with_t_obs a t) d).
Proof.
  intros [A [i B]] ->. unfold resolve_args, fill_args, with_t_obs. cbn [a_t_obs a_instrument a_custom a_L a_approximate_R a_confusion].
  rewrite A, B. reflexivity.
Qed.
(** Parameters holding the non-None arguments give them back. *)
Lemma refill a d : fill_args a (put_all (args_dict a) d) = a.
Proof.
  unfold fill_args. unfold get_or_none. rewrite !args_lookup. cbn. destruct a as [x1 x2 x3 x4 x5 x6].
  cbn. f_equal; [destruct x1|destruct x2|destruct x3|destruct x4|destruct x5|destruct x6]; reflexivity.
Qed.
(** The resolved arguments of a call on the two states reached by the first update. *)
Lemma two_updates x a t s s1 s2 : good x s -> explicit a -> t = auto_t_obs (a_instrument a) ->
  params_update x (args_dict a) s = (s1, Ok tt) -> params_update x (args_dict (with_t_obs a t)) s = (s2, Ok tt) ->
  resolve_args (fill_args a (s_params s1)) = with_t_obs a t /\ resolve_args (fill_args (with_t_obs a t) (s_params s2)) = with_t_obs a t /\
  forall u u', params_update x (args_dict (with_t_obs a t)) s1 = (u, Ok tt) -> params_update x (args_dict (with_t_obs a t)) s2 = (u', Ok tt) -> u = u'.
Proof.
  intros G X T U1 U2. rewrite (update_params_eq _ _ _ _ _ U1), (update_params_eq _ _ _ _ _ U2), !refill.
  split; [|split].
  - destruct X as [A [i B]]. unfold resolve_args, with_t_obs. rewrite A. cbn [resolve_t_obs peqb]. cbn. now rewrite <- T.
  - reflexivity.
  - intros u u' V V'. pose proof (good_update x (args_dict a) s G) as G1. rewrite U1 in G1. pose proof (good_update x (args_dict (with_t_obs a t)) s G) as G2. rewrite U2 in G2.
    pose proof (good_update x (args_dict (with_t_obs a t)) s1 G1) as W1. rewrite V in W1. pose proof (good_update x (args_dict (with_t_obs a t)) s2 G2) as W2. rewrite V' in W2.
    pose proof (update_params_eq _ _ _ _ _ V) as P1. pose proof (update_params_eq _ _ _ _ _ V') as P2.
    rewrite (update_params_eq _ _ _ _ _ U1), put_args_twice in P1 by apply G. rewrite (update_params_eq _ _ _ _ _ U2), put_args_twice in P2 by apply G.
    apply update_frame in U1. destruct U1 as (c1 & d1 & ->). apply update_frame in U2. destruct U2 as (c2 & d2 & ->).
    apply update_frame in V. destruct V as (c3 & d3 & ->). apply update_frame in V'. destruct V' as (c4 & d4 & ->).
    cbn [s_params set_curve s_interpolate_sc] in *. subst d3 d4.
    assert (c3 = c4); [|subst; reflexivity]. apply (in_step_unique x s (s_interpolate_sc s) c3 c4 (put_all (args_dict (with_t_obs a t)) (s_params s)));
    [apply W1|apply W2].
Qed.
Lemma method_two x values a t w s s1 s2 u u' v v' : good x s -> explicit a -> t = auto_t_obs (a_instrument a) ->
  params_update x (args_dict a) s = (s1, Ok tt) -> params_update x (args_dict (with_t_obs a t)) s = (s2, Ok tt) ->
  snr_method x values a (Some w) s1 = (u, Ok v) -> snr_method x values (with_t_obs a t) (Some w) s2 = (u', Ok v') -> u = u' /\ v = v'.
Proof.
  intros G X T U1 U2 E1 E2. destruct (two_updates x a t s s1 s2 G X T U1 U2) as (R1 & R2 & K).
  unfold snr_method in E1, E2. rewrite mbind_self in E1, E2. cbn [which_or_all] in E1, E2. cbn zeta in E1, E2. rewrite R1 in E1. rewrite R2 in E2.
  unfold mbind at 1 in E1. unfold mbind at 1 in E2.
  destruct (params_update x (args_dict (with_t_obs a t)) s1) as [s3 [[]|e]]; [|discriminate].
  destruct (params_update x (args_dict (with_t_obs a t)) s2) as [s4 [[]|e]]; [|discriminate].
  rewrite (K s3 s4 eq_refl eq_refl) in E1. rewrite E1 in E2. injection E2 as <- <-. auto.
Qed.
Lemma method_same x values a t w s : explicit a -> t = auto_t_obs (a_instrument a) ->
  snr_method x values a w s = snr_method x values (with_t_obs a t) w s.
Proof. intros X T. unfold snr_method. rewrite !mbind_self. now rewrite (fill_explicit a t _ X T). Qed.
Lemma mask_same x a t c st s s1 s2 : explicit a -> t = auto_t_obs (a_instrument a) ->
  params_update x (args_dict a) s = (s1, Ok tt) -> params_update x (args_dict (with_t_obs a t)) s = (s2, Ok tt) ->
  get_source_mask c st (a_t_obs a) s1 = get_source_mask c st (PVal t) s2.
Proof.
  intros [A [i B]] T U1 U2. pose proof (update_params_eq _ _ _ _ _ U1) as P1.
  assert (I1 : get_or_none "instrument"%string (s_params s1) = a_instrument a) by (unfold get_or_none; rewrite P1, args_lookup; reflexivity).
  apply update_frame in U1. destruct U1 as (c1 & d1 & ->). apply update_frame in U2. destruct U2 as (c2 & d2 & ->).
  unfold get_source_mask. rewrite A, I1. unfold ecc_tol, m_c, n_sources. cbn [set_curve s_harm s_m_1 s_m_2 s_ecc s_f_orb s_stat_tol or_default].
  unfold resolve_t_obs at 1 2. cbn [peqb String.eqb Ascii.eqb Bool.eqb]. rewrite <- T. reflexivity.
Qed.
Lemma get_snr_default x a n which s t s' s'' v w : good x s -> a_t_obs a = PNil -> get_or_none "t_obs"%string (s_params s) = PStr "auto" ->
  (exists i, instrument_of a s = PStr i) -> t = auto_t_obs (instrument_of a s) -> s_class s = KSource ->
  get_snr x a n which s = (s', Ok v) -> get_snr x (with_t_obs a t) n which s = (s'', Ok w) -> v = w.
Proof.
  intros G A B I T C E1 E2. unfold get_snr in E1, E2. rewrite mbind_self, C in E1, E2. unfold get_snr_source in E1, E2. rewrite mbind_self in E1, E2.
  cbn zeta in E1, E2. set (a1 := fill_args a (s_params s)) in *.
  assert (F2 : fill_args (with_t_obs a t) (s_params s) = with_t_obs a1 t) by reflexivity. rewrite F2 in E2.
  assert (X : explicit a1) by (split; [unfold a1, fill_args; cbn; now rewrite A, B|exact I]).
  assert (T1 : t = auto_t_obs (a_instrument a1)) by exact T.
  unfold mbind at 1 in E1. unfold mbind at 1 in E2.
  destruct (params_update x (args_dict a1) s) as [s1 [[]|e]] eqn:U1; [|discriminate].
  destruct (params_update x (args_dict (with_t_obs a1 t)) s) as [s2 [[]|e]] eqn:U2; [|discriminate].
  rewrite mbind_self in E1, E2. cbn zeta in E1, E2.
  change (a_t_obs (with_t_obs a1 t)) with (PVal t) in E2. rewrite <- !(mask_same x a1 t _ _ s s1 s2 X T1 U1 U2) in E2.
  destruct (update_frame _ _ _ _ _ U1) as (c1 & d1 & S1). destruct (update_frame _ _ _ _ _ U2) as (c2 & d2 & S2).
  assert (NS : n_sources s2 = n_sources s1) by (rewrite S1, S2; reflexivity).
  assert (MG : s_merged s2 = s_merged s1) by (rewrite S1, S2; reflexivity).
  assert (WH : which_or_all which s2 = which_or_all which s1) by (unfold which_or_all; now rewrite NS).
  rewrite NS, MG, WH in E2. rewrite !mbind_lift in E1, E2.
  destruct (get_source_mask TriNone TriTrue (a_t_obs a1) s1) as [st|e]; [|discriminate]. rewrite mbind_lift in E1, E2.
  destruct (logical_and3 st _ _) as [sm|e]; [|discriminate]. rewrite mbind_lift in E1, E2.
  destruct (get_source_mask TriNone TriFalse (a_t_obs a1) s1) as [ev|e]; [|discriminate]. rewrite mbind_lift in E1, E2.
  destruct (logical_and3 ev _ _) as [em|e]; [|discriminate].
  destruct (any sm) eqn:SM; [|destruct (any em) eqn:EM].
  - assert (Q : forall u u' r r', get_snr_stationary x a1 (Some sm) s1 = (u, Ok r) -> get_snr_stationary x (with_t_obs a1 t) (Some sm) s2 = (u', Ok r') -> u = u' /\ r = r').
    { intros u u' r r'. apply (method_two x (stationary_values x) a1 t sm s s1 s2); auto. }
    unfold mbind at 1 in E1. unfold mbind at 1 in E1. unfold mbind at 1 in E2. unfold mbind at 1 in E2.
    destruct (get_snr_stationary x a1 (Some sm) s1) as [u [r|e]]; [|discriminate].
    destruct (get_snr_stationary x (with_t_obs a1 t) (Some sm) s2) as [u' [r'|e]]; [|discriminate].
    destruct (Q u u' r r' eq_refl eq_refl) as [-> ->]. unfold ret at 1 in E1. unfold ret at 1 in E2.
    destruct (any em).
    + assert (Q2 : get_snr_evolving x a1 n (Some em) u' = get_snr_evolving x (with_t_obs a1 t) n (Some em) u') by (apply method_same; auto).
      unfold mbind at 1 in E1. unfold mbind at 1 in E1. unfold mbind at 1 in E2. unfold mbind at 1 in E2. rewrite Q2 in E1. rewrite E1 in E2. congruence.
    + rewrite mbind_ret in E1, E2. rewrite E1 in E2. congruence.
  - rewrite mbind_ret in E1, E2.
    assert (Q : forall u u' r r', get_snr_evolving x a1 n (Some em) s1 = (u, Ok r) -> get_snr_evolving x (with_t_obs a1 t) n (Some em) s2 = (u', Ok r') -> u = u' /\ r = r').
    { intros u u' r r'. apply (method_two x (fun a => evolving_values x a n) a1 t em s s1 s2); auto. }
    unfold mbind at 1 in E1. unfold mbind at 1 in E1. unfold mbind at 1 in E2. unfold mbind at 1 in E2.
    destruct (get_snr_evolving x a1 n (Some em) s1) as [u [r|e]]; [|discriminate].
    destruct (get_snr_evolving x (with_t_obs a1 t) n (Some em) s2) as [u' [r'|e]]; [|discriminate].
    destruct (Q u u' r r' eq_refl eq_refl) as [-> ->]. unfold ret at 1 in E1. unfold ret at 1 in E2. rewrite E1 in E2. congruence.
  - rewrite !mbind_ret in E1, E2. rewrite mbind_modify in E1, E2. unfold ret in E1, E2. congruence.
Qed.
(** power_spectral_density resolves "auto" to the same lengths, except for DECIGO. *)
Lemma psd_default w f c L ap cf i : i = "LISA"%string \/ i = "TianQin"%string ->
  power_spectral_density w f i c Auto L ap cf = power_spectral_density w f i c (Given (auto_t_obs (PStr i))) L ap cf.
Proof. intros [->| ->]; reflexivity. Qed.
Lemma psd_default_decigo w c L ap cf f : power_spectral_density w f "DECIGO" c Auto L ap cf = power_spectral_density w f "DECIGO" c (Given (Fin (4 * yr))) L ap cf.
Proof. reflexivity. Qed.
(** A confusion noise proportional to the observing time tells the two DECIGO defaults apart. *)
Lemma decigo_differs w c L ap : exists f cf,
  power_spectral_density w f "DECIGO" c Auto L ap cf <> power_spectral_density w f "DECIGO" c (Given (auto_t_obs (PStr "DECIGO"))) L ap cf.
Proof.
  exists [Fin 1], (CFun (fun _ t => Ok [t])). rewrite psd_default_decigo. unfold power_spectral_density, resolve, resolve_conf, decigo_psd, auto_t_obs, years.
  cbn [peqb String.eqb Ascii.eqb Bool.eqb]. unfold confusion_of, band, in_band, decigo_f_low, decigo_f_high. cbn [map rbind].
  unfold nge. rewrite !(nle_t 1e-3 1), !(nle_t 1 1e2) by lra. cbn [andb]. destruct (decigo_noise_fin 1 ltac:(lra)) as [-> _].
  unfold bzip, bzipM. cbn [length Nat.eqb map2M rbind]. rewrite !nadd_fin. unfold nge. rewrite !(nle_t 1e-3 1), !(nle_t 1 1e2) by lra. cbn [andb].
  intros H. injection H as H. Transparent yr. unfold yr in H. lra.
Qed.
Global Opaque yr.
(** Two calls in a row: the second one keeps the time of the first. *)
Lemma two_calls x values values' a b which which' s s1 v : six s -> a_t_obs a = PNil -> a_t_obs b = PNil ->
  get_or_none "t_obs"%string (s_params s) = PStr "auto" -> snr_method x values a which s = (s1, Ok v) ->
  get_or_none "t_obs"%string (s_params s1) = PVal (auto_t_obs (instrument_of a s)) /\
  snr_method x values' b which' s1 = snr_method x values' (with_t_obs b (auto_t_obs (instrument_of a s))) which' s1.
Proof.
  intros H6 A B C E. assert (T := method_sticky x values a which s s1 (Ok v) A C E H6 (ex_intro _ v eq_refl)). split; [exact T|].
  unfold snr_method. rewrite !mbind_self. unfold fill_args, with_t_obs. cbn [a_t_obs a_instrument a_custom a_L a_approximate_R a_confusion]. rewrite B, T. reflexivity.
Qed.
Lemma mission_eq v : auto_t_obs v = Fin (mission_length v).
Proof.
  unfold auto_t_obs, mission_length, years, year. Transparent yr. unfold yr. destruct v; cbn [peqb]; try (f_equal; lra).
  destruct (String.eqb s "LISA"); f_equal; lra.
Qed.
Global Opaque yr.
Lemma stationary_default x a which s : a_t_obs a = PNil -> current "t_obs" s = PStr "auto" ->
  get_snr_stationary x a which s = get_snr_stationary x (with_t_obs a (Fin (mission_length (instrument_of a s)))) which s.
Proof. intros A B. apply method_default; auto. symmetry. apply mission_eq. Qed.
Lemma evolving_default x a n which s : a_t_obs a = PNil -> current "t_obs" s = PStr "auto" ->
  get_snr_evolving x a n which s = get_snr_evolving x (with_t_obs a (Fin (mission_length (instrument_of a s)))) n which s.
Proof. intros A B. apply (method_default x (fun a => evolving_values x a n)); auto. symmetry. apply mission_eq. Qed.
Lemma get_snr_default_thm x k i0 ops a n which s i s' v w : init x k i0 = Ok s -> run x ops s = (s', repeat (Ok tt) (length ops)) ->
  forallb supported ops = true -> a_t_obs a = PNil -> current "t_obs" s' = PStr "auto" -> instrument_of a s' = PStr i -> s_class s' = KSource ->
  snd (get_snr x a n which s') = Ok v -> snd (get_snr x (with_t_obs a (Fin (mission_length (PStr i)))) n which s') = Ok w -> v = w.
Proof.
  intros H R F A B I C E1 E2.
  assert (G : good x s').
  { split; [|now apply (history_ok x k i0 s ops)]. replace s' with (fst (run x ops s)) by now rewrite R.
    apply (run_preserves x six supported); auto; [|now apply (init_in_step x k i0)]. intros o. destruct o; try discriminate; intros _; now apply six_step. }
  rewrite <- mission_eq, <- I in E2. destruct (get_snr x a n which s') as [u r] eqn:U. destruct (get_snr x (with_t_obs a _) n which s') as [u' r'] eqn:U'.
  cbn in E1, E2. subst. apply (get_snr_default x a n which s' (auto_t_obs (instrument_of a s')) u u' v w G A B); eauto.
Qed.
Lemma sticky_thm x a b which which' s s1 v : keys (s_params s) = documented -> a_t_obs a = PNil -> a_t_obs b = PNil ->
  current "t_obs" s = PStr "auto" -> instrument_of a s = PStr "LISA" -> a_instrument b = PStr "TianQin" ->
  get_snr_stationary x a which s = (s1, Ok v) ->
  current "t_obs" s1 = PVal (Fin (4 * year)) /\
  get_snr_stationary x b which' s1 = get_snr_stationary x (with_t_obs b (Fin (4 * year))) which' s1 /\
  mission_length (PStr "TianQin") = 5 * year.
Proof.
  intros H6 A B C I J E. destruct (two_calls x (stationary_values x) (stationary_values x) a b which which' s s1 v H6 A B C E) as [P Q].
  rewrite I, mission_eq in P, Q. auto.
Qed.
Lemma psd_mission w f c L ap cf i : i = "LISA"%string \/ i = "TianQin"%string ->
  power_spectral_density w f i c Auto L ap cf = power_spectral_density w f i c (Given (Fin (mission_length (PStr i)))) L ap cf.
Proof. intros H. rewrite <- mission_eq. now apply psd_default. Qed.
Lemma decigo_thm w c L ap : exists f cf,
  power_spectral_density w f "DECIGO" c Auto L ap cf <> power_spectral_density w f "DECIGO" c (Given (Fin (mission_length (PStr "DECIGO")))) L ap cf.
Proof. rewrite <- mission_eq. apply decigo_differs. Qed.
Lemma ior_thm x k i s new c : init x k i = Ok s -> s_interpolate_sc s = true -> (forall k, In k (keys new) -> In k documented) ->
  dict_eqb (put_all new (s_params s)) (put_all new (s_params s)) = true -> curve_of x (put_all new (s_params s)) = Ok c -> s_sc s <> Some c ->
  snd (run x [Ior new] s) = [Ok tt] /\ ~ in_step x (fst (run x [Ior new] s)).
Proof.
  intros H F K D C N. destruct (init_in_step x k i s H) as [H6 _]. cbn [run]. rewrite (ior_step x new s H6 K D). cbn [fst snd]. split; [reflexivity|].
  unfold in_step. cbn [put_params set_curve s_interpolate_sc s_params s_sc]. rewrite F. intros (c' & A & B). rewrite C in A. apply ok_inj in A. congruence.
Qed.
(** The hypotheses are met by a custom instrument replaced by another one. *)
Lemma constants_differ d1 d2 c1 c2 : exact_curve x_toy d1 (fun _ => Fin 1) -> exact_curve x_toy d2 (fun _ => Fin 2) ->
  curve_of x_toy d1 = Ok c1 -> curve_of x_toy d2 = Ok c2 -> Some c1 <> Some c2.
Proof.
  intros E1 E2 C1 C2 H. destruct (curve_spec x_toy d1 c1 _ E1 C1) as (T1 & _). destruct (curve_spec x_toy d2 c2 _ E2 C2) as (T2 & _).
  assert (L : (0 < Z.to_nat 10000)%nat) by (pose proof ten_thousand; lia). specialize (T1 0%nat L). specialize (T2 0%nat L). cbv beta in T1, T2.
  injection H as ->. rewrite T1 in T2. injection T2. lra.
Qed.
Definition toy1 (isc : bool) : init_args := toy_args [Fin 1e30] [Fin 1e30] [Fin 0] [Fin 1e20] [Fin 1e-3] isc (custom_params 0).
Lemma toy1_init k isc : exists s, init x_toy k (toy1 isc) = Ok s /\ s_interpolate_sc s = isc /\ s_params s = custom_params 0 /\ s_class s = k.
Proof.
  assert (E : exact_curve x_toy (custom_params 0) (fun _ => Fin 1)) by (intros fs; rewrite custom_exact; cbn [INR]; now rewrite Rplus_0_l).
  destruct (curve_exists _ _ _ E) as [c C]. exists (toy_src k [Fin 1e30] [Fin 1e30] [Fin 0] [Fin 1e20] [Fin 1e-3] isc (if isc then Some c else None) (custom_params 0)).
  split; [|auto]. apply toy_init; auto. destruct isc; eauto.
Qed.
Lemma ior_example : exists s c, init x_toy KSource (toy1 true) = Ok s /\ s_interpolate_sc s = true /\
  curve_of x_toy (put_all [("custom_psd"%string, PFun 1)] (s_params s)) = Ok c /\ s_sc s <> Some c /\
  dict_eqb (put_all [("custom_psd"%string, PFun 1)] (s_params s)) (put_all [("custom_psd"%string, PFun 1)] (s_params s)) = true.
Proof.
  destruct (toy1_init KSource true) as (s & H & F & P & _). destruct (init_in_step _ _ _ _ H) as [_ S]. unfold in_step in S. rewrite F in S. destruct S as (c0 & C0 & S0).
  assert (E : exact_curve x_toy (custom_params 0) (fun _ => Fin 1)) by (intros fs; rewrite custom_exact; cbn [INR]; now rewrite Rplus_0_l).
  assert (E2 : exact_curve x_toy (custom_params 1) (fun _ => Fin 2)) by (intros fs; rewrite custom_exact; cbn [INR]; do 2 f_equal; f_equal; lra).
  destruct (curve_exists _ _ _ E2) as [c C]. exists s, c. rewrite P. split; [exact H|]. split; [exact F|].
  change (put_all [("custom_psd"%string, PFun 1)] (custom_params 0)) with (custom_params 1). split; [exact C|]. split; [|reflexivity].
  rewrite S0. rewrite P in C0. now apply (constants_differ _ _ _ _ E E2 C0).
Qed.
(** A failing assignment: an instrument that does not exist. *)
Lemma repeat_example : exists s c, init x_toy KSource (toy1 true) = Ok s /\ in_step x_toy s /\ s_interpolate_sc s = true /\ s_sc s = Some c /\
  peqb (get_or_none "instrument"%string (s_params s)) (PStr "NONE") = false /\ curve_of x_toy (put "instrument"%string (PStr "NONE") (s_params s)) = Err ValueError.
Proof.
  destruct (toy1_init KSource true) as (s & H & F & P & _). destruct (init_in_step _ _ _ _ H) as [_ S]. pose proof S as S'. unfold in_step in S. rewrite F in S. destruct S as (c0 & C0 & S0).
  exists s, c0. rewrite P. split; [exact H|]. split; [exact S'|]. split; [exact F|]. split; [exact S0|]. split; reflexivity.
Qed.
