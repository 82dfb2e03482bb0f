(** SkyThms.v -- how a sky position enters the SNRs (C93). *)
From Coq Require Import String Reals ZArith List Bool Lra Lia.
From Verif Require Import Num NumFacts Np NpFacts Utils Spec UtilsFacts Strain StrainSpec DetectorFacts StrainFacts Psd PsdSpec
  Snr SnrSpec SnrFacts Evol EvolSpec Harmonics ScParams Source Index SourceSpec CurveSpec HarmSpec HarmThms CurveFacts CurveThms
  SourceFacts MethodSpec MethodFacts MethodThms SourceThms SourceThms2 SkySpec.
Import ListNotations.
Open Scope R_scope.

Ltac cmp := unfold Rltb, Rleb, Reqb in *; repeat match goal with
  | |- context [Rlt_dec ?a ?b] => destruct (Rlt_dec a b)
  | |- context [Rle_dec ?a ?b] => destruct (Rle_dec a b)
  | |- context [Req_EM_T ?a ?b] => destruct (Req_EM_T a b) end.

Lemma nsqrt_inv x u : nsqrt x = Fin u -> exists q, x = Fin q /\ 0 <= q /\ u = sqrt q.
Proof.
  destruct x as [q| | |]; intros H; try (cbn in H; unfold Rltb in H; destruct (Rlt_dec 0 (1 / 2)); [discriminate|lra]).
  exists q. assert (Q : 0 <= q).
  { destruct (Rle_lt_dec 0 q) as [|L]; auto. exfalso. cbn in H. unfold Rltb, Reqb in H. destruct (Rlt_dec 0 q); [lra|]. destruct (Req_EM_T q 0); [lra|discriminate]. }
  split; auto. split; auto. rewrite nsqrt_fin in H by auto. now injection H.
Qed.
Lemma elem_modulated jv gi t p m f e d n a u : 0 <= a ->
  nsqrt (st_elem jv gi (Fin t) p m f e d None n) = Fin u -> nsqrt (st_elem jv gi (Fin t) p m f e d (Some (Fin a)) n) = Fin (sqrt a * u).
Proof.
  intros Ha. unfold st_elem, h0_elem, mod_elem. rewrite nsqrt_fin by auto. set (h := nmul (h0_indep m f d) (h0_dep jv gi n e)). set (N := p (nmul (nZ n) f)).
  intros H. destruct (nsqrt_inv _ _ H) as (q & E & Q & ->). clear H.
  destruct h as [h| | |]; [|exfalso; revert E; destruct N; cbn; repeat (cmp; cbn); discriminate..].
  revert E. rewrite (nmul_fin (sqrt a)), !npowi2, !nmul_fin. rewrite Rpow_mult_distr, pow2_sqrt by auto.
  destruct N as [N| | |]; cbn [ndiv].
  - destruct (Reqb N 0); [repeat destruct (Rltb _ _); discriminate|]. intros E. injection E as E.
    replace (a * h ^ 2 * t / N) with (a * q) by (rewrite <- E; unfold Rdiv; ring).
    assert (0 <= a * q) by (apply Rmult_le_pos; auto). rewrite nsqrt_fin by auto. now rewrite sqrt_mult.
  - intros E. injection E as <-. rewrite nsqrt_fin, sqrt_0 by lra. f_equal. ring.
  - intros E. injection E as <-. rewrite nsqrt_fin, sqrt_0 by lra. f_equal. ring.
  - discriminate.
Qed.

Lemma collection_without_sky s xs : collection s xs -> collection (without_sky s) xs.
Proof. intros []. split; cbn; auto. Qed.
Lemma computable_without_sky x s xs a t n : computable x s xs a t n -> computable x (without_sky s) xs a t n.
Proof. intros []. split; auto. now apply collection_without_sky. Qed.
Lemma st_without x s t p tol r : ~ is_circular s r -> h_ecc_tol (s_harm s) = Some tol -> st_val x (without_sky s) t p tol r = st_val x s t p tol r.
Proof.
  intros H T. unfold st_val, by_class. destruct (nle (r_e r) tol) eqn:E; [exfalso; apply H; exists tol; auto|]. reflexivity.
Qed.
Lemma ev_without x s t p tol n r : ev_val x (without_sky s) t p tol n r = ev_val x s t p tol n r.
Proof. reflexivity. Qed.
Lemma stat_without s t r : stat_of (without_sky s) t r = stat_of s t r.
Proof. reflexivity. Qed.

Lemma st_modulated x s t p tol r e : s_position s <> None -> r_e r = Fin e -> is_circular s r -> h_ecc_tol (s_harm s) = Some (Fin tol) ->
  modulated (r_sky r) (st_val x (without_sky s) t p (Fin tol) r) (st_val x s t p (Fin tol) r).
Proof.
  intros HP E (tol' & T' & C) T. rewrite T in T'. injection T' as <-. unfold st_val, by_class. rewrite E in *. cbn [r_e] in *. rewrite C.
  assert (G : ngt (Fin e) (Fin tol) = false). { revert C. cbn. unfold ngt, nlt, nle. cbn. cmp; auto; try discriminate. lra. }
  rewrite G. unfold st_circ. cbn [without_sky s_g]. unfold sky_opt. cbn [without_sky s_position]. destruct (s_position s) as [l|]; [|easy].
  cbn [pop_amp]. destruct (r_sky r) as [la lo ps ic]. cbn [lat lon psi inc]. exists (modR la lo ps ic). cbn [lat lon psi inc]. rewrite mod_fin.
  pose proof (modR_bounds la lo ps ic) as B. split; [reflexivity|]. split; [lra|]. intros q Hq. apply elem_modulated; auto. lra.
Qed.

Lemma sky_thm x s xs a t n : computable x s xs (class_args (s_class s) a) t n -> s_position s <> None ->
  exists s' v s0 u, get_snr x a n None s = (s', Ok v) /\ get_snr x a n None (without_sky s) = (s0, Ok u) /\
    length v = length xs /\ length u = length xs /\
    forall i r, nth_error xs i = Some r -> exists vi ui, nth_error v i = Some vi /\ nth_error u i = Some ui /\
      (is_circular s r /\ treated_stationary s t r -> r_merged r = false -> modulated (r_sky r) ui vi) /\
      (~ (is_circular s r /\ treated_stationary s t r) -> vi = ui).
Proof.
  intros HC HP. assert (HC' : computable x s (map (fun r => r) xs) (class_args (s_class s) a) t n) by now rewrite map_id.
  destruct (settings (fun r => r) x _ n s xs t HC') as (sc & kw & p & tol & CU & K & P & T & U).
  destruct (all_run x s xs a t n sc kw p tol HC K P T U) as (s' & E & _ & _).
  destruct (all_run x (without_sky s) xs a t n sc kw p tol (computable_without_sky _ _ _ _ _ _ HC) K P T U) as (s0 & E0 & _ & _).
  exists s', (map (class_val x s t p (Fin tol) n) xs), s0, (map (class_val x (without_sky s) t p (Fin tol) n) xs).
  split; [exact E|]. split; [exact E0|]. split; [apply map_length|]. split; [apply map_length|].
  intros i r Hr. exists (class_val x s t p (Fin tol) n r), (class_val x (without_sky s) t p (Fin tol) n r).
  split; [now apply map_nth_error|]. split; [now apply map_nth_error|].
  destruct (ok_ecc _ _ _ _ _ _ HC r (nth_error_In _ _ Hr)) as (e & Ee & _).
  unfold class_val. cbn [without_sky s_class]. unfold treated_stationary, src_val. rewrite stat_without. pose proof (stat_of_spec s t r) as S. split.
  - intros [C Ts] ->. pose proof (st_modulated x s t p tol r e HP Ee C T) as Mo. destruct (s_class s); auto; try easy.
    + unfold is_stationary in Ts, S. rewrite Ts in S. injection S as S. rewrite <- S. exact Mo.
    + unfold is_stationary in Ts, S. rewrite Ts in S. injection S as S. rewrite <- S. exact Mo.
  - intros Hn. destruct (r_merged r); auto.
    assert (X : (is_circular s r /\ stat_of s t r = true) \/ ~ is_circular s r \/ stat_of s t r = false).
    { destruct (stat_of s t r); auto. destruct (nle (r_e r) (Fin tol)) eqn:L; [left; split; [exists (Fin tol)|]; auto|].
      right; left. intros (tol' & T' & C). rewrite T in T'. injection T' as <-. congruence. }
    destruct (s_class s) eqn:Kl; [| | |].
    + destruct X as [[C X]|[X|X]]; [exfalso; apply Hn; split; auto; rewrite X in S; exact S| |]; destruct (stat_of s t r); try discriminate; auto; symmetry; now apply st_without.
    + symmetry. apply st_without; auto.
    + reflexivity.
    + destruct X as [[C X]|[X|X]]; [exfalso; apply Hn; split; auto; rewrite X in S; exact S| |]; destruct (stat_of s t r); try discriminate; auto; symmetry; now apply st_without.
Qed.

Lemma strain_row_modulated (f : strain_fun) (el : (Z -> num -> num) -> option (Z -> num -> num) -> num -> num -> num -> Z -> num -> option num -> num)
    (base : (Z -> num -> num) -> option (Z -> num -> num) -> num -> num -> num -> Z -> num -> num) x s ns r us vs :
  (forall X jv gi (m d : X -> num) rows ys ks o, existsb (fun k => (k <? 1)%Z) ks = false ->
     f jv gi (map m ys) (f_rows rows ys) (e_rows rows ys) ks (map d ys) (pop_sky ys o) =
     Ok (map (fun x => map (fun p => map (fun k => el jv gi (m x) (fst p) (snd p) k (d x) (pop_amp o x)) ks) (rows x)) ys)) ->
  (forall jv gi m f e k d amp, el jv gi m f e k d amp = mod_elem amp (base jv gi m f e k d)) ->
  existsb (fun k => (k <? 1)%Z) ns = false -> s_position s <> None ->
  strain_row f x (without_sky s) ns r us -> strain_row f x s ns r vs -> strains_modulated (r_sky r) us vs.
Proof.
  intros Hf Hel Hb HP. unfold strain_row, sky_of_row. cbn [without_sky s_position s_g]. destruct (s_position s) as [l|]; [|easy].
  pose proof (Hf row (x_jv x) (s_g s) row_mc r_d (fun r => [(r_f r, r_e r)]) [r] ns None Hb) as E0.
  pose proof (Hf row (x_jv x) (s_g s) row_mc r_d (fun r => [(r_f r, r_e r)]) [r] ns (Some r_sky) Hb) as E1.
  unfold f_rows, e_rows in E0, E1. cbn [map fst snd] in E0, E1. unfold row_mc in E0, E1. rewrite E0, E1. clear - Hel HP.
  intros U V. injection U as <-. injection V as <-. cbn [pop_amp]. destruct (r_sky r) as [la lo ps ic]. cbn [lat lon psi inc]. exists (modR la lo ps ic). cbn [lat lon psi inc]. rewrite mod_fin.
  pose proof (modR_bounds la lo ps ic) as B. split; [reflexivity|]. split; [lra|]. rewrite map_map. apply map_ext. intros k. rewrite !Hel. unfold mod_elem. rewrite nsqrt_fin by lra. reflexivity.
Qed.
Lemma Forall2_both {A B C} (P : A -> B -> Prop) (Q : A -> C -> Prop) (R : A -> B -> C -> Prop) l : forall us vs,
  (forall a b c, In a l -> P a b -> Q a c -> R a b c) -> Forall2 P l us -> Forall2 Q l vs ->
  forall i a, nth_error l i = Some a -> exists b c, nth_error us i = Some b /\ nth_error vs i = Some c /\ R a b c.
Proof.
  induction l as [|y l IH]; intros us vs H F G i a E; inversion F; inversion G; subst; destruct i; try discriminate.
  - injection E as <-. eexists _, _. split; [reflexivity|]. split; [reflexivity|]. apply H; cbn; auto.
  - cbn in *. eapply IH; eauto.
Qed.
Lemma strain_sky_thm (f : strain_fun) el base x s xs h ns which :
  (forall X jv gi (m d : X -> num) rows ys ks o, existsb (fun k => (k <? 1)%Z) ks = false ->
     f jv gi (map m ys) (f_rows rows ys) (e_rows rows ys) ks (map d ys) (pop_sky ys o) =
     Ok (map (fun x => map (fun p => map (fun k => el jv gi (m x) (fst p) (snd p) k (d x) (pop_amp o x)) ks) (rows x)) ys)) ->
  (forall jv gi m f e k d amp, el jv gi m f e k d amp = mod_elem amp (base jv gi m f e k d)) ->
  collection s xs -> fits which (length xs) -> harmonics_list h = Some ns -> List.Forall (fun k => (1 <= k)%Z) ns -> s_position s <> None ->
  exists rows rows0, get_strain f x h which s = Ok rows /\ get_strain f x h which (without_sky s) = Ok rows0 /\
    forall i r, nth_error (chosen which xs) i = Some r -> exists us vs, nth_error rows0 i = Some us /\ nth_error rows i = Some vs /\
      if r_merged r then us = vs else strains_modulated (r_sky r) us vs.
Proof.
  intros Hf Hel C F Hh Hn HP.
  destruct (strain_thm f el x s xs h ns which Hf C F Hh Hn) as (rows & E & S).
  destruct (strain_thm f el x (without_sky s) xs h ns which Hf (collection_without_sky _ _ C) F Hh Hn) as (rows0 & E0 & S0).
  exists rows, rows0. split; [exact E|]. split; [exact E0|].
  assert (Hb : existsb (fun k => (k <? 1)%Z) ns = false).
  { apply not_true_is_false. intros H. apply existsb_exists in H. destruct H as (k & Hk & L). rewrite Forall_forall in Hn. specialize (Hn k Hk). apply Z.ltb_lt in L. lia. }
  refine (Forall2_both _ _ (fun r us vs => if r_merged r then us = vs else strains_modulated (r_sky r) us vs) _ _ _ _ S0 S).
  intros r us vs _. destruct (r_merged r); [congruence|]. intros U V. exact (strain_row_modulated f el base x s ns r us vs Hf Hel Hb HP U V).
Qed.
Lemma h_0_sky_thm x s xs h ns which :
  collection s xs -> fits which (length xs) -> harmonics_list h = Some ns -> List.Forall (fun k => (1 <= k)%Z) ns -> s_position s <> None ->
  exists rows rows0, get_h_0_n x h which s = Ok rows /\ get_h_0_n x h which (without_sky s) = Ok rows0 /\
    forall i r, nth_error (chosen which xs) i = Some r -> exists us vs, nth_error rows0 i = Some us /\ nth_error rows i = Some vs /\
      if r_merged r then us = vs else strains_modulated (r_sky r) us vs.
Proof. apply (strain_sky_thm h_0_n h0_elem (fun jv gi m f e k d => nmul (h0_indep m f d) (h0_dep jv gi k e))); [intros; now apply h_0_n_map|reflexivity]. Qed.
Lemma h_c_sky_thm x s xs h ns which :
  collection s xs -> fits which (length xs) -> harmonics_list h = Some ns -> List.Forall (fun k => (1 <= k)%Z) ns -> s_position s <> None ->
  exists rows rows0, get_h_c_n x h which s = Ok rows /\ get_h_c_n x h which (without_sky s) = Ok rows0 /\
    forall i r, nth_error (chosen which xs) i = Some r -> exists us vs, nth_error rows0 i = Some us /\ nth_error rows i = Some vs /\
      if r_merged r then us = vs else strains_modulated (r_sky r) us vs.
Proof. apply (strain_sky_thm h_c_n hc_elem (fun jv gi m f e k d => nmul (hc_indep m f e d) (hc_dep jv gi k e))); [intros; now apply h_c_n_map|reflexivity]. Qed.

Lemma computable_with_sky x s xs a t n : computable x s xs a t n -> computable x (with_sky xs s) xs a t n.
Proof. intros []. split; auto. match goal with H : collection s xs |- _ => destruct H end. split; cbn; auto. Qed.
(** Sources treated as evolving: nothing changes. *)
Lemma evolving_sky_thm x s xs a t n : computable x s xs (class_args (s_class s) a) t n -> s_position s <> None ->
  (forall r, In r xs -> ~ treated_stationary s t r) ->
  exists s' s0 v, get_snr x a n None s = (s', Ok v) /\ get_snr x a n None (without_sky s) = (s0, Ok v).
Proof.
  intros HC HP HT. destruct (sky_thm x s xs a t n HC HP) as (s' & v & s0 & u & E & E0 & L & L0 & H). exists s', s0, v. split; [exact E|].
  rewrite E0. do 2 f_equal. apply nth_error_ext. intros i. destruct (nth_error xs i) as [r|] eqn:R.
  - destruct (H i r R) as (vi & ui & -> & -> & _ & K). rewrite K; auto. intros [_ Ts]. exact (HT r (nth_error_In _ _ R) Ts).
  - apply nth_error_None in R. rewrite (proj2 (nth_error_None u i)) by lia. rewrite (proj2 (nth_error_None v i)) by lia. reflexivity.
Qed.
Lemma computable_of_class k x s xs a t n : computable x s xs a t n -> computable x (of_class k s) xs a t n.
Proof. intros []. split; auto. match goal with H : collection s xs |- _ => destruct H end. split; cbn; auto. Qed.
