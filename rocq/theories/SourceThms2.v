(** SourceThms2.v -- get_snr of every class, subsets (C47), strains (C48), stored SNRs (C49, C69), masks (C68). *)
From Coq Require Import String Reals ZArith List Bool Lra Lia.
From Verif Require Import Num NumFacts Np NpFacts Utils Spec UtilsFacts Strain Evol EvolSpec EvolFacts MergeFacts ArrEvolFacts StrainSpec StrainFacts Psd PsdSpec
  Snr SnrSpec SnrFacts SnrThms2 Interp Harmonics ScParams Source Index SourceSpec IndexSpec IndexFacts IndexThms History CurveSpec HarmSpec HarmThms CurveFacts CurveThms
  SourceFacts MethodSpec MethodFacts MethodThms SourceThms.
Import ListNotations.
Open Scope R_scope.

(** ** The whole collection, every class *)
Definition class_val x s t p tol n (r : row) : num :=
  if r_merged r then Fin 0
  else match s_class s with KStationary => st_val x s t p tol r | KEvolving => ev_val x s t p tol n r | _ => src_val x s t p tol n r end.
Lemma filter_true {A} (l : list A) : filter (fun _ => true) l = l.
Proof. apply filter_all. auto. Qed.
Lemma all_run x s xs a t n sc kw p tol : let u := used (class_args (s_class s) a) s in
  computable x s xs (class_args (s_class s) a) t n ->
  kw_of x (params_of u) = Ok kw -> noise_curve (x_psd x) kw sc t p -> h_ecc_tol (s_harm s) = Some (Fin tol) ->
  (forall s1, good x s1 -> s_interpolate_sc s1 = s_interpolate_sc s ->
      params_update x (args_dict u) s1 = (set_curve (s_interpolate_sc s) sc (params_of u) s1, Ok tt) /\ good x (set_curve (s_interpolate_sc s) sc (params_of u) s1)) ->
  exists s', get_snr x a n None s = (s', Ok (map (class_val x s t p (Fin tol) n) xs)) /\ s_snr s' = Some (map (class_val x s t p (Fin tol) n) xs) /\ same_sources s s'.
Proof.
  intros u HC K P T U. assert (W : which_or_all None s = map (fun _ => true) xs) by (cbn; rewrite (n_sources_map _ _ (ok_rows _ _ _ _ _ _ HC)); apply np_repeat_map).
  assert (HC' : computable x s (map (fun r => r) xs) (class_args (s_class s) a) t n) by now rewrite map_id.
  assert (R : related s s) by (repeat split). pose proof (good_s (fun r => r) x _ n s xs t HC') as G.
  assert (C' := ok_rows _ _ _ _ _ _ HC').
  unfold get_snr. rewrite mbind_self. unfold class_val. destruct (s_class s) eqn:Kl; cbn [class_args] in *.
  - destruct (source_run (fun r => r) x _ n s xs t HC' sc kw p tol K P T U None (fun _ => true) W) as (s' & v & m & E & A & V & _).
    exists s'. rewrite E. destruct (after_same _ _ _ _ A) as (SS & SV & _). rewrite V in *. cbn [andb] in *.
    assert (X : map (fun y => if negb (r_merged y) then src_val x s t p (Fin tol) n y else Fin 0) xs = map (fun r => if r_merged r then Fin 0 else src_val x s t p (Fin tol) n r) xs)
      by (apply map_ext; intros r; destruct (r_merged r); reflexivity).
    rewrite <- X. auto.
  - unfold mbind at 1. rewrite (stationary_run (fun r => r) x _ n s xs t HC' sc kw p tol K P T U _ None s (fun r => r) (fun _ => true) G R C' (fun y => near_refl _) eq_refl W).
    rewrite filter_true. unfold mbind, modify, ret. eexists. split; [reflexivity|]. split; [reflexivity|]. cbn. repeat split; auto.
  - unfold mbind at 1. rewrite (evolving_run (fun r => r) x _ n s xs t HC' sc kw p tol K P T U _ None s (fun r => r) (fun _ => true) G R C' (fun y => near_refl _) eq_refl W).
    rewrite filter_true. unfold mbind, modify, ret. eexists. split; [reflexivity|]. split; [reflexivity|]. cbn. repeat split; auto.
  - destruct (source_run (fun r => r) x _ n s xs t HC' sc kw p tol K P T U None (fun _ => true) W) as (s' & v & m & E & A & V & _).
    exists s'. rewrite E. destruct (after_same _ _ _ _ A) as (SS & SV & _). rewrite V in *. cbn [andb] in *.
    assert (X : map (fun y => if negb (r_merged y) then src_val x s t p (Fin tol) n y else Fin 0) xs = map (fun r => if r_merged r then Fin 0 else src_val x s t p (Fin tol) n r) xs)
      by (apply map_ext; intros r; destruct (r_merged r); reflexivity).
    rewrite <- X. auto.
Qed.
Lemma all_thm x s xs a t n : computable x s xs (class_args (s_class s) a) t n ->
  exists s' v sc kw, get_snr x a n None s = (s', Ok v) /\ s_snr s' = Some v /\ same_sources s s' /\
    curve_in_use x s (used (class_args (s_class s) a) s) sc /\ kw_of x (params_of (used (class_args (s_class s) a) s)) = Ok kw /\
    Forall2 (fun r vi => if r_merged r then vi = Fin 0 else exists h, class_snr x s sc kw t n r vi h) xs v.
Proof.
  intros HC. assert (HC' : computable x s (map (fun r => r) xs) (class_args (s_class s) a) t n) by now rewrite map_id.
  destruct (settings (fun r => r) x _ n s xs t HC') as (sc & kw & p & tol & CU & K & P & T & U).
  destruct (all_run x s xs a t n sc kw p tol HC K P T U) as (s' & E & SV & SS). exists s', (map (class_val x s t p (Fin tol) n) xs), sc, kw.
  split; [exact E|]. split; [exact SV|]. split; [exact SS|]. split; [exact CU|]. split; [exact K|]. apply Forall2_map_l. intros r Hr. unfold class_val, class_snr.
  destruct (r_merged r); auto. destruct (ok_ecc _ _ _ _ _ _ HC r Hr) as (e & Ee & E01 & H).
  clear HC'. destruct (s_class s) eqn:Kl.
  - exists (src_msh x s t p (Fin tol) n r). eapply src_val_spec; eauto.
  - exists (st_msh x s t p (Fin tol) r). now apply (st_val_spec x s sc t p tol kw r e).
  - exists (ev_msh x s t p (Fin tol) n r). apply (ev_val_spec x s sc t p tol kw n r e); auto; apply HC.
  - exists (src_msh x s t p (Fin tol) n r). eapply src_val_spec; eauto.
Qed.

(** ** C47 *)
Lemma picked_map {A B} (f : A -> B) js l r : picked js l r -> picked js (map f l) (map f r).
Proof. induction 1; cbn; constructor; auto. now apply map_nth_error. Qed.
Lemma picked_map_eq {A B} (f : A -> B) js l r q : picked js l r -> picked js (map f l) q -> q = map f r.
Proof. intros H K. eapply picked_fun; [exact K|now apply picked_map]. Qed.
Lemma picked_opt_rows {A} (f : row -> A) js xs ys o o2 : picked js xs ys -> optional o f xs -> picked_opt js o o2 -> optional o2 f ys.
Proof.
  intros P [->| ->] K; destruct o2 as [l|]; cbn in K; try easy; [now left|right]. f_equal. now apply (picked_map_eq f js xs).
Qed.
Lemma subset_rows js s sub xs : collection s xs -> rows js s sub -> exists ys, picked js xs ys /\ collection sub ys.
Proof.
  intros C R. assert (B : List.Forall (fun j => j < length xs)%nat js).
  { pose proof (picked_in _ _ _ (row_m_1 _ _ _ R)) as H. rewrite (col_m1 _ _ C), map_length in H. exact H. }
  destruct (picked_ok js xs B) as [ys Y]. exists ys. split; auto. destruct C, R. split.
  - apply (picked_map_eq r_m1 js xs); auto; congruence.
  - apply (picked_map_eq r_m2 js xs); auto; congruence.
  - apply (picked_map_eq r_d js xs); auto; congruence.
  - apply (picked_map_eq r_f js xs); auto; congruence.
  - apply (picked_map_eq r_e js xs); auto; congruence.
  - apply (picked_map_eq r_merged js xs); auto; congruence.
  - eapply picked_opt_rows; eauto.
  - eapply picked_opt_rows; eauto.
  - eapply picked_opt_rows; eauto.
  - eapply picked_opt_rows; eauto.
  - destruct col_sky as [E|E]; cbn in E; injection E as E1 E2 E3; rewrite E1, E2, E3 in *; [left|right]; cbn.
    + destruct (s_position sub), (s_polarisation sub), (s_inclination sub); cbn in *; easy.
    + destruct (s_position sub) as [lp|], (s_polarisation sub) as [lpol|], (s_inclination sub) as [li|]; cbn in row_position, row_inclination, row_polarisation; try easy.
      f_equal; f_equal; eapply picked_map_eq; eauto.
Qed.
Lemma collection_aligned s xs : collection s xs -> aligned s (length xs).
Proof.
  intros C. assert (O : forall A (f : row -> A) o, optional o f xs -> has_len (length xs) o) by (intros A f o [->| ->]; cbn; auto; apply map_length).
  pose proof (col_sky _ _ C) as K. destruct C. split; try (match goal with H : ?l = map _ xs |- length ?l = _ => rewrite H; apply map_length end); eauto;
    destruct K as [E|E]; cbn in E; injection E as E1 E2 E3; rewrite ?E1, ?E2, ?E3; cbn; auto; apply map_length.
Qed.
Lemma used_settings a s s2 : s_params s2 = s_params s -> used a s2 = used a s /\ asked a s2 = asked a s.
Proof. intros E. assert (A : asked a s2 = asked a s) by (unfold asked, given, current; now rewrite E). unfold used. now rewrite A. Qed.
Lemma picked_incl {A} js (l r : list A) : picked js l r -> forall y, In y r -> In y l.
Proof. induction 1; cbn; [easy|]. intros z [<-|Hz]; auto. eapply nth_error_In; eauto. Qed.
Lemma computable_subset x s xs a t n sub js ys : computable x s xs a t n -> rows js s sub -> same_settings s sub -> picked js xs ys -> collection sub ys ->
  computable x sub ys a t n.
Proof.
  intros HC R (S1 & S2 & S3 & S4 & S5 & S6 & S7 & S8) Y C. destruct (used_settings a s sub S8) as [E1 E2]. destruct HC. split; auto.
  - congruence.
  - unfold in_step in *. now rewrite S6, S7, S8.
  - now rewrite E1.
  - now rewrite E1.
  - now rewrite E2.
  - now rewrite S4.
  - intros r Hr. rewrite S4. apply ok_ecc. eapply picked_incl; eauto.
Qed.
Definition some_of {A} (o : option A) : bool := match o with Some _ => true | None => false end.
Lemma class_val_same x s s2 t p tol n r : s_class s2 = s_class s -> s_harm s2 = s_harm s -> s_g s2 = s_g s -> s_stat_tol s2 = s_stat_tol s ->
  some_of (s_position s2) = some_of (s_position s) -> some_of (s_t_merge s2) = some_of (s_t_merge s) ->
  class_val x s2 t p tol n r = class_val x s t p tol n r.
Proof.
  intros E1 E2 E3 E4 E5 E6. unfold class_val, src_val, stat_of, st_val, ev_val, by_class, st_circ, st_row, ev_circ, ev_row, sky_opt, tm_opt.
  rewrite E1, E2, E3, E4. destruct (s_position s2), (s_position s); try discriminate E5; destruct (s_t_merge s2), (s_t_merge s); try discriminate E6; reflexivity.
Qed.
Lemma subset_thm x s xs a t n ind sub : computable x s xs (class_args (s_class s) a) t n -> getitem ind s = Ok sub ->
  exists js s' v sub' w, selects (length xs) ind js /\ get_snr x a n None s = (s', Ok v) /\ get_snr x a n None sub = (sub', Ok w) /\ picked js v w.
Proof.
  intros HC G. pose proof (ok_rows _ _ _ _ _ _ HC) as C.
  destruct (index_thm ind s sub (length xs) (collection_aligned _ _ C) (ok_keys _ _ _ _ _ _ HC) G) as (js & J & R & SS).
  destruct (subset_rows js s sub xs C R) as (ys & Y & Cs). pose proof (computable_subset x s xs _ t n sub js ys HC R SS Y Cs) as HCs.
  pose proof SS as (S1 & S2 & S3 & S4 & S5 & S6 & S7 & S8). destruct (used_settings (class_args (s_class s) a) s sub S8) as [E1 _].
  assert (HC' : computable x s (map (fun r => r) xs) (class_args (s_class s) a) t n) by now rewrite map_id.
  destruct (settings (fun r => r) x _ n s xs t HC') as (sc & kw & p & tol & CU & K & P & T & U).
  destruct (all_run x s xs a t n sc kw p tol HC K P T U) as (s' & E & _).
  rewrite <- S1 in HCs. assert (HCs' : computable x sub (map (fun r => r) ys) (class_args (s_class sub) a) t n) by now rewrite map_id.
  destruct (settings (fun r => r) x _ n sub ys t HCs') as (sc2 & kw2 & p2 & tol2 & CU2 & K2 & P2 & T2 & U2).
  assert (sc2 = sc).
  { rewrite S1 in CU2. rewrite E1 in CU2. unfold curve_in_use in *. rewrite S6 in CU2. destruct (s_interpolate_sc s); [|congruence].
    destruct CU as (c & A1 & A2), CU2 as (c' & B1 & B2). rewrite A1 in B1. apply ok_inj in B1. congruence. }
  subst sc2. assert (kw2 = kw) by (rewrite S1, E1, K in K2; now injection K2). subst kw2. assert (tol2 = tol) by (rewrite S4, T in T2; now injection T2). subst tol2.
  destruct (all_run x sub ys a t n sc kw p tol HCs K2 P T2 U2) as (sub' & E2 & _).
  exists js, s', (map (class_val x s t p (Fin tol) n) xs), sub', (map (class_val x sub t p (Fin tol) n) ys). split; auto. split; auto. split; auto.
  rewrite (map_ext_in (class_val x sub t p (Fin tol) n) (class_val x s t p (Fin tol) n)).
  { now apply picked_map. }
  intros r _. apply class_val_same; auto.
  - pose proof (row_position _ _ _ R) as RP. destruct (s_position s), (s_position sub); cbn in RP; easy.
  - pose proof (row_t_merge _ _ _ R) as RP. destruct (s_t_merge s), (s_t_merge sub); cbn in RP; easy.
Qed.

(** ** C48: strains *)
Definition strain_fun := (Z -> num -> num) -> option (Z -> num -> num) -> list num -> list (list num) -> list (list num) -> list Z ->
       list num -> sky -> res (list (list (list num))).
Lemma strain_thm (f : strain_fun) (el : (Z -> num -> num) -> option (Z -> num -> num) -> num -> num -> num -> Z -> num -> option num -> num) x s xs h ns which :
  (forall X jv gi (m d : X -> num) rows ys ks o, existsb (fun k => (k <? 1)%Z) ks = false ->
     f jv gi (map m ys) (f_rows rows ys) (e_rows rows ys) ks (map d ys) (pop_sky ys o) =
     Ok (map (fun x => map (fun p => map (fun k => el jv gi (m x) (fst p) (snd p) k (d x) (pop_amp o x)) ks) (rows x)) ys)) ->
  collection s xs -> fits which (length xs) -> harmonics_list h = Some ns -> List.Forall (fun k => (1 <= k)%Z) ns ->
  exists rows, get_strain f x h which s = Ok rows /\ strain_rows f x s xs which ns rows.
Proof.
  intros Hf C F Hh Hn. assert (Hb : existsb (fun k => (k <? 1)%Z) ns = false).
  { apply not_true_is_false. intros H. apply existsb_exists in H. destruct H as (k & Hk & L). rewrite Forall_forall in Hn. specialize (Hn k Hk). apply Z.ltb_lt in L. lia. }
  destruct (mask_rows which s xs C F) as (ys & Hys & W & CH & _). subst xs. unfold get_strain. rewrite W.
  assert (Eh : (match h with HInt n => Ok [n] | HList l => Ok l | HNpInt _ => Err TypeError end) = Ok ns) by (destruct h; cbn in Hh; congruence).
  rewrite Eh. cbn [rbind]. destruct (col_map fst s ys C) as (C1 & C2 & C3 & C4 & C5 & C6).
  rewrite C6, map_map, logical_and_map. cbn [rbind]. set (q := fun y : row * bool => negb (r_merged (fst y)) && snd y).
  rewrite (masked_sky_map fst s ys q C), (m_c_map fst s ys C). cbn [rbind]. rewrite C3, C4, C5, !select_map.
  destruct (newaxis_rows (fun y : row * bool => r_f (fst y)) (fun y => r_e (fst y)) (filter q ys)) as [E1 E2]. rewrite E1, E2. rewrite Hf by auto. cbn [rbind map fst snd].
  rewrite map_map. cbn [hd]. rewrite (n_sources_map _ _ C), map_length, np_repeat_map, scatter_map, take_mask_map. eexists. split; [reflexivity|].
  unfold strain_rows. rewrite <- CH. clear - Hb Hf. set (o := option_map _ _).
  set (v := fun r => map (fun k => el (x_jv x) (s_g s) (row_mc r) (r_f r) (r_e r) k (r_d r) (pop_amp (sky_opt s) r)) ns).
  assert (X : map (fun y : row * bool => if q y then map (fun k => el (x_jv x) (s_g s) (row_mc (fst y)) (r_f (fst y)) (r_e (fst y)) k (r_d (fst y)) (pop_amp o y)) ns else np_repeat (Fin 0) (length ns)) (filter snd ys)
    = map (fun r => if r_merged r then np_repeat (Fin 0) (length ns) else v r) (map fst (filter snd ys))).
  { rewrite map_map. apply map_ext_in. intros y Hy. apply filter_In in Hy. unfold q. destruct Hy as [_ ->]. rewrite andb_true_r. destruct (r_merged (fst y)); auto. cbn [negb].
    unfold v, o. destruct (sky_opt s); reflexivity. }
  rewrite X. apply Forall2_map_l. intros r _. destruct (r_merged r); [reflexivity|].
  unfold strain_row, sky_of_row. specialize (Hf row (x_jv x) (s_g s) row_mc r_d (fun r => [(r_f r, r_e r)]) [r] ns (sky_opt s) Hb).
  unfold f_rows, e_rows, sky_opt in Hf. cbn [map fst snd] in Hf. unfold row_mc in Hf. rewrite Hf. reflexivity.
Qed.
Lemma h_0_n_thm x s xs h ns which : collection s xs -> fits which (length xs) -> harmonics_list h = Some ns -> List.Forall (fun k => (1 <= k)%Z) ns ->
  exists rows, get_h_0_n x h which s = Ok rows /\ strain_rows h_0_n x s xs which ns rows.
Proof. apply (strain_thm h_0_n h0_elem). intros. now apply h_0_n_map. Qed.
Lemma h_c_n_thm x s xs h ns which : collection s xs -> fits which (length xs) -> harmonics_list h = Some ns -> List.Forall (fun k => (1 <= k)%Z) ns ->
  exists rows, get_h_c_n x h which s = Ok rows /\ strain_rows h_c_n x s xs which ns rows.
Proof. apply (strain_thm h_c_n hc_elem). intros. now apply h_c_n_map. Qed.
Lemma np_int_thm x n which s : get_h_0_n x (HNpInt n) which s = Err TypeError /\ get_h_c_n x (HNpInt n) which s = Err TypeError.
Proof. split; reflexivity. Qed.

(** ** C49 *)
Lemma zeroed_thm x s xs a t n which i r s' v : computable x s xs a t n -> s_class s = KSource \/ s_class s = KVerification -> fits which (length xs) ->
  get_snr x a n which s = (s', Ok v) -> nth_error xs i = Some r -> selected which i = false -> stored (Fin 0) (s_snr s') i (Fin 0).
Proof.
  intros HC Hk F E Hi Hs. destruct (snr_thm x s xs a t n which HC Hk F) as (s2 & v2 & sc & kw & E2 & _ & SV & _ & _ & _ & H).
  rewrite E in E2. injection E2 as <- <-. rewrite SV. destruct (H i r Hi) as (vi & Hv & K). rewrite Hs in K. cbn [andb] in K. destruct K as [-> _]. exact Hv.
Qed.

(** ** C68 *)
Lemma mask_time_resolved s t_obs t : mask_time s t_obs t -> time_resolved s t_obs t.
Proof.
  intros H. unfold time_resolved. change (or_default t_obs (get_or_none "t_obs" (s_params s))) with (given t_obs "t_obs" s).
  destruct H as [-> | [-> ->]]; [reflexivity|]. unfold resolve_t_obs. cbn [peqb String.eqb]. unfold current. now rewrite mission_eq.
Qed.
Lemma mask_thm s xs c st t_obs t tol : collection s xs -> c <> TriOther -> st <> TriOther -> h_ecc_tol (s_harm s) = Some tol -> mask_time s t_obs t ->
  exists mask, get_source_mask c st t_obs s = Ok mask /\
    Forall2 (fun r b => b = true <-> (c = TriTrue -> is_circular s r) /\ (c = TriFalse -> is_eccentric s r) /\
               (st = TriTrue -> is_stationary s t r true) /\ (st = TriFalse -> is_stationary s t r false)) xs mask.
Proof.
  intros C Hc Hs T MT. apply mask_time_resolved in MT. assert (C' : collection s (map (fun r => r) xs)) by now rewrite map_id.
  rewrite (source_mask_map (fun r => r) s xs c st t_obs t tol C' Hc Hs T (fun _ => MT)). eexists. split; [reflexivity|]. apply Forall2_map_l. intros r _.
  assert (EC : circ_test c tol (r_e r) = true <-> (c = TriTrue -> is_circular s r) /\ (c = TriFalse -> is_eccentric s r)).
  { destruct c; cbn.
    - split; [split; discriminate|auto].
    - split; [intros H; split; [intros _; exists tol; auto|discriminate]|]. intros [K _]. destruct (K eq_refl) as (u & U & V). congruence.
    - split; [intros H; split; [discriminate|intros _; exists tol; auto]|]. intros [_ K]. destruct (K eq_refl) as (u & U & V). congruence.
    - now elim Hc. }
  pose proof (stat_of_spec s t r) as S.
  assert (ES : stat_test st (stat_of s t r) = true <-> (st = TriTrue -> is_stationary s t r true) /\ (st = TriFalse -> is_stationary s t r false)).
  { destruct st; cbn.
    - split; [split; discriminate|auto].
    - split; [intros H; rewrite H in S; split; [auto|discriminate]|]. intros [K _]. specialize (K eq_refl). unfold is_stationary in *. congruence.
    - split; [intros H; apply negb_true_iff in H; rewrite H in S; split; [discriminate|auto]|]. intros [_ K]. specialize (K eq_refl). unfold is_stationary in *. apply negb_true_iff. congruence.
    - now elim Hs. }
  rewrite andb_true_iff, EC, ES. tauto.
Qed.
Lemma partition_thm s r t tol e : h_ecc_tol (s_harm s) = Some (Fin tol) -> r_e r = Fin e ->
  (is_circular s r \/ is_eccentric s r) /\ ~ (is_circular s r /\ is_eccentric s r) /\
  (is_stationary s t r true \/ is_stationary s t r false) /\ ~ (is_stationary s t r true /\ is_stationary s t r false).
Proof.
  intros T E. split; [|split; [|split]].
  - destruct (Rle_lt_dec e tol); [left|right]; exists (Fin tol); rewrite E; split; auto; [now apply nle_t|now apply nlt_t].
  - intros [A B]. eapply class_unique; eauto.
  - pose proof (stat_of_spec s t r). destruct (stat_of s t r); auto.
  - intros [A B]. unfold is_stationary in *. congruence.
Qed.
Lemma mask_error_thm s xs c st t_obs t tol : collection s xs -> h_ecc_tol (s_harm s) = Some tol -> mask_time s t_obs t ->
  c = TriOther \/ st = TriOther -> get_source_mask c st t_obs s = Err ValueError.
Proof.
  intros C T MT H. unfold get_source_mask, ecc_tol. rewrite T. destruct c; cbn [rbind]; auto; destruct H as [H|H]; try discriminate H; rewrite H; reflexivity.
Qed.

(** ** C49: get_snr_stationary and get_snr_evolving store nothing for the other sources *)
Lemma others_thm x s xs a t n which i r : computable x s xs a t n -> fits which (length xs) -> nth_error xs i = Some r -> selected which i && negb (r_merged r) = false ->
  kept s (fst (get_snr_stationary x a which s)) i /\ kept s (fst (get_snr_evolving x a n which s)) i.
Proof.
  intros HC F Hi Hs. split.
  - destruct (stationary_thm x s xs a t n which HC F) as (s' & v & sc & kw & E & _ & _ & _ & _ & H). rewrite E. destruct (H i r Hi) as (vi & h & A & B & K). rewrite Hs in K. exists vi, h. cbn. tauto.
  - destruct (evolving_thm x s xs a t n which HC F) as (s' & v & sc & kw & E & _ & _ & _ & _ & H). rewrite E. destruct (H i r Hi) as (vi & h & A & B & K). rewrite Hs in K. exists vi, h. cbn. tauto.
Qed.

(** ** C56: a source exactly at the transition eccentricity is selected as circular although its power is out of tolerance *)
Lemma edge_thm x (J : Z -> R -> R) s r tol e : (forall k y, x_jv x k (Fin y) = Fin (J k y)) -> set_gw_lum_tol (x_jv x) (x_lum x) (Fin tol) no_harm = (s_harm s, Ok tt) ->
  h_ecc_tol (s_harm s) = Some (Fin e) -> r_e r = Fin e -> is_circular s r /\ ~ within_tolerance (x_jv x) tol e.
Proof.
  intros HJ HS HE HR. split; [exists (Fin e); split; auto; rewrite HR; apply nle_t; lra|].
  destruct (set_ok_match (x_jv x) (x_lum x) (Fin tol) no_harm (s_harm s) I HS) as (_ & _ & e' & T & E). rewrite E in HE. injection HE as ->.
  destruct (transition_thm _ J tol _ HJ T) as (j & _ & Ej & N & _). apply Fin_inj in Ej. now subst e.
Qed.
