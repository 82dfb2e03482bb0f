(** WorldSim.v -- every method on a world does what Source.v says to its collection, and nothing to others (C58, C81). *)
From Coq Require Import String Reals ZArith List Bool Arith Lia.
From Verif Require Import Num NumFacts Np NpFacts Utils Strain Psd Snr Interp Evol Harmonics ScParams Source Index SourceSpec SourceFacts InitSpec InitFacts History World WorldSpec WorldFacts WorldThms.
Import ListNotations.
Open Scope nat_scope.
Open Scope world_scope.
Open Scope m_scope.
Open Scope list_scope.

(** ** Sequencing *)
Lemma bind_look {A B} i P (k : src -> WM A) (k' : src -> M B) R : (forall s, good i (fun w => contents w i = Some s /\ P w) (k s) (k' s) R) -> good i P (wbind (look i) k) (mbind self k') R.
Proof.
  intros H. eapply good_bind; [apply good_look|]. intros a b w o I O (E & C & Hp). subst b. exact (H a w o I O (conj C Hp)).
Qed.
Lemma bind_lift {A B C} i P (r : res C) (k : C -> WM A) (k' : C -> M B) R : (forall a, good i P (k a) (k' a) R) -> good i P (wbind (wlift r) k) (mbind (lift r) k') R.
Proof. intros H. eapply good_bind; [apply good_lift|]. intros a b w o I O [E Hp]. subst b. exact (H a w o I O Hp). Qed.
Lemma bind_obj {A B} i P (k : obj -> WM A) (n : M B) R : (forall o, good i (fun w => nth_error (w_objs w) i = Some o /\ P w) (k o) n R) -> good i P (wbind (get_obj i) k) n R.
Proof. intros H. eapply good_skip; [apply good_get_obj|]. exact H. Qed.
Lemma bind_step {A B A' B'} i P (m : WM A) (n : M B) (k : A -> WM A') (k' : B -> M B') R : good i P m n tt_ok -> (forall a b, good i (fun _ => True) (k a) (k' b) R) -> good i P (wbind m k) (mbind n k') R.
Proof. intros G H. eapply good_bind; [exact G|]. intros a b w o I O _. exact (H a b w o I O Logic.I). Qed.
Lemma bind_same {A A' B'} i P (m : WM A) (n : M A) (k : A -> WM A') (k' : A -> M B') R : good i P m n same -> (forall a, good i (fun _ => True) (k a) (k' a) R) -> good i P (wbind m k) (mbind n k') R.
Proof. intros G H. eapply good_bind; [exact G|]. intros a b w o I O E. unfold same in E. subst b. exact (H a w o I O Logic.I). Qed.
Lemma lift_same {A} i P (r : res A) : good i P (wlift r) (lift r) same.
Proof. eapply good_post; [|apply good_lift]. intros w a b _ [E _]. exact E. Qed.
Lemma ret_same {A} i P (a : A) : good i P (wret a) (ret a) same.
Proof. eapply good_post; [|apply good_ret]. intros w a' b' _ (-> & -> & _). reflexivity. Qed.
Lemma ret_tt {A B} i P (a : A) (b : B) : good i P (wret a) (ret b) tt_ok.
Proof. eapply good_post; [|apply good_ret]. intros; exact Logic.I. Qed.
Lemma good_any {A B} i P (m : WM A) (n : M B) R : good i P m n R -> good i P m n tt_ok.
Proof. apply good_post. intros; exact Logic.I. Qed.
Lemma good_top {A B} i P (m : WM A) (n : M B) R : good i (fun _ => True) m n R -> good i P m n R.
Proof. apply good_pre. auto. Qed.

(** ** Parameters *)
Lemma good_set_sc x i P : good i P (w_set_sc x i) (set_sc x) tt_ok.
Proof.
  assert (G : good i P (w_set_sc x i) (s <<- self ;; if s_interpolate_sc s then c <<- lift (curve_of x (s_params s)) ;; modify (put_sc (Some c)) else modify (put_sc None)) tt_ok).
  { apply bind_look. intros s. destruct (s_interpolate_sc s).
    - apply bind_lift. intros c. apply good_assign; [intros o; repeat split|reflexivity].
    - apply good_assign; [intros o; repeat split|reflexivity]. }
  intros w o I O Hp. destruct (G w o I O Hp) as (w' & r & s' & r' & E1 & E2 & K). exists w', r, s', r'. split; [exact E1|]. split; [|exact K].
  unfold mbind, self, lift, modify in E2. unfold set_sc. destruct (s_interpolate_sc (view w o)); [|exact E2]. destruct (curve_of x (s_params (view w o))); exact E2.
Qed.
Definition mine (i p : nat) (w : world) : Prop := exists o, nth_error (w_objs w) i = Some o /\ o_params o = p.
Lemma ok_set_dict i w p q d : inv w -> nth_error (w_params w) p = Some q -> p_source q = Some i ->
  okstep i w (mkWorld (w_heap w) (w_objs w) (replace p (mkHandle d (p_source q)) (w_params w))).
Proof.
  intros I Q S. pose proof (nth_some_lt _ _ _ Q) as L.
  assert (X : forall p' q', nth_error (w_params w) p' = Some q' -> exists q'', nth_error (replace p (mkHandle d (p_source q)) (w_params w)) p' = Some q'' /\ p_source q'' = p_source q').
  { intros p' q' Q'. destruct (Nat.eq_dec p' p) as [->|N].
    - rewrite nth_replace_eq by exact L. rewrite Q in Q'. injection Q' as <-. eexists. split; reflexivity.
    - rewrite nth_replace_ne by exact N. eauto. }
  split; cbn [w_heap w_objs w_params]; auto.
  - intros o O. exists o. split; auto. split; auto. split; auto. split; auto. intros (q1 & Q1 & S1). destruct (X _ _ Q1) as (q2 & Q2 & S2). exists q2. split; auto. congruence.
  - intros j o J O. apply nth_replace_ne. intros E. destruct (inv_own _ I _ _ O) as (q1 & Q1 & S1). rewrite E, Q in Q1. injection Q1 as <-. congruence.
Qed.
Lemma own_dict i w o p : inv w -> nth_error (w_objs w) i = Some o -> mine i p w -> exists q, o_params o = p /\ nth_error (w_params w) p = Some q /\ p_source q = Some i /\ p_dict q = s_params (view w o).
Proof.
  intros I O (o' & O' & E). rewrite O in O'. injection O' as <-. destruct (inv_own _ I _ _ O) as (q & Q & S). exists q. rewrite E in Q. split; auto. split; auto. split; auto. cbn. unfold dict_at. now rewrite E, Q.
Qed.
Lemma view_put_dict w o p q d : o_params o = p -> nth_error (w_params w) p = Some q -> view (mkWorld (w_heap w) (w_objs w) (replace p (mkHandle d (p_source q)) (w_params w))) o = put_params d (view w o).
Proof.
  intros E Q. unfold view, put_params, set_curve, dict_at. cbn [w_heap w_params]. rewrite E, nth_replace_eq by exact (nth_some_lt _ _ _ Q). reflexivity.
Qed.
Lemma good_set_dict i p d : good i (mine i p) (set_dict p d) (modify (put_params d)) (fun w _ _ => mine i p w).
Proof.
  intros w o I O Hp. destruct (own_dict i w o p I O Hp) as (q & E & Q & S & D). unfold set_dict. rewrite Q. eexists _, _, _, _. split; [reflexivity|]. split; [reflexivity|].
  split; [exact (ok_set_dict i w p q d I Q S)|]. split.
  - match goal with |- contents ?w' _ = _ => rewrite (contents_view w' i o O) end. f_equal. exact (view_put_dict w o p q d E Q).
  - exists o. auto.
Qed.
Lemma good_re_interpolate x i p : good i (mine i p) (w_re_interpolate x p) (set_sc x) tt_ok.
Proof.
  intros w o I O Hp. destruct (own_dict i w o p I O Hp) as (q & E & Q & S & D). unfold w_re_interpolate, wbind, get_handle. rewrite Q, S. exact (good_set_sc x i (fun _ => True) w o I O Logic.I).
Qed.
Lemma good_put x i p (f : dict -> dict) (changed : dict -> bool) :
  good i (mine i p) (q <== get_handle p ;; let c := changed (p_dict q) in _ <== set_dict p (f (p_dict q)) ;; if c then w_re_interpolate x p else wret tt)
    (s <<- self ;; let c := changed (s_params s) in _ <<- modify (put_params (f (s_params s))) ;; if c then set_sc x else ret tt) tt_ok.
Proof.
  intros w o I O Hp. destruct (own_dict i w o p I O Hp) as (q & E & Q & S & D).
  assert (G : good i (mine i p) (_ <== set_dict p (f (p_dict q)) ;; if changed (p_dict q) then w_re_interpolate x p else wret tt)
     (_ <<- modify (put_params (f (p_dict q))) ;; if changed (p_dict q) then set_sc x else ret tt) tt_ok).
  { eapply good_bind; [apply good_set_dict|]. intros a b. destruct (changed (p_dict q)); [apply good_re_interpolate|apply ret_tt]. }
  destruct (G w o I O Hp) as (w' & r & s' & r' & E1 & E2 & K). exists w', r, s', r'. split; [|split; [|exact K]].
  - unfold get_handle. unfold wbind at 1. rewrite Q. exact E1.
  - unfold self. unfold mbind at 1. rewrite <- D. exact E2.
Qed.
Lemma good_setitem x i p k v : good i (mine i p) (w_setitem x p k v) (params_setitem x k v) tt_ok.
Proof. apply bind_lift. intros _. exact (good_put x i p (put k v) (fun d => negb (peqb (get_or_none k d) v))). Qed.
Lemma good_update x i p new : good i (mine i p) (w_update x p new) (params_update x new) tt_ok.
Proof. apply bind_lift. intros _. exact (good_put x i p (put_all new) (fun d => existsb (fun kv => negb (peqb (get_or_none (fst kv) d) (snd kv))) new)). Qed.
Lemma mine_own {A B} i o P (k : WM A) (n : M B) R : good i (mine i (o_params o)) k n R -> good i (fun w => nth_error (w_objs w) i = Some o /\ P w) k n R.
Proof. apply good_pre. intros w _ [O _]. exists o. auto. Qed.
(** A new SensitivityCurveParams for collection i. *)
Lemma good_new_params i P d : good i P (p <== new_handle (mkHandle d (Some i)) ;; assign i (o_set_params p)) (modify (put_params d)) tt_ok.
Proof.
  intros w o I O _. unfold wbind, new_handle, assign. cbn [w_objs w_heap w_params]. rewrite O. eexists _, _, _, _. split; [reflexivity|]. split; [reflexivity|]. split; [|split; [|exact Logic.I]].
  - pose proof (nth_some_lt _ _ _ O) as L. split; cbn [w_heap w_objs w_params]; auto.
    + intros j J. now apply nth_replace_ne.
    + apply length_replace.
    + intros o1 O1. rewrite O in O1. injection O1 as <-. exists (o_set_params (length (w_params w)) o). split; [now apply nth_replace_eq|]. split; [intros [V1 V2 V3]; split; assumption|].
      split; [auto|]. split; [auto|]. intros _. exists (mkHandle d (Some i)). split; [apply nth_last|reflexivity].
    + intros j o1 _ O1. destruct (inv_own _ I _ _ O1) as (q & Q & _). exact (nth_before _ _ _ (nth_some_lt _ _ _ Q)).
    + intros p q Q. exists q. split; auto. now rewrite (nth_before _ _ _ (nth_some_lt _ _ _ Q)).
  - rewrite contents_replace by exact (nth_some_lt _ _ _ O). f_equal. unfold view, put_params, set_curve, dict_at. cbn. now rewrite nth_last.
Qed.
Lemma good_assign_params x i P new : good i P (w_assign_params x i new) (s <<- self ;; assign_params x new (Some (s_params s))) tt_ok.
Proof.
  intros w o I O Hp. unfold w_assign_params, assign_params. unfold wbind at 1, wlift. unfold mbind at 1, self at 1. unfold mbind at 1, lift at 1. destruct (make_params new) as [d|e].
  - set (c := negb (dict_eqb d (s_params (view w o)))).
    assert (G : good i (fun _ => True) (_ <== (p <== new_handle (mkHandle d (Some i)) ;; assign i (o_set_params p)) ;; if c then w_set_sc x i else wret tt)
       (_ <<- modify (put_params d) ;; if c then set_sc x else ret tt) tt_ok).
    { eapply bind_step; [apply good_new_params|]. intros ? ?. destruct c; [apply good_set_sc|apply ret_tt]. }
    destruct (G w o I O Logic.I) as (w' & r & s' & r' & E1 & E2 & K). exists w', r, s', r'. split; [|split; [exact E2|exact K]].
    unfold look. unfold wbind at 1. rewrite (contents_view w i o O). fold c. rewrite <- E1. unfold wbind, new_handle, assign. cbn [w_objs]. rewrite O. reflexivity.
  - eexists _, _, _, _. split; [reflexivity|]. split; [reflexivity|]. split; [apply ok_refl|]. split; [exact (contents_view w i o O)|reflexivity].
Qed.
Lemma good_ior x i P new : good i P (w_ior x i new) (params_ior x new) tt_ok.
Proof.
  intros w o I O Hp. unfold w_ior, params_ior.
  assert (G : good i (mine i (o_params o)) (_ <== set_dict (o_params o) (put_all new (s_params (view w o))) ;; s <== look i ;; w_assign_params x i (s_params s))
    (_ <<- modify (put_params (put_all new (s_params (view w o)))) ;; s <<- self ;; assign_params x (s_params s) (Some (s_params s))) tt_ok).
  { eapply good_bind; [apply good_set_dict|]. intros ? ?. apply bind_look. intros s. eapply good_pre with (P := fun w => contents w i = Some s); [intros w1 _ [C _]; exact C|].
    intros w1 o1 I1 O1 C1. destruct (good_assign_params x i (fun _ => True) (s_params s) w1 o1 I1 O1 Logic.I) as (w' & r & s' & r' & E1 & E2 & K). exists w', r, s', r'. split; [exact E1|]. split; [|exact K].
    rewrite (contents_view _ _ _ O1) in C1. apply some_inj in C1. rewrite <- C1. rewrite <- E2. rewrite <- C1. reflexivity. }
  destruct (G w o I O) as (w' & r & s' & r' & E1 & E2 & K); [exists o; auto|]. exists w', r, s', r'. split; [|split; [exact E2|exact K]].
  unfold get_obj, look at 1. unfold wbind at 1. rewrite O. unfold wbind at 1. rewrite (contents_view w i o O). exact E1.
Qed.
Lemma good_setdefault i P k v : good i P (w_setdefault i k v) (params_setdefault k v) tt_ok.
Proof.
  intros w o I O Hp. unfold w_setdefault, params_setdefault, get_obj, look. unfold wbind at 1. rewrite O. unfold wbind at 1. rewrite (contents_view w i o O). unfold modify. destruct (lookup k (s_params (view w o))) as [u|].
  - eexists _, _, _, _. split; [reflexivity|]. split; [reflexivity|]. split; [apply ok_refl|]. split; [exact (contents_view w i o O)|exact Logic.I].
  - destruct (good_set_dict i (o_params o) (put k v (s_params (view w o))) w o I O) as (w' & r & s' & r' & E1 & E2 & K & C & X); [exists o; auto|]. unfold modify in E2. injection E2 as <- <-.
    eexists _, _, _, _. split; [exact E1|]. split; [reflexivity|]. split; [exact K|]. split; [exact C|]. destruct r; [exact Logic.I|contradiction].
Qed.

(** ** Methods *)
Lemma good_a_setter i P a : good i P (w_a_setter i a) (a_setter a) tt_ok.
Proof.
  assert (G : forall l, good i P (s <== look i ;; f <== wlift (get_f_arr l (s_m_1 s) (s_m_2 s)) ;; b <== alloc (ANum f) ;; assign i (o_set_f_orb b))
     (s <<- self ;; f <<- lift (get_f_arr l (s_m_1 s) (s_m_2 s)) ;; modify (set_f_orb f)) tt_ok).
  { intros l. apply bind_look. intros s. apply bind_lift. intros f. apply good_f_orb. }
  destruct a; try exact (good_raise i P AssertionError tt_ok); apply G.
Qed.
Lemma good_tolerance x i P tol : good i P (w_tolerance x i tol) (assign_gw_lum_tol x tol) tt_ok.
Proof.
  intros w o I O Hp. unfold w_tolerance, assign_gw_lum_tol, look. unfold wbind at 1. rewrite (contents_view w i o O). destruct (set_gw_lum_tol (x_jv x) (x_lum x) tol (s_harm (view w o))) as [h r].
  assert (G : good i (fun _ => True) (_ <== assign i (o_set_harm h) ;; wlift r) (_ <<- modify (set_harm h) ;; lift r) tt_ok).
  { eapply bind_step; [apply good_assign; [intros o1; repeat split|reflexivity]|]. intros ? ?. eapply good_any, good_lift. }
  exact (G w o I O Logic.I).
Qed.
Lemma good_record i P insp snr msh : good i P (w_record_snr i insp snr msh) (record_snr insp snr msh) tt_ok.
Proof. eapply bind_step; [apply good_store_harmonics|]. intros ? ?. apply good_store_snr. Qed.
Lemma good_snr_method x i P values a which : good i P (w_snr_method x values a which i) (snr_method x values a which) same.
Proof.
  unfold w_snr_method, snr_method. apply bind_look. intros s. cbn zeta. apply bind_obj. intros o. eapply bind_step; [apply mine_own, good_update|]. intros ? ?.
  apply bind_look. intros s1. apply bind_lift. intros insp. apply bind_lift. intros v. eapply bind_step; [apply good_record|]. intros ? ?. apply lift_same.
Qed.
Lemma good_snr_stationary x i P a which : good i P (w_snr_stationary x a which i) (get_snr_stationary x a which) same.
Proof. exact (good_snr_method x i P (stationary_values x) a which). Qed.
Lemma good_snr_evolving x i P a n which : good i P (w_snr_evolving x a n which i) (get_snr_evolving x a n which) same.
Proof. exact (good_snr_method x i P (fun a => evolving_values x a n) a which). Qed.
Definition stored (i : nat) (w : world) (b : addr) (v : list num) : Prop := nth_error (w_heap w) b = Some (ANum v) /\ exists o, nth_error (w_objs w) i = Some o /\ o_snr o = Some b.
Lemma good_get_snr_source x i P a n which : good i P (w_get_snr_source x a n which i) (get_snr_source x a n which) (stored i).
Proof.
  unfold w_get_snr_source, get_snr_source. apply bind_look. intros s. cbn zeta. apply bind_obj. intros o. eapply bind_step; [apply mine_own, good_update|]. intros ? ?.
  apply bind_look. intros s1. cbn zeta. apply bind_lift. intros stat. apply bind_lift. intros sm. apply bind_lift. intros ev. apply bind_lift. intros em.
  eapply bind_same. { destruct (any sm); [|apply ret_same]. eapply bind_same; [apply good_snr_stationary|]. intros v. apply ret_same. }
  intros v1. eapply bind_same. { destruct (any em); [|apply ret_same]. eapply bind_same; [apply good_snr_evolving|]. intros v. apply ret_same. }
  intros v2. apply good_set_snr.
Qed.
Lemma good_get_snr x i P a n which : good i P (w_get_snr x a n which i) (get_snr x a n which) (stored i).
Proof.
  unfold w_get_snr, get_snr. apply bind_look. intros s. destruct (s_class s).
  - apply good_get_snr_source.
  - eapply bind_same; [apply good_snr_stationary|]. intros v. apply good_set_snr.
  - eapply bind_same; [apply good_snr_evolving|]. intros v. apply good_set_snr.
  - apply good_get_snr_source.
Qed.
Lemma good_merger_time x i P save which exact : good i P (w_merger_time x save which exact i) (get_merger_time x save which exact) same.
Proof.
  unfold w_merger_time, get_merger_time. apply bind_look. intros s. cbn zeta. apply bind_lift. intros insp. apply bind_lift. intros ecc. apply bind_lift. intros t. eapply bind_step; [|intros ? ?; apply lift_same].
  destruct save; [apply good_t_merge|apply ret_tt].
Qed.
Lemma good_ensure x i P : good i P (w_ensure_t_merge x i) (ensure_t_merge x) same.
Proof.
  unfold w_ensure_t_merge, ensure_t_merge. apply bind_look. intros s. destruct (s_t_merge s); [apply ret_same|]. eapply bind_step; [eapply good_any, good_merger_time|]. intros ? ?.
  apply bind_look. intros s1. destruct (s_t_merge s1); [apply ret_same|apply good_raise].
Qed.
Lemma wbind_assoc {A B C} (m : WM A) (f : A -> WM B) (g : B -> WM C) w : wbind (wbind m f) g w = wbind m (fun a => wbind (f a) g) w.
Proof. unfold wbind. destruct (m w) as [w1 [a|e]]; reflexivity. Qed.
Lemma good_eq {A B} i P (m m' : WM A) (n : M B) R : (forall w, m' w = m w) -> good i P m n R -> good i P m' n R.
Proof. intros H G w o I O Hp. rewrite H. exact (G w o I O Hp). Qed.
Lemma good_evolve x i P t : good i P (w_evolve x t i) (evolve_sources x t) tt_ok.
Proof.
  unfold w_evolve, evolve_sources. eapply bind_same; [apply good_ensure|]. intros tm. apply bind_look. intros s. apply bind_lift. intros [[merged ecc] f].
  eapply good_eq with (m := (_ <== (e <== alloc (ANum ecc) ;; fo <== alloc (ANum f) ;; m <== alloc (ABool merged) ;; assign i (o_set_orbit e fo m)) ;;
     times <== wlift (times_of t (n_sources s)) ;; left <== wlift (remaining tm times) ;; b <== alloc (ANum left) ;; assign i (o_set_t_merge b))).
  - intros w. reflexivity.
  - eapply bind_step; [apply good_orbit|]. intros ? ?. apply bind_lift. intros times. apply bind_lift. intros left. apply good_t_merge.
Qed.
