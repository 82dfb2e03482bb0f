(** WorldEvents.v -- events: what they change and what they return (C58, C81, C92). *)
From Coq Require Import String Reals ZArith List Bool Arith Lia.
From Verif Require Import Num NumFacts Np NpFacts Utils Strain Psd Snr Interp Evol Harmonics ScParams Source Index SourceSpec SourceFacts InitSpec InitFacts History World WorldSpec WorldFacts WorldThms WorldSim WorldSteps.
Import ListNotations.
Open Scope nat_scope.
Open Scope world_scope.
Open Scope m_scope.
Open Scope list_scope.

(** ** Methods *)
Lemma ok_alloc i w v : inv w -> okstep i w (mkWorld (w_heap w ++ [v]) (w_objs w) (w_params w)).
Proof.
  intros I. split; cbn [w_heap w_objs w_params]; auto.
  - rewrite app_length. lia.
  - intros o a _ La _. now apply nth_before.
  - intros o O. exists o. split; auto. split; [|auto 7]. intros [V1 V2 V3]. split; auto. intros a Ha. specialize (V1 a Ha). rewrite app_length. lia.
  - eauto.
Qed.
(** A step of History.v, with the array it returns. *)
Definition n_do (x : ext) (o : op) : M (option (list num)) :=
  match o with
  | Snr a n which => v <<- get_snr x a n which ;; ret (Some v)
  | SnrStationary a which => v <<- get_snr_stationary x a which ;; ret (Some v)
  | SnrEvolving a n which => v <<- get_snr_evolving x a n which ;; ret (Some v)
  | MergerTime save which exact => v <<- get_merger_time x save which exact ;; ret (Some v)
  | _ => _ <<- step x o ;; ret None
  end.
Lemma bind_fst {A B} (n : M A) (f : A -> B) s : fst ((v <<- n ;; ret (f v)) s) = fst (n s).
Proof. unfold mbind. destruct (n s) as [s' [v|e]]; reflexivity. Qed.
Lemma n_do_state x o s : fst (n_do x o s) = fst (step x o s).
Proof.
  destruct o; cbn [n_do step]; unfold discard; first [exact (bind_fst _ (fun _ => None) s)|rewrite (bind_fst _ Some s), (bind_fst _ (fun _ => tt) s); reflexivity].
Qed.
Definition out_ok (o : op) (w0 w : world) (r : out) (v : option (list num)) : Prop :=
  match v with
  | None => r = Nothing
  | Some l => exists b, r = Array b /\ nth_error (w_heap w) b = Some (ANum l) /\ (length (w_heap w0) <= b) /\ match o with Snr _ _ _ => True | _ => users_own w b end
  end.
Lemma good_done i P m (n : M unit) : good i P m n tt_ok -> good i P (done m) (_ <<- n ;; ret (@None (list num))) (fun w r v => r = Nothing /\ v = None).
Proof. intros G. eapply bind_step; [exact G|]. intros ? ?. eapply good_post; [|apply good_ret]. intros w a' b' _ (-> & -> & _). auto. Qed.
Lemma good_fresh i P m n : good i P m n same -> good i P (fresh_array m) (v <<- n ;; ret (Some v))
  (fun w r v => exists b l, r = Array b /\ v = Some l /\ nth_error (w_heap w) b = Some (ANum l) /\ users_own w b /\ S b = length (w_heap w)).
Proof.
  intros G. eapply bind_same; [exact G|]. intros v w o I O _. eexists _, _, _, _. split; [reflexivity|]. split; [reflexivity|]. pose proof (ok_alloc i w (ANum v) I) as K. split; [exact K|].
  split; [match goal with |- contents ?w' _ = _ => rewrite (contents_view w' i o O) end; f_equal; exact (view_heap w o _ _ [ANum v] (inv_wf _ I _ _ O) eq_refl)|]. exists (length (w_heap w)), v. split; [reflexivity|]. split; [reflexivity|].
  cbn [w_heap w_objs]. split; [apply nth_last|]. rewrite app_length. cbn. split; [|lia]. apply users_muts. cbn [w_heap w_objs]. rewrite app_length. cbn. split; [lia|].
  intros j oj Oj M. pose proof (wf_valid _ _ (inv_wf _ I _ _ Oj) _ (proj2 (in_every _ _) (or_intror M))). lia.
Qed.
Lemma good_do x i o P : good i P (w_do x i o) (n_do x o) (fun w r v =>
  match o with
  | Snr _ _ _ => exists b l, r = Array b /\ v = Some l /\ stored i w b l
  | SnrStationary _ _ | SnrEvolving _ _ _ | MergerTime _ _ _ => exists b l, r = Array b /\ v = Some l /\ nth_error (w_heap w) b = Some (ANum l) /\ users_own w b /\ S b = length (w_heap w)
  | _ => r = Nothing /\ v = None
  end).
Proof.
  destruct o; cbn [w_do n_do step].
  - apply bind_obj. intros o. apply good_done, mine_own, good_setitem.
  - apply bind_obj. intros o. apply good_done, mine_own, good_update.
  - apply good_done, good_assign_params.
  - apply good_done, good_ior.
  - apply good_done, good_setdefault.
  - intros w o I O _. eexists _, _, _, _. split; [reflexivity|]. split; [reflexivity|]. split; [apply ok_refl|]. split; [exact (contents_view w i o O)|reflexivity].
  - apply good_done, good_assign; [intros o; repeat split|reflexivity].
  - apply good_done, good_set_sc.
  - apply good_done, good_assign; [intros o; repeat split|reflexivity].
  - apply good_done, good_tolerance.
  - apply good_done, good_a_setter.
  - eapply good_bind; [apply good_get_snr|]. intros b v. eapply good_post; [|apply good_ret]. intros w r l _ (-> & -> & H). exists b, v. auto.
  - apply good_fresh, good_snr_stationary.
  - apply good_fresh, good_snr_evolving.
  - apply good_fresh, good_merger_time.
  - apply good_done, good_evolve.
Qed.
Lemma do_none x i o w : nth_error (w_objs w) i = None -> exists e, w_do x i o w = (w, Err e).
Proof.
  intros O. assert (C : contents w i = None) by (unfold contents; now rewrite O).
  destruct o; cbn [w_do]; unfold done, fresh_array, w_assign_params, w_ior, w_setdefault, w_set_sc, w_tolerance, w_a_setter, w_get_snr, w_snr_stationary, w_snr_evolving, w_snr_method, w_merger_time, w_evolve, w_ensure_t_merge,
    look, get_obj, assign, wlift, wbind; rewrite ?O, ?C; eauto.
  - destruct (make_params new); rewrite ?C; eauto.
  - destruct a; rewrite ?C; eauto.
Qed.
Lemma do_spec x i o w : inv w -> okstep i w (fst (w_do x i o w)) /\ (nth_error (w_objs w) i = None -> fst (w_do x i o w) = w).
Proof.
  intros I. destruct (nth_error (w_objs w) i) as [oi|] eqn:O.
  - destruct (good_do x i o (fun _ => True) w oi I O Logic.I) as (w' & r & s' & r' & E1 & E2 & K & C & X). rewrite E1. split; [exact K|discriminate].
  - destruct (do_none x i o w O) as [e ->]. split; [apply ok_refl|auto].
Qed.
(** ** Parameters kept in a variable *)
Lemma put_handle x p (f : dict -> dict) (changed : dict -> bool) w : inv w -> let m := (q <== get_handle p ;; let c := changed (p_dict q) in _ <== set_dict p (f (p_dict q)) ;; if c then w_re_interpolate x p else wret tt) in
  match nth_error (w_params w) p with
  | Some q => match p_source q with
              | Some i => okstep i w (fst (m w)) /\ (nth_error (w_objs w) i = None -> w_heap (fst (m w)) = w_heap w /\ w_objs (fst (m w)) = w_objs w)
              | None => forall i, okstep i w (fst (m w)) /\ w_heap (fst (m w)) = w_heap w /\ w_objs (fst (m w)) = w_objs w
              end
  | None => fst (m w) = w
  end.
Proof.
  intros I m. destruct (nth_error (w_params w) p) as [q|] eqn:Q; [|unfold m, get_handle, wbind; now rewrite Q].
  set (w1 := mkWorld (w_heap w) (w_objs w) (replace p (mkHandle (f (p_dict q)) (p_source q)) (w_params w))).
  assert (Q1 : nth_error (w_params w1) p = Some (mkHandle (f (p_dict q)) (p_source q))) by (unfold w1; cbn; apply nth_replace_eq; exact (nth_some_lt _ _ _ Q)).
  assert (R : w_re_interpolate x p w1 = match p_source q with Some i => w_set_sc x i w1 | None => (w1, Ok tt) end) by (unfold w_re_interpolate, wbind, get_handle; rewrite Q1; cbn; destruct (p_source q); reflexivity).
  assert (Em : fst (m w) = fst (if changed (p_dict q) then w_re_interpolate x p w1 else (w1, Ok tt))).
  { unfold m, get_handle. unfold wbind at 1. rewrite Q. unfold set_dict. unfold wbind at 1. rewrite Q. fold w1. destruct (changed (p_dict q)); reflexivity. }
  clearbody m. destruct (p_source q) as [i|] eqn:S.
  - assert (K1 : okstep i w w1) by (unfold w1; rewrite <- S; exact (ok_set_dict i w p q _ I Q S)). pose proof (ok_inv _ _ _ I K1) as I1.
    destruct (nth_error (w_objs w) i) as [oi|] eqn:O.
    + split; [|discriminate]. rewrite Em. destruct (changed (p_dict q)); [rewrite R|exact K1].
      destruct (good_set_sc x i (fun _ => True) w1 oi I1 O Logic.I) as (w' & r & s' & r' & E1 & E2 & K & C & X). rewrite E1. exact (ok_trans _ _ _ _ K1 K).
    + assert (Ew : fst (m w) = w1).
      { rewrite Em. destruct (changed (p_dict q)); [rewrite R|reflexivity]. unfold w_set_sc, look, wbind, contents. cbn [w1 w_objs]. rewrite O. reflexivity. }
      rewrite Ew. split; [exact K1|]. auto.
  - assert (Ew : fst (m w) = w1) by (rewrite Em; destruct (changed (p_dict q)); [now rewrite R|reflexivity]).
    intros i. rewrite Ew. split; [|auto].
    assert (X : forall p' q', nth_error (w_params w) p' = Some q' -> exists q'', nth_error (w_params w1) p' = Some q'' /\ p_source q'' = p_source q').
    { intros p' q' Q'. destruct (Nat.eq_dec p' p) as [->|N]; [rewrite Q1; rewrite Q in Q'; injection Q' as <-; eexists; split; [reflexivity|]; cbn; auto|].
      unfold w1. cbn [w_params]. rewrite nth_replace_ne by exact N. eauto. }
    split; cbn [w1 w_heap w_objs]; auto.
    + intros o O. exists o. split; auto. split; auto. split; auto. split; auto. intros (q1 & Hq & Hs). destruct (X _ _ Hq) as (q2 & Hq2 & Hs2). exists q2. split; auto. congruence.
    + intros j o _ O. unfold w1. cbn [w_params]. apply nth_replace_ne. intros Ep. destruct (inv_own _ I _ _ O) as (q1 & Hq & Hs). rewrite Ep, Q in Hq. injection Hq as <-. congruence.
Qed.
(** ** Events *)
Lemma step_do x i o w : w_step x (Do i o) w = w_do x i o w.
Proof. reflexivity. Qed.
Lemma fst_done (m : WM unit) w : fst (done m w) = fst (m w).
Proof. unfold done, wbind. destruct (m w) as [w' [r|e]]; reflexivity. Qed.
Lemma fst_map {A B} (m : WM A) (f : A -> B) w : fst ((a <== m ;; wret (f a)) w) = fst (m w).
Proof. unfold wbind. destruct (m w) as [w' [r|e]]; reflexivity. Qed.
(** Parameters that are set: nothing but the parameters and the curve of their collection. *)
Definition params_event (e : event) (p : nat) : Prop := (exists k v, e = HandleSet p k v) \/ (exists new, e = HandleUpdate p new).
Lemma params_spec x e p w : inv w -> params_event e p -> fst (w_step x e w) = w \/
  exists q, nth_error (w_params w) p = Some q /\
   match p_source q with
   | Some i => okstep i w (fst (w_step x e w)) /\ (nth_error (w_objs w) i = None -> w_heap (fst (w_step x e w)) = w_heap w /\ w_objs (fst (w_step x e w)) = w_objs w)
   | None => forall i, okstep i w (fst (w_step x e w)) /\ w_heap (fst (w_step x e w)) = w_heap w /\ w_objs (fst (w_step x e w)) = w_objs w
   end.
Proof.
  intros I [(k & v & ->)|(new & ->)]; cbn [w_step]; rewrite fst_done.
  - unfold w_setitem. unfold wlift. destruct (check_keys [k]) as [u|e] eqn:E; [|left; reflexivity].
    pose proof (put_handle x p (put k v) (fun d => negb (peqb (get_or_none k d) v)) w I) as H. cbn zeta in H.
    match goal with |- fst (wbind ?m ?k w) = w \/ _ => replace (wbind m k w) with (k u w) by reflexivity end.
    destruct (nth_error (w_params w) p) as [q|] eqn:Q; [right; exists q; split; [reflexivity|exact H]|left; exact H].
  - unfold w_update. unfold wlift. destruct (check_keys (keys new)) as [u|e] eqn:E; [|left; reflexivity].
    pose proof (put_handle x p (put_all new) (fun d => existsb (fun kv => negb (peqb (get_or_none (fst kv) d) (snd kv))) new) w I) as H. cbn zeta in H.
    match goal with |- fst (wbind ?m ?k w) = w \/ _ => replace (wbind m k w) with (k u w) by reflexivity end.
    destruct (nth_error (w_params w) p) as [q|] eqn:Q; [right; exists q; split; [reflexivity|exact H]|left; exact H].
Qed.
(** An array assigned to an attribute. *)
Lemma attr_others t a o b : In b (others (o_set_attr t a o)) -> In b (others o) \/ b = a.
Proof.
  unfold o_set_attr. cbn zeta. rewrite in_set_arrays, in_others. destruct t; intros H; decompose [or] H; auto 15; match goal with K : Some _ = Some _ |- _ => injection K as <-; auto | _ => idtac end.
Qed.
Lemma attr_rest t a o : o_snr (o_set_attr t a o) = o_snr o /\ o_max_snr_harmonic (o_set_attr t a o) = o_max_snr_harmonic o /\ o_params (o_set_attr t a o) = o_params o.
Proof. auto. Qed.
Lemma attr_inv i t a w : inv w -> users_own w a -> inv (fst (assign i (o_set_attr t a) w)).
Proof.
  intros I U. unfold assign. destruct (nth_error (w_objs w) i) as [o|] eqn:O; [|exact I]. cbn [fst]. apply users_muts in U. destruct U as [La U]. pose proof (nth_some_lt _ _ _ O) as Lo.
  set (o' := o_set_attr t a o). assert (Mu : muts o' = muts o) by reflexivity. assert (Ot : forall b, In b (others o') -> In b (others o) \/ b = a) by apply attr_others.
  assert (X : forall j oj, nth_error (replace i o' (w_objs w)) j = Some oj -> exists oj0, nth_error (w_objs w) j = Some oj0 /\ muts oj = muts oj0 /\ o_params oj = o_params oj0 /\ (forall b, In b (every oj) -> In b (every oj0) \/ b = a) /\
     o_snr oj = o_snr oj0 /\ o_max_snr_harmonic oj = o_max_snr_harmonic oj0 /\ forall b, In b (others oj) -> In b (others oj0) \/ b = a).
  { intros j oj Oj. destruct (Nat.eq_dec j i) as [->|N].
    - rewrite nth_replace_eq in Oj by exact Lo. injection Oj as <-. exists o. split; auto. split; auto. split; auto. split; [|split; [reflexivity|split; [reflexivity|exact Ot]]].
      intros b Hb. rewrite in_every in *. rewrite Mu in Hb. destruct Hb as [Hb|Hb]; [destruct (Ot b Hb)|]; auto.
    - rewrite nth_replace_ne in Oj by exact N. exists oj. auto 12. }
  split; cbn [w_heap w_objs w_params].
  - intros j oj Oj. destruct (X j oj Oj) as (o0 & O0 & M0 & _ & E0 & S1 & S2 & T0). pose proof (inv_wf _ I _ _ O0) as W. split.
    + intros b Hb. destruct (E0 b Hb) as [K| ->]; [exact (wf_valid _ _ W b K)|exact La].
    + intros b Hb Hc. rewrite M0 in Hb. destruct (T0 b Hc) as [K| ->]; [exact (wf_apart _ _ W b Hb K)|exact (U j o0 O0 Hb)].
    + rewrite S1, S2. exact (wf_two _ _ W).
  - intros j k oj ok b Njk Oj Ok Hb Hc. destruct (X j oj Oj) as (o1 & O1 & M1 & _). destruct (X k ok Ok) as (o2 & O2 & _ & _ & E2 & _). rewrite M1 in Hb.
    destruct (E2 b Hc) as [K| ->]; [exact (inv_sep _ I j k o1 o2 b Njk O1 O2 Hb K)|exact (U j o1 O1 Hb)].
  - intros j oj Oj. destruct (X j oj Oj) as (o0 & O0 & _ & P0 & _). rewrite P0. exact (inv_own _ I _ _ O0).
Qed.
Lemma write_inv a v w : inv w -> inv (mkWorld (replace a v (w_heap w)) (w_objs w) (w_params w)).
Proof. intros [I1 I2 I3]. split; cbn [w_heap w_objs w_params]; auto. rewrite length_replace. exact I1. Qed.
Lemma step_inv x e w : inv w -> fair w e -> inv (fst (w_step x e w)).
Proof.
  intros I F. destruct e; cbn [w_step].
  - rewrite fst_map. cbn. exact (ok_inv 0 _ _ I (ok_alloc 0 w (ANum l) I)).
  - rewrite fst_done. destruct (nth_error (w_heap w) a); [cbn; now apply write_inv|exact I].
  - rewrite fst_map. destruct (new_spec x k g w F) as [(w' & o & s & E & E2 & N)|(e & E & E2)]; rewrite E2; cbn [fst]; [|exact I].
    apply (new_inv _ _ _ _ _ I N). intros a Ha. apply F. now apply kept_handed.
  - rewrite fst_map. destruct (getitem_spec ind i w) as [(w' & o & s & new & C & G & E & N)|(e & E & _)]; rewrite E; cbn [fst]; [|exact I].
    apply (new_inv _ _ _ _ _ I N). intros a Ha. unfold given, nothing_shared in Ha. cbn in Ha. decompose [or] Ha; discriminate.
  - rewrite fst_map. destruct (nth_error (w_objs w) i) as [o|] eqn:O.
    + destruct (evolve_new_spec x t i w o I O) as (w1 & o1 & K & O1 & [(w' & on & new & E & E2 & N)|(e & E & E2)]); rewrite E2; cbn [fst]; [|exact (ok_inv _ _ _ I K)].
      pose proof (ok_inv _ _ _ I K) as I1. apply (new_inv _ _ _ _ _ I1 N). intros a Ha. exact (others_users _ _ _ _ I1 O1 (evolving_given _ _ Ha)).
    + unfold w_evolve_new, w_ensure_t_merge, look, wbind, contents. rewrite O. exact I.
  - exact (ok_inv _ _ _ I (proj1 (do_spec x i o w I))).
  - rewrite fst_done. apply attr_inv; [exact I|]. apply F. cbn. auto.
  - change (inv (fst (w_step x (HandleSet p k v) w))). destruct (params_spec x (HandleSet p k v) p w I) as [->|(q & Q & H)]; [left; eauto|exact I|]. destruct (p_source q) as [i|]; [exact (ok_inv _ _ _ I (proj1 H))|exact (ok_inv _ _ _ I (proj1 (H 0)))].
  - change (inv (fst (w_step x (HandleUpdate p new) w))). destruct (params_spec x (HandleUpdate p new) p w I) as [->|(q & Q & H)]; [right; eauto|exact I|]. destruct (p_source q) as [i|]; [exact (ok_inv _ _ _ I (proj1 H))|exact (ok_inv _ _ _ I (proj1 (H 0)))].
  - rewrite fst_map. unfold w_copy_handle, wbind, get_handle. destruct (nth_error (w_params w) p) as [q|]; [|exact I]. cbn. destruct I as [I1 I2 I3]. split; cbn [w_heap w_objs w_params]; auto.
    intros i o O. destruct (I3 i o O) as (q1 & Q1 & S1). exists q1. split; auto. now rewrite (nth_before _ _ _ (nth_some_lt _ _ _ Q1)).
Qed.
Lemma empty_inv : inv empty_world.
Proof. split; intros [|i] o; try discriminate; intros; destruct i; discriminate. Qed.
Lemma reached_inv x w : reached x w -> inv w.
Proof. induction 1; [apply empty_inv|now apply step_inv]. Qed.
(** Contents of other collections. *)
Lemma plain_frame w w' j : inv w -> (exists t, w_heap w' = w_heap w ++ t) -> w_objs w' = w_objs w -> (exists t, w_params w' = w_params w ++ t) -> contents w' j = contents w j.
Proof.
  intros I [t T] O [t' T']. unfold contents. rewrite O. destruct (nth_error (w_objs w) j) as [o|] eqn:Oj; [|reflexivity]. cbn. f_equal. apply view_frame.
  - intros a Ha. rewrite T. apply nth_before. exact (wf_valid _ _ (inv_wf _ I _ _ Oj) a Ha).
  - destruct (inv_own _ I _ _ Oj) as (q & Q & _). rewrite T'. exact (nth_before _ _ _ (nth_some_lt _ _ _ Q)).
Qed.
Lemma still_frame i w w' j : inv w -> okstep i w w' -> j <> i -> w_heap w' = w_heap w -> w_objs w' = w_objs w -> contents w' j = contents w j.
Proof.
  intros I K N H O. unfold contents. rewrite O. destruct (nth_error (w_objs w) j) as [o|] eqn:Oj; [|reflexivity]. cbn. f_equal. apply view_frame; [intros; now rewrite H|exact (ok_params _ _ _ K j o N Oj)].
Qed.
Lemma params_frame x e p w j : inv w -> params_event e p -> about w e <> Some j -> contents (fst (w_step x e w)) j = contents w j.
Proof.
  intros I P A. destruct (params_spec x e p w I P) as [->|(q & Q & H)]; [reflexivity|]. assert (As : about w e = p_source q) by (destruct P as [(k & v & ->)|(new & ->)]; cbn; now rewrite Q).
  destruct (p_source q) as [i|].
  - destruct H as [K S]. assert (N : j <> i) by congruence. destruct (nth_error (w_objs w) i) as [o|] eqn:O; [exact (ok_contents i w _ j I K (ex_intro _ o O) N)|].
    destruct (S eq_refl) as [S1 S2]. exact (still_frame i w _ j I K N S1 S2).
  - destruct (H (S j)) as (K & S1 & S2). exact (still_frame (S j) w _ j I K ltac:(lia) S1 S2).
Qed.
Lemma step_frame x e w j : inv w -> fair w e -> no_write e -> about w e <> Some j -> j < length (w_objs w) -> contents (fst (w_step x e w)) j = contents w j.
Proof.
  intros I F NW A J. destruct e.
  - cbn [w_step]. rewrite fst_map. cbn. apply plain_frame; cbn; auto; [eauto|exists []; now rewrite app_nil_r].
  - exfalso. apply (NW a). exists k, c. reflexivity.
  - cbn [w_step]. rewrite fst_map. destruct (new_spec x k g w F) as [(w' & o & s & E & E2 & N)|(e & E & E2)]; rewrite E2; cbn [fst]; [exact (new_frame _ _ _ _ _ j I N J)|reflexivity].
  - cbn [w_step]. rewrite fst_map. destruct (getitem_spec ind i w) as [(w' & o & s & new & C & G & E & N)|(e & E & _)]; rewrite E; cbn [fst]; [exact (new_frame _ _ _ _ _ j I N J)|reflexivity].
  - cbn [w_step about] in *. rewrite fst_map. destruct (nth_error (w_objs w) i) as [o|] eqn:O.
    + destruct (evolve_new_spec x t i w o I O) as (w1 & o1 & K & O1 & R). assert (N : j <> i) by congruence. pose proof (ok_contents i w w1 j I K (ex_intro _ o O) N) as C1.
      destruct R as [(w' & on & new & E & E2 & N1)|(e & E & E2)]; rewrite E2; cbn [fst]; [|exact C1]. pose proof (ok_inv _ _ _ I K) as I1. rewrite <- C1. apply (new_frame _ _ _ _ _ j I1 N1). now rewrite (ok_count _ _ _ K).
    + unfold w_evolve_new, w_ensure_t_merge, look, wbind, contents. rewrite O. reflexivity.
  - cbn [w_step about] in *. assert (N : j <> i) by congruence. destruct (do_spec x i o w I) as [K S]. destruct (nth_error (w_objs w) i) as [oi|] eqn:O; [exact (ok_contents i w _ j I K (ex_intro _ oi O) N)|now rewrite (S eq_refl)].
  - cbn [w_step about] in *. rewrite fst_done. unfold assign. destruct (nth_error (w_objs w) i) as [o|] eqn:O; [|reflexivity]. cbn [fst]. unfold contents. cbn [w_objs]. rewrite nth_replace_ne by congruence. reflexivity.
  - apply (params_frame x _ p); auto. left. eauto.
  - apply (params_frame x _ p); auto. right. eauto.
  - cbn [w_step]. rewrite fst_map. unfold w_copy_handle, wbind, get_handle. destruct (nth_error (w_params w) p) as [q|]; [|reflexivity]. cbn. apply plain_frame; cbn; auto; [exists []; now rewrite app_nil_r|eauto].
Qed.
(** Arrays of the user. *)
Lemma ok_users i w w' a : inv w -> okstep i w w' -> (nth_error (w_objs w) i = None -> w_heap w' = w_heap w /\ w_objs w' = w_objs w) -> users_own w a -> users_own w' a /\ nth_error (w_heap w') a = nth_error (w_heap w) a.
Proof.
  intros I K S U. apply users_muts in U. destruct U as [L U]. destruct (nth_error (w_objs w) i) as [oi|] eqn:O.
  - split; [|exact (ok_heap _ _ _ K oi a O L (U i oi O))]. apply users_muts. pose proof (ok_len _ _ _ K). split; [lia|]. intros j oj Oj M. destruct (Nat.eq_dec j i) as [->|N].
    + destruct (ok_self _ _ _ K oi O) as (o' & O' & _ & M' & _). rewrite O' in Oj. injection Oj as <-. destruct (M' a M) as [Q|Q]; [exact (U i oi O Q)|lia].
    + rewrite (ok_objs _ _ _ K j N) in Oj. exact (U j oj Oj M).
  - destruct (S eq_refl) as [S1 S2]. rewrite S1. split; auto. apply users_muts. rewrite S1, S2. auto.
Qed.
Lemma step_users x e w a : inv w -> fair w e -> ~ writes e a -> users_own w a -> users_own (fst (w_step x e w)) a /\ nth_error (w_heap (fst (w_step x e w))) a = nth_error (w_heap w) a.
Proof.
  intros I F NW U. destruct e; cbn [w_step].
  - rewrite fst_map. cbn. apply users_muts in U. destruct U as [L U]. split; [|now apply nth_before]. apply users_muts. cbn [w_heap w_objs]. rewrite app_length. split; [lia|exact U].
  - rewrite fst_done. destruct (nth_error (w_heap w) a0) as [v|] eqn:E; [|auto]. cbn. assert (N : a <> a0) by (intros ->; apply NW; exists k, c; reflexivity). split; [|now apply nth_replace_ne].
    apply users_muts in U. apply users_muts. cbn [w_heap w_objs]. now rewrite length_replace.
  - rewrite fst_map. destruct (new_spec x k g w F) as [(w' & o & s & E & E2 & N)|(e & E & E2)]; rewrite E2; cbn [fst]; [exact (new_users _ _ _ _ _ a N U)|auto].
  - rewrite fst_map. destruct (getitem_spec ind i w) as [(w' & o & s & new & C & G & E & N)|(e & E & _)]; rewrite E; cbn [fst]; [exact (new_users _ _ _ _ _ a N U)|auto].
  - rewrite fst_map. destruct (nth_error (w_objs w) i) as [o|] eqn:O.
    + destruct (evolve_new_spec x t i w o I O) as (w1 & o1 & K & O1 & R). destruct (ok_users i w w1 a I K ltac:(congruence) U) as [U1 H1].
      destruct R as [(w' & on & new & E & E2 & N1)|(e & E & E2)]; rewrite E2; cbn [fst]; [|auto]. destruct (new_users _ _ _ _ _ a N1 U1) as [U2 H2]. split; [exact U2|congruence].
    + unfold w_evolve_new, w_ensure_t_merge, look, wbind, contents. rewrite O. auto.
  - destruct (do_spec x i o w I) as [K S]. apply (ok_users i w _ a I K); auto. intros E. change (w_do x i o w) with (w_do x i o w). rewrite (S E). auto.
  - rewrite fst_done. unfold assign. destruct (nth_error (w_objs w) i) as [o|] eqn:O; [|auto]. cbn [fst w_heap]. split; auto. apply users_muts in U. apply users_muts. cbn [w_heap w_objs]. destruct U as [L U]. split; auto.
    intros j oj Oj. destruct (Nat.eq_dec j i) as [->|N]; [rewrite nth_replace_eq in Oj by exact (nth_some_lt _ _ _ O); injection Oj as <-; exact (U i o O)|rewrite nth_replace_ne in Oj by exact N; exact (U j oj Oj)].
  - change (users_own (fst (w_step x (HandleSet p k v) w)) a /\ nth_error (w_heap (fst (w_step x (HandleSet p k v) w))) a = nth_error (w_heap w) a).
    destruct (params_spec x (HandleSet p k v) p w I) as [->|(q & Q & H)]; [left; eauto|auto|]. destruct (p_source q) as [i|]; [destruct H as [K S]; exact (ok_users i w _ a I K S U)|destruct (H 0) as (K & S); exact (ok_users 0 w _ a I K (fun _ => S) U)].
  - change (users_own (fst (w_step x (HandleUpdate p new) w)) a /\ nth_error (w_heap (fst (w_step x (HandleUpdate p new) w))) a = nth_error (w_heap w) a).
    destruct (params_spec x (HandleUpdate p new) p w I) as [->|(q & Q & H)]; [right; eauto|auto|]. destruct (p_source q) as [i|]; [destruct H as [K S]; exact (ok_users i w _ a I K S U)|destruct (H 0) as (K & S); exact (ok_users 0 w _ a I K (fun _ => S) U)].
  - rewrite fst_map. unfold w_copy_handle, wbind, get_handle. destruct (nth_error (w_params w) p) as [q|]; [|auto]. cbn. auto.
Qed.
