(** ToyWorld.v -- short histories of several collections: SNR arrays that are written to again (C58, C81). *)
From Coq Require Import String Reals ZArith List Lra Lia Bool.
From Verif Require Import Num NumFacts Np NpFacts Utils Spec ScParams Source Index History SourceSpec MethodSpec SourceFacts MethodFacts MethodThms SourceThms CurveFacts Evol EvolveSpec EvolveThms Toy Toy2 Toy3
  World WorldSpec WorldFacts WorldThms WorldSim WorldSteps WorldEvents WorldProofs WorldShare.
Import ListNotations.
Open Scope R_scope.
Open Scope list_scope.

(** ** The object *)
Definition first_only : option (list bool) := Some [true; false].
Lemma rewritten_history : let xs := [b1; b2] in exists s1 v1 s4 v4 l4 y,
  get_snr x_toy no_args 1 first_only (toy_of xs) = (s1, Ok v1) /\ nth_error v1 1 = Some (Fin 0) /\ s_snr s1 = Some v1 /\
  let s3 := fst (step x_toy SetSc (fst (step x_toy (Assign (custom_params 0)) s1))) in
  s_snr s3 = Some v1 /\ get_snr_stationary x_toy no_args None s3 = (s4, Ok v4) /\ s_snr s4 = Some l4 /\ nth_error l4 1 = Some (Fin y) /\ 0 < y.
Proof.
  intros xs. set (s := toy_of xs).
  assert (HE : forall r, In r xs -> exists e, r_e r = Fin e /\ 0 <= e <= 1) by (intros r Hr; apply toy_ecc; destruct Hr as [H|[H|[]]]; cbn; auto).
  pose proof (toy_computable s xs 1 ltac:(lia) (toy_of_like xs) (toy_collection xs) HE) as HC0.
  set (ys := [(b1, true); (b2, false)]). assert (HC : computable x_toy s (map fst ys) no_args toy_time 1) by exact HC0.
  destruct (settings fst x_toy no_args 1 s ys toy_time HC) as (sc & kw & p & tol & CU & K & P & T & U).
  destruct (source_run fst x_toy no_args 1 s ys toy_time HC sc kw p tol K P T U first_only snd eq_refl) as (s1 & v & m & E & A & V & M).
  destruct M as [M|[_ M]]; [|specialize (M (b1, true) (or_introl eq_refl)); discriminate M].
  destruct A as (sc' & d & A).
  set (s3 := fst (step x_toy SetSc (fst (step x_toy (Assign (custom_params 0)) s1)))).
  assert (S3 : s3 = set_snr (Some v) (set_max_snr_harmonic m (set_curve false None (custom_params 0) s))).
  { unfold s3. cbn [step]. rewrite mbind_self, assign_cases. cbn [make_params custom_params]. rewrite A.
    match goal with |- context [match make_params ?d with _ => _ end] => change (make_params d) with (Ok (custom_params 0)) end. cbv beta iota zeta. match goal with |- context [if ?b then _ else _] => destruct b end; reflexivity. }
  set (f1 := fun y : row * bool => if snd y && negb (r_merged (fst y)) then src_val x_toy s toy_time p (Fin tol) 1 (fst y) else Fin 0) in *.
  set (f2 := fun y : row * bool => if snd y && negb (r_merged (fst y)) then src_msh x_toy s toy_time p (Fin tol) 1 (fst y) else old_msh s (fst y)) in *.
  assert (L3 : toy_like s3) by (rewrite S3; split; [left; reflexivity|]; repeat split).
  set (xs3 := map (fun y : row * bool => with_snr (f1 y) (f2 y) (fst y)) ys).
  assert (C3 : collection s3 xs3).
  { rewrite S3, V, M. apply (collection_after fst). apply collection_curve. exact (toy_collection xs). }
  assert (HE3 : forall r, In r xs3 -> exists e, r_e r = Fin e /\ 0 <= e <= 1) by (intros r [<-|[<-|[]]]; exists 0; (split; [reflexivity|lra])).
  destruct (toy_stationary s3 xs3 L3 C3 HE3) as (s4 & vf & hf & E4 & _ & _ & _ & S4 & W4).
  assert (B2 : In (with_snr (f1 (b2, false)) (f2 (b2, false)) b2) xs3) by (right; left; reflexivity).
  destruct (W4 _ B2 b2_whole) as (y & Y & Yp).
  exists s1, v, s4, (map (fun r => if r_merged r then Fin 0 else vf r) xs3), (map (fun r => if r_merged r then old_snr s3 r else vf r) xs3), y.
  split; [exact E|]. split; [rewrite V; reflexivity|]. split; [rewrite A; reflexivity|]. cbn zeta. split; [fold s3; rewrite S3; reflexivity|]. split; [exact E4|]. split; [exact S4|]. split; [|exact Yp]. cbn -[f1 f2 with_snr]. cbn [with_snr r_merged b2 toy_row]. f_equal. exact Y.
Qed.

(** ** The world *)
Definition by_value (i : init_args) : new_args :=
  mkNew (Val (i_m_1 i)) (Val (i_m_2 i)) (Val (i_ecc i)) (Val (i_dist i)) (i_n_proc i) (Val (i_f_orb i)) (Val (i_a i)) (i_position i)
        (option_map inr (i_polarisation i)) (option_map inr (i_inclination i)) (Val (i_weights i)) (i_gw_lum_tol i) (i_stat_tol i)
        (i_interpolate_g i) (i_interpolate_sc i) (i_sc_params i).
Lemma read_by_value h i : read_args h (by_value i) = i.
Proof. destruct i as [? ? ? ? ? ? ? ? pol inc ? ? ? ? ? ?]. unfold read_args, by_value. cbn. destruct pol, inc; reflexivity. Qed.
Lemma by_value_fair w k i : fair w (New k (by_value i)).
Proof. intros a. destruct i as [? ? ? ? ? ? ? ? pol inc ? ? ? ? ? ?]. cbn. destruct pol, inc; intros []. Qed.
Lemma do_fair w i o : fair w (Do i o).
Proof. intros a []. Qed.
Definition two_args : init_args := toy_args (map r_m1 [b1; b2]) (map r_m2 [b1; b2]) (map r_e [b1; b2]) (map r_d [b1; b2]) (map r_f [b1; b2]) false (custom_params 0).
Definition two_world : world := fst (w_step x_toy (New KSource (by_value two_args)) empty_world).
Lemma two_reached : reached x_toy two_world.
Proof. apply reached_step; [apply reached_empty|apply by_value_fair]. Qed.
Lemma two_contents : contents two_world 0 = Some (toy_of [b1; b2]).
Proof.
  assert (HI := toy_of_init [b1; b2] ltac:(intros r [<-|[<-|[]]]; reflexivity)). fold two_args in HI.
  destruct (new_spec x_toy KSource (by_value two_args) empty_world (by_value_fair _ KSource two_args)) as [(w' & o & s & E & W & N)|(e & E & _)]; rewrite read_by_value, HI in E; [|discriminate]. injection E as <-.
  unfold two_world. cbn [w_step]. unfold wbind. rewrite W. cbn [fst wret]. exact (new_contents _ _ _ _ _ N).
Qed.
Lemma pres_assign_params x i b j new : pres (snr_at i b) (w_assign_params x j new).
Proof.
  unfold w_assign_params. apply pres_bind; [apply pres_lift|]. intros d. apply pres_bind; [apply pres_look|]. intros s. apply pres_bind; [now apply pres_heap|]. intros p. cbn zeta.
  apply pres_bind; [now apply pres_assign|]. intros _. destruct (negb _); [apply pres_set_sc|apply pres_ret].
Qed.
Lemma pres_done i b m : pres (snr_at i b) m -> pres (snr_at i b) (done m).
Proof. intros H. apply pres_bind; [exact H|]. intros ?. apply pres_ret. Qed.
Lemma nums_stored i b w s v : snr_at i b w -> contents w i = Some s -> s_snr s = Some v -> nums (w_heap w) b = v.
Proof. intros (o & O & B) C E. rewrite (contents_view _ _ _ O) in C. apply some_inj in C. rewrite <- C in E. cbn in E. rewrite B in E. now injection E. Qed.
Definition later : list event := [Do 0 (Assign (custom_params 0)); Do 0 SetSc; Do 0 (SnrStationary no_args None)].
Lemma rewritten_world : exists b y, let w1 := fst (w_step x_toy (Do 0 (Snr no_args 1 first_only)) two_world) in let w3 := w_run x_toy [Do 0 (Assign (custom_params 0)); Do 0 SetSc] w1 in
  snd (w_step x_toy (Do 0 (Snr no_args 1 first_only)) two_world) = Ok (Array b) /\ snr_at 0 b w3 /\ inv w3 /\ reached x_toy w3 /\
  nth_error (nums (w_heap w1) b) 1 = Some (Fin 0) /\ nth_error (nums (w_heap w3) b) 1 = Some (Fin 0) /\
  nth_error (nums (w_heap (fst (w_step x_toy (Do 0 (SnrStationary no_args None)) w3))) b) 1 = Some (Fin y) /\ 0 < y.
Proof.
  destruct rewritten_history as (s1 & v1 & s4 & v4 & l4 & y & E1 & V1 & S1 & S3 & E4 & S4 & Y & Yp). cbn zeta in S3, E4.
  set (e1 := Do 0 (Snr no_args 1 first_only)). set (w1 := fst (w_step x_toy e1 two_world)).
  pose proof (reached_inv _ _ two_reached) as I0. pose proof (refines_inv x_toy two_world 0 (Snr no_args 1 first_only) _ I0 two_contents) as (C1 & A1 & _). fold e1 in C1, A1. fold w1 in C1.
  assert (R1 : reached x_toy w1) by (apply reached_step; [exact two_reached|apply do_fair]).
  assert (F1 : fst (step x_toy (Snr no_args 1 first_only) (toy_of [b1; b2])) = s1) by (cbn [step]; unfold discard, mbind; rewrite E1; reflexivity). rewrite F1 in C1.
  cbn [answer] in A1. specialize (A1 _ eq_refl). rewrite E1 in A1. cbn [snd] in A1.
  destruct (snd (w_step x_toy e1 two_world)) as [[|b| |]|er] eqn:EB; try contradiction.
  pose proof (returned_is_stored x_toy two_world 0 no_args 1 first_only b two_reached EB) as B1. fold e1 w1 in B1.
  set (w2 := fst (w_step x_toy (Do 0 (Assign (custom_params 0))) w1)). set (w3 := fst (w_step x_toy (Do 0 SetSc) w2)).
  assert (R2 : reached x_toy w2) by (apply reached_step; [exact R1|apply do_fair]). assert (R3 : reached x_toy w3) by (apply reached_step; [exact R2|apply do_fair]).
  pose proof (refines_inv x_toy w1 0 (Assign (custom_params 0)) _ (reached_inv _ _ R1) C1) as (C2 & _). fold w2 in C2.
  pose proof (refines_inv x_toy w2 0 SetSc _ (reached_inv _ _ R2) C2) as (C3 & _). fold w3 in C3.
  assert (B2 : snr_at 0 b w2) by exact (pres_done 0 b _ (pres_assign_params x_toy 0 b 0 (custom_params 0)) w1 B1).
  assert (B3 : snr_at 0 b w3) by exact (pres_done 0 b _ (pres_set_sc x_toy 0 b 0) w2 B2).
  pose proof (overwritten_inv x_toy w3 0 b (SnrStationary no_args None) _ (reached_inv _ _ R3) B3 Logic.I C3) as O4.
  exists b, y. cbn zeta. fold w1. change (w_run x_toy [Do 0 (Assign (custom_params 0)); Do 0 SetSc] w1) with w3. split; [reflexivity|]. split; [exact B3|]. split; [exact (reached_inv _ _ R3)|]. split; [exact R3|].
  split; [rewrite (nums_stored _ _ _ _ _ B1 C1 S1); exact V1|]. split; [rewrite (nums_stored _ _ _ _ _ B3 C3 S3); exact V1|]. split; [|exact Yp].
  assert (F4 : forall s0, get_snr_stationary x_toy no_args None s0 = (s4, Ok v4) -> fst (step x_toy (SnrStationary no_args None) s0) = s4) by (intros s0 H; cbn [step]; unfold discard, mbind; rewrite H; reflexivity).
  rewrite (F4 _ E4), S4 in O4. apply some_inj in O4. rewrite <- O4. exact Y.
Qed.

(** ** An object more *)
(** What a method of object 0 does is the same when there is a further object at the end of the world. *)
Section Extend.
  Variables (i p : nat) (on : obj) (qn : handle).
  Definition extend (w : world) : world := mkWorld (w_heap w) (w_objs w ++ [on]) (w_params w ++ [qn]).
  Definition mine (w : world) : Prop := exists o q, nth_error (w_objs w) i = Some o /\ o_params o = p /\ nth_error (w_params w) p = Some q /\ p_source q = Some i.
  Definition same_there {A} (m : WM A) : Prop := forall w, mine w -> m (extend w) = (extend (fst (m w)), snd (m w)) /\ mine (fst (m w)).
  Lemma st_bind {A B} (m : WM A) (k : A -> WM B) : same_there m -> (forall a, same_there (k a)) -> same_there (wbind m k).
  Proof.
    intros H K w M. destruct (H w M) as [E M1]. unfold wbind. rewrite E. destruct (m w) as [w1 [a|e]]; cbn in *; [exact (K a w1 M1)|auto].
  Qed.
  Lemma st_ret {A} (a : A) : same_there (wret a).
  Proof. intros w M. auto. Qed.
  Lemma st_lift {A} (r : res A) : same_there (wlift r).
  Proof. intros w M. auto. Qed.
  Lemma st_alloc v : same_there (alloc v).
  Proof. intros w M. auto. Qed.
  Lemma st_write a v : same_there (write a v).
  Proof. intros w M. auto. Qed.
  Lemma st_obj {B} (k : obj -> WM B) : (forall o, o_params o = p -> same_there (k o)) -> same_there (wbind (get_obj i) k).
  Proof.
    intros K w M. pose proof M as (o & q & O & P & _). unfold wbind, get_obj. cbn [extend w_objs]. rewrite nth_before by exact (nth_some_lt _ _ _ O). rewrite O. exact (K o P w M).
  Qed.
  Lemma st_look : same_there (look i).
  Proof.
    intros w M. pose proof M as (o & q & O & P & Q & _). unfold look. rewrite (contents_view _ _ _ O). assert (O' : nth_error (w_objs (extend w)) i = Some o) by (cbn; rewrite nth_before by exact (nth_some_lt _ _ _ O); exact O).
    rewrite (contents_view _ _ _ O'). cbn [fst snd]. split; [|exact M]. f_equal. f_equal. apply view_frame; [reflexivity|]. cbn [extend w_params]. rewrite P. exact (nth_before _ _ _ (nth_some_lt _ _ _ Q)).
  Qed.
  Lemma st_handle : same_there (get_handle p).
  Proof. intros w M. pose proof M as (o & q & O & P & Q & _). unfold get_handle. cbn [extend w_params]. rewrite nth_before by exact (nth_some_lt _ _ _ Q). rewrite Q. auto. Qed.
  Lemma replace_before {A} (l : list A) n v t : (n < length l)%nat -> replace n v (l ++ t) = replace n v l ++ t.
  Proof. revert n. induction l as [|a l IH]; intros [|n] L; cbn in *; try lia; auto. f_equal. apply IH. lia. Qed.
  Lemma st_assign f : (forall o, o_params (f o) = o_params o) -> same_there (assign i f).
  Proof.
    intros F w M. pose proof M as (o & q & O & P & Q & S). unfold assign. cbn [extend w_objs]. rewrite nth_before by exact (nth_some_lt _ _ _ O). rewrite O. cbn [fst snd]. split.
    - unfold extend. cbn. now rewrite replace_before by exact (nth_some_lt _ _ _ O).
    - exists (f o), q. cbn. rewrite nth_replace_eq by exact (nth_some_lt _ _ _ O). rewrite F. auto.
  Qed.
  Lemma st_dict d : same_there (set_dict p d).
  Proof.
    intros w M. pose proof M as (o & q & O & P & Q & S). unfold set_dict. cbn [extend w_params]. rewrite nth_before by exact (nth_some_lt _ _ _ Q). rewrite Q. cbn [fst snd]. split.
    - unfold extend. cbn. now rewrite replace_before by exact (nth_some_lt _ _ _ Q).
    - exists o, (mkHandle d (p_source q)). cbn. rewrite nth_replace_eq by exact (nth_some_lt _ _ _ Q). auto.
  Qed.
  Lemma st_set_sc x : same_there (w_set_sc x i).
  Proof. unfold w_set_sc. apply st_bind; [apply st_look|]. intros s. destruct (s_interpolate_sc s); [apply st_bind; [apply st_lift|]; intros c|]; now apply st_assign. Qed.
  Lemma st_re x : same_there (w_re_interpolate x p).
  Proof.
    intros w M. pose proof M as (o & q & O & P & Q & S). unfold w_re_interpolate, wbind. destruct (st_handle w M) as [E _]. rewrite E. unfold get_handle. rewrite Q. cbn [fst snd]. rewrite S. exact (st_set_sc x w M).
  Qed.
  Lemma st_update x new : same_there (w_update x p new).
  Proof. unfold w_update. apply st_bind; [apply st_lift|]. intros _. apply st_bind; [apply st_handle|]. intros q. cbn zeta. apply st_bind; [apply st_dict|]. intros _. destruct (existsb _ _); [apply st_re|apply st_ret]. Qed.
  Lemma st_harmonics insp v : same_there (w_store_harmonics i insp v).
  Proof.
    unfold w_store_harmonics. apply st_bind; [apply st_look|]. intros s. apply st_obj. intros o Ho. apply st_bind; [|intros m w M; exact (st_write _ _ w M)].
    destruct (o_max_snr_harmonic o); [apply st_ret|]. apply st_bind; [apply st_alloc|]. intros m. apply st_bind; [now apply st_assign|]. intros _. apply st_ret.
  Qed.
  Lemma st_snr insp v : same_there (w_store_snr i insp v).
  Proof.
    unfold w_store_snr. apply st_bind; [apply st_look|]. intros s. apply st_obj. intros o Ho. apply st_bind; [|intros m w M; exact (st_write _ _ w M)].
    destruct (o_snr o); [apply st_ret|]. apply st_bind; [apply st_alloc|]. intros m. apply st_bind; [now apply st_assign|]. intros _. apply st_ret.
  Qed.
  Lemma st_method x values a which : same_there (w_snr_method x values a which i).
  Proof.
    unfold w_snr_method. apply st_bind; [apply st_look|]. intros s. cbn zeta. apply st_obj. intros o Ho. rewrite Ho. apply st_bind; [apply st_update|]. intros _. apply st_bind; [apply st_look|]. intros s1.
    apply st_bind; [apply st_lift|]. intros insp. apply st_bind; [apply st_lift|]. intros v. apply st_bind; [|intros _; apply st_lift]. unfold w_record_snr. apply st_bind; [apply st_harmonics|]. intros _. apply st_snr.
  Qed.
  Lemma st_fresh m : same_there m -> same_there (fresh_array m).
  Proof. intros H. unfold fresh_array. apply st_bind; [exact H|]. intros v. apply st_bind; [apply st_alloc|]. intros b. apply st_ret. Qed.
  Lemma st_stationary x a which : same_there (w_step x (Do i (SnrStationary a which))).
  Proof. exact (st_fresh _ (st_method x (stationary_values x) a which)). Qed.
End Extend.
Definition with_weights (i : init_args) (wt : pyval num unit) : init_args :=
  mkInit (i_m_1 i) (i_m_2 i) (i_ecc i) (i_dist i) (i_n_proc i) (i_f_orb i) (i_a i) (i_position i) (i_polarisation i) (i_inclination i) wt (i_gw_lum_tol i) (i_stat_tol i)
         (i_interpolate_g i) (i_interpolate_sc i) (i_sc_params i).
Lemma weighted_init l : exists s, init x_toy KSource (with_weights two_args (PArr l)) = Ok s.
Proof.
  eexists. unfold init, with_weights, two_args, toy_args. cbn [i_f_orb i_a i_position i_inclination i_polarisation py_exists negb andb rbind].
  cbn [i_m_1 i_m_2 i_ecc i_dist i_weights i_sc_params i_gw_lum_tol i_interpolate_g i_interpolate_sc i_stat_tol i_n_proc forallb py_has_units negb andb].
  cbn [ensure_array ensure_array_one py_exists py_has_units py_is_array negb andb fst len_of rbind list_of existsb].
  rewrite !map_length, !Nat.eqb_refl. cbn [negb orb].
  unfold assign_gw_lum_tol. unfold mbind at 1. cbn [s_harm x_jv x_lum x_toy]. rewrite toy_h_ok. cbv beta iota.
  unfold mbind at 1. rewrite assign_cases. change (make_params (custom_params 0)) with (Ok (custom_params 0)). cbv beta iota zeta. reflexivity.
Qed.
Definition weighted_args (b : addr) : new_args :=
  let g := by_value two_args in
  mkNew (n_m_1 g) (n_m_2 g) (n_ecc g) (n_dist g) (n_n_proc g) (n_f_orb g) (n_a g) (n_position g) (n_polarisation g) (n_inclination g) (At false b)
        (n_gw_lum_tol g) (n_stat_tol g) (n_interpolate_g g) (n_interpolate_sc g) (n_sc_params g).
Lemma grow_inv t : forall w, inv w -> inv (mkWorld (w_heap w ++ t) (w_objs w) (w_params w)) /\ forall i, contents (mkWorld (w_heap w ++ t) (w_objs w) (w_params w)) i = contents w i.
Proof.
  intros w I. assert (F : forall i, contents (mkWorld (w_heap w ++ t) (w_objs w) (w_params w)) i = contents w i).
  { intros i. unfold contents. cbn [w_objs]. destruct (nth_error (w_objs w) i) as [o|] eqn:O; [|reflexivity]. cbn [option_map]. f_equal. apply view_frame; [|reflexivity]. intros a Ha. cbn [w_heap].
    apply nth_before. exact (wf_valid _ _ (inv_wf _ I _ _ O) a Ha). }
  split; [|exact F]. revert w I F. induction t as [|v t IH]; intros w I F; [rewrite app_nil_r; now destruct w|].
  pose proof (ok_alloc 0 w v I) as K. pose proof (ok_inv _ _ _ I K) as I1. destruct w as [h os ps]. cbn [w_heap w_objs w_params] in *.
  specialize (IH _ I1). cbn [w_heap w_objs w_params] in IH. rewrite <- app_assoc in IH. cbn [app] in IH. apply IH. intros i. rewrite F. symmetry.
  unfold contents. cbn [w_objs]. destruct (nth_error os i) as [o|] eqn:O; [|reflexivity]. cbn [option_map]. f_equal. apply view_frame; [|reflexivity]. intros a Ha. cbn [w_heap].
  apply nth_before. exact (wf_valid _ _ (inv_wf _ I _ _ O) a Ha).
Qed.

Lemma mine_of i b w : inv w -> snr_at i b w -> exists p, mine i p w.
Proof. intros I (o & O & _). destruct (inv_own _ I _ _ O) as (q & Q & S). exists (o_params o), o, q. auto. Qed.
Section Weighted.
  Variables (a4 : snr_args) (m4 : option (list bool)).
  Let op4 := Do 0 (SnrStationary a4 m4).
  Lemma weighted_step w b : inv w -> snr_at 0 b w -> (b < length (w_heap w))%nat -> exists j s s', j <> 0%nat /\
    let e := New KSource (weighted_args b) in let w1 := fst (w_step x_toy e w) in
    snd (w_step x_toy e w) = Ok (Collection j) /\ contents w1 j = Some s /\ s_weights s = Some (nums (w_heap w) b) /\
    contents (fst (w_step x_toy op4 w1)) j = Some s' /\ s_weights s' = Some (nums (w_heap (fst (w_step x_toy op4 w))) b).
  Proof.
    intros I3 B3 Lb. pose proof B3 as (o0 & O0 & Bo). assert (J : length (w_objs w) <> 0%nat) by (pose proof (nth_some_lt _ _ _ O0); lia).
    destruct (new_valid x_toy KSource (weighted_args b) w) as [(w1 & o & s & E & W & N)|(e & E & _)].
    { intros a [<-|[]]. exact Lb. }
    2:{ destruct (weighted_init (nums (w_heap w) b)) as [s Hs]. change (read_args (w_heap w) (weighted_args b)) with (with_weights two_args (PArr (nums (w_heap w) b))) in E. congruence. }
    remember (length (w_objs w)) as j eqn:Ej.
    assert (E1 : w_step x_toy (New KSource (weighted_args b)) w = (w1, Ok (Collection j))) by (cbn [w_step]; unfold wbind; rewrite W; reflexivity).
    destruct (kept_thm x_toy w KSource (weighted_args b) w1 j Weights b E1 eq_refl) as [(o' & O' & A') _]. cbn [array_of] in A'.
    assert (o = o') by (rewrite Ej in O'; exact (objs_last w w1 o o' (ns_objs _ _ _ _ _ N) O')). subst o'.
    pose proof (ns_heap _ _ _ _ _ N) as [t T]. destruct (grow_inv t w I3) as [I2 F2].
    remember (mkWorld (w_heap w ++ t) (w_objs w) (w_params w)) as w2 eqn:E2. remember (mkHandle (s_params s) (Some j)) as q eqn:Eq.
    assert (X : w1 = extend o q w2).
    { destruct w1 as [h1 os1 ps1]. pose proof (ns_objs _ _ _ _ _ N) as HO. pose proof (ns_params _ _ _ _ _ N) as HP. cbn [w_heap w_objs w_params] in *. rewrite E2. unfold extend. cbn. rewrite <- Ej in HP. rewrite T, HO, HP, Eq. reflexivity. }
    assert (O2 : w_objs w2 = w_objs w) by (rewrite E2; reflexivity). assert (B2 : snr_at 0 b w2) by (exists o0; rewrite O2; auto).
    destruct (mine_of 0 b w2 I2 B2) as (p & Mn). destruct (st_stationary 0 p o q x_toy a4 m4 w2 Mn) as [ST _]. fold op4 in ST.
    assert (C3 := contents_view w 0 o0 O0). assert (C2 : contents w2 0 = Some (view w o0)) by (rewrite F2; exact C3).
    pose proof (overwritten_inv x_toy w 0 b (SnrStationary a4 m4) _ I3 B3 Logic.I C3) as V3. pose proof (overwritten_inv x_toy w2 0 b (SnrStationary a4 m4) _ I2 B2 Logic.I C2) as V2.
    fold op4 in V3, V2. rewrite V3 in V2. apply some_inj in V2.
    assert (L2 : length (w_objs (fst (w_step x_toy op4 w2))) = j).
    { rewrite (ok_count _ _ _ (proj1 (do_spec x_toy 0 (SnrStationary a4 m4) w2 I2) : okstep 0 w2 (fst (w_step x_toy op4 w2)))), O2. congruence. }
    exists j, (view w1 o), (view (extend o q (fst (w_step x_toy op4 w2))) o). split; [exact J|]. cbn zeta. rewrite E1. cbn [fst snd].
    split; [reflexivity|]. split; [exact (contents_view _ _ _ O')|]. split; [cbn; rewrite A'; cbn; f_equal; rewrite T; unfold nums; rewrite nth_before by exact Lb; reflexivity|].
    rewrite X, ST. cbn [fst]. split; [unfold contents; cbn [extend w_objs]; rewrite <- L2, nth_last; reflexivity|]. cbn [s_weights view]. rewrite A'. cbn [option_map extend w_heap]. now rewrite V2.
  Qed.
End Weighted.
Lemma weighted_world : exists w b j s s' l l' y, reached x_toy w /\ j <> 0%nat /\
  let e := New KSource (weighted_args b) in let w1 := fst (w_step x_toy e w) in
  snr_array w 0 b /\ snd (w_step x_toy e w) = Ok (Collection j) /\ contents w1 j = Some s /\ s_weights s = Some l /\ nth_error l 1 = Some (Fin 0) /\
  contents (fst (w_step x_toy (Do 0 (SnrStationary no_args None)) w1)) j = Some s' /\ s_weights s' = Some l' /\ nth_error l' 1 = Some (Fin y) /\ 0 < y.
Proof.
  destruct rewritten_world as (b & y & _ & B3 & I3 & R3 & _ & Z3 & Y & Yp). revert B3 I3 R3 Z3 Y. generalize (w_run x_toy [Do 0 (Assign (custom_params 0)); Do 0 SetSc] (fst (w_step x_toy (Do 0 (Snr no_args 1 first_only)) two_world))). intros w B3 I3 R3 Z3 Y.
  assert (Lb : (b < length (w_heap w))%nat).
  { unfold nums in Z3. destruct (nth_error (w_heap w) b) as [v|] eqn:N; [exact (nth_some_lt _ _ _ N)|discriminate]. }
  destruct (weighted_step no_args None w b I3 B3 Lb) as (j & s & s' & J & E1 & C1 & W1 & C2 & W2).
  exists w, b, j, s, s'. eexists _, _, y. split; [exact R3|]. split; [exact J|]. cbn zeta. split; [destruct B3 as (o & O & B); exists o; auto|]. split; [exact E1|]. split; [exact C1|]. split; [exact W1|]. split; [exact Z3|].
  split; [exact C2|]. split; [exact W2|]. split; [exact Y|exact Yp].
Qed.

(** ** Shared data *)
Lemma new_world_of xs : (forall r, In r xs -> r_merged r = false) -> exists w, reached x_toy w /\ contents w 0 = Some (toy_of xs).
Proof.
  intros H. assert (HI := toy_of_init xs H). set (g := toy_args _ _ _ _ _ _ _) in HI. exists (fst (w_step x_toy (New KSource (by_value g)) empty_world)). split; [apply reached_step; [apply reached_empty|apply by_value_fair]|].
  destruct (new_spec x_toy KSource (by_value g) empty_world (by_value_fair _ KSource g)) as [(w' & o & s & E & W & N)|(e & E & _)]; rewrite read_by_value, HI in E; [|discriminate]. injection E as <-.
  cbn [w_step]. unfold wbind. rewrite W. cbn [fst wret]. exact (new_contents _ _ _ _ _ N).
Qed.
Lemma evolved_world : exists w te w' j a, reached x_toy w /\ w_step x_toy (EvolveNew 0 te) w = (w', Ok (Collection j)) /\ inherited M1 /\ attr_array w 0 M1 a.
Proof.
  set (xs := [b1]). destruct (new_world_of xs ltac:(intros r [<-|[]]; reflexivity)) as (w & R & C).
  destruct (whole_merges x_toy (toy_of xs) b1 eq_refl eq_refl b1_whole) as (tm & Tp & B & _).
  destruct (twin_thm x_toy (TScalar (Fin tm)) (toy_of xs) xs (fun _ => tm) (fun _ => tm)) as (s0 & new & s' & E & _).
  - apply toy_collection.
  - intros r [<-|[]] _. exists 0. split; [reflexivity|lra].
  - intros [|i] r Hr; [injection Hr as <-; exact B|destruct i; discriminate].
  - split; [reflexivity|]. intros u [<-|[]]. reflexivity.
  - apply toy_own.
  - reflexivity.
  - intros H. now elim H.
  - destruct (contents_obj _ _ _ C) as (o & O & V). destruct (evolve_new_spec x_toy (TScalar (Fin tm)) 0 w o (reached_inv _ _ R) O) as (w1 & o1 & K & O1 & [(w' & on & new' & E1 & E2 & N)|(e & E1 & E2)]); rewrite V, E in E1; [|discriminate].
    exists w, (TScalar (Fin tm)), w', (length (w_objs w)), (o_m_1 o). split; [exact R|]. split; [cbn [w_step]; unfold wbind; rewrite E2; reflexivity|]. split; [exact Logic.I|]. exists o. auto.
Qed.
(** Masses in the user's array. *)
Definition users_masses : list num := map r_m1 [b1; b2].
Definition masses_args : new_args :=
  let g := by_value two_args in
  mkNew (At true 0%nat) (n_m_2 g) (n_ecc g) (n_dist g) (n_n_proc g) (n_f_orb g) (n_a g) (n_position g) (n_polarisation g) (n_inclination g) (n_weights g)
        (n_gw_lum_tol g) (n_stat_tol g) (n_interpolate_g g) (n_interpolate_sc g) (n_sc_params g).
Definition masses_world : world := fst (w_step x_toy (UserArray users_masses) empty_world).
Lemma masses_new : reached x_toy masses_world /\ users_own masses_world 0%nat /\ fair masses_world (New KSource masses_args) /\ exists w', w_step x_toy (New KSource masses_args) masses_world = (w', Ok (Collection 0)) /\
  passed masses_args M1 = Some 0%nat /\ nth_error (w_heap w') 0 = Some (ANum users_masses).
Proof.
  assert (U : users_own masses_world 0%nat) by (split; [cbn; lia|]; intros i (o & O & _); destruct i; discriminate).
  assert (F : fair masses_world (New KSource masses_args)) by (intros a [<-|[]]; exact U).
  split; [apply reached_step; [apply reached_empty|intros a []]|]. split; [exact U|]. split; [exact F|].
  assert (HI := toy_of_init [b1; b2] ltac:(intros r [<-|[<-|[]]]; reflexivity)). fold two_args in HI.
  destruct (new_spec x_toy KSource masses_args masses_world F) as [(w' & o & s & E & W & N)|(e & E & _)].
  - exists w'. split; [cbn [w_step]; unfold wbind; rewrite W; reflexivity|]. split; [reflexivity|]. rewrite (proj2 (new_users _ _ _ _ _ 0%nat N U)). reflexivity.
  - change (read_args (w_heap masses_world) masses_args) with two_args in E. congruence.
Qed.
Lemma run_three x a b c w : fst (w_step x c (w_run x [a; b] w)) = w_run x [a; b; c] w.
Proof. reflexivity. Qed.
Lemma returned_rewritten : exists x w b y, reached x w /\ snd (w_step x (Do 0 (Snr no_args 1 (Some [true; false]))) w) = Ok (Array b) /\
  let w1 := fst (w_step x (Do 0 (Snr no_args 1 (Some [true; false]))) w) in
  let w2 := w_run x [Do 0 (Assign (custom_params 0)); Do 0 SetSc; Do 0 (SnrStationary no_args None)] w1 in
  nth_error (nums (w_heap w1) b) 1 = Some (Fin 0) /\ nth_error (nums (w_heap w2) b) 1 = Some (Fin y) /\ (0 < y)%R.
Proof.
  destruct rewritten_world as (b & y & E & _ & _ & _ & Z & _ & Y & Yp). rewrite run_three in Y. exists x_toy, two_world, b, y. split; [exact two_reached|]. unfold first_only in *. split; [exact E|]. cbn zeta. split; [exact Z|]. split; [exact Y|exact Yp].
Qed.
Lemma returned_somewhere : exists b s, reached x_toy two_world /\ snd (w_step x_toy (Do 0 (Snr no_args 1 (Some [true; false]))) two_world) = Ok (Array b) /\
  writes_in_place (SnrStationary no_args None) /\ contents (fst (w_step x_toy (Do 0 (Snr no_args 1 (Some [true; false]))) two_world)) 0 = Some s.
Proof.
  destruct rewritten_world as (b & y & E & _). unfold first_only in E. destruct (refines_thm x_toy two_world 0 (Snr no_args 1 (Some [true; false])) _ two_reached two_contents) as (C & _).
  exists b, (fst (step x_toy (Snr no_args 1 (Some [true; false])) (toy_of [b1; b2]))). split; [exact two_reached|]. split; [exact E|]. split; [exact Logic.I|exact C].
Qed.
Lemma copied_somewhere : reached x_toy two_world /\ contents two_world 0 = Some (toy_of [b1; b2]) /\
  (exists new, getitem (IMask [true; true]) (toy_of [b1; b2]) = Ok new) /\
  let es := [Get 0 (IMask [true; true]); Do 1 (Snr no_args 1 None); Do 1 (SetItem "t_obs" (PVal (Fin 1))); Do 0 (SnrStationary no_args None)] in
  all_fair x_toy es two_world /\ all_elsewhere x_toy es two_world 0 /\ ops_on 0 es = [SnrStationary no_args None].
Proof.
  split; [exact two_reached|]. split; [exact two_contents|]. split; [eexists; reflexivity|]. cbn zeta. split; [|split; [|reflexivity]].
  - cbn [all_fair]. do 4 (split; [intros c []|]). exact Logic.I.
  - cbn [all_elsewhere]. assert (NW : forall e, (forall a k c, e <> UserWrite a k c) -> no_write e) by (intros e H a (k & c & E); exact (H a k c E)).
    split; [right; split; [apply NW; discriminate|discriminate]|]. split; [right; split; [apply NW; discriminate|discriminate]|]. split; [right; split; [apply NW; discriminate|discriminate]|]. split; [left; eexists; reflexivity|exact Logic.I].
Qed.

(** The parameters of the first collection, kept in a variable. *)
Lemma params_somewhere : exists p q, reached x_toy two_world /\ nth_error (w_params two_world) p = Some q /\ p_source q = Some 0%nat /\
  (exists s, contents two_world 0 = Some s) /\ check_keys ["L"%string] = Ok tt /\ peqb (get_or_none "L" (p_dict q)) PNil = false.
Proof.
  pose proof (reached_inv _ _ two_reached) as I. pose proof two_contents as C. pose proof two_reached as R. generalize dependent two_world. intros w I C R.
  assert (HO : exists o, nth_error (w_objs w) 0%nat = Some o) by (unfold contents in C; destruct (nth_error (w_objs w) 0%nat) as [o|]; [eauto|cbn in C; exfalso; congruence]).
  destruct HO as [o O]. unfold contents in C. rewrite O in C.
  destruct (inv_own _ I _ _ O) as (q & Q & S). exists (o_params o), q. split; [exact R|]. split; [exact Q|]. split; [exact S|].
  split; [unfold contents; rewrite O; eexists; reflexivity|]. split; [reflexivity|].
  assert (D : p_dict q = s_params (toy_of [b1; b2])).
  { change (option_map (view w) (Some o)) with (Some (view w o)) in C. apply some_inj in C. rewrite <- C. cbn [view s_params]. unfold dict_at. now rewrite Q. }
  rewrite D. reflexivity.
Qed.
