(** SourceThms.v -- C46-C49, C68, C69: theorem-level statements about the methods of a Source. *)
From Coq Require Import String Reals ZArith List Bool Lra Lia.
From Verif Require Import Num NumFacts Np NpFacts Utils Spec UtilsFacts Strain Evol EvolSpec EvolFacts MergeFacts ArrEvolFacts StrainSpec StrainFacts Psd PsdSpec
  Snr SnrSpec SnrFacts SnrThms2 Interp Harmonics ScParams Source Index SourceSpec History CurveSpec CurveFacts CurveThms SourceFacts MethodSpec MethodFacts MethodThms.
Import ListNotations.
Open Scope R_scope.

Lemma combine_nth' {A B} (l : list A) (l' : list B) i a b : nth_error l i = Some a -> nth_error l' i = Some b -> nth_error (combine l l') i = Some (a, b).
Proof. revert l' i. induction l; intros [|y l'] [|i]; cbn; try discriminate; [congruence|auto]. Qed.
Lemma mask_rows which s xs : collection s xs -> fits which (length xs) -> exists ys : list (row * bool),
  map fst ys = xs /\ which_or_all which s = map snd ys /\ map fst (filter snd ys) = chosen which xs /\
  forall i r, nth_error xs i = Some r -> nth_error ys i = Some (r, selected which i).
Proof.
  intros C F. destruct which as [w|]; cbn in F.
  - exists (combine xs w). split; [now apply combine_fst|]. split; [symmetry; now apply combine_snd|]. split; [reflexivity|].
    intros i r H. apply combine_nth'; auto. cbn. apply nth_error_nth'. rewrite F. apply nth_error_Some. congruence.
  - exists (map (fun r => (r, true)) xs). split; [rewrite map_map; apply map_id|]. split; [|split].
    + cbn. rewrite (n_sources_map _ _ C), map_map. apply np_repeat_map.
    + cbn. rewrite filter_all; [rewrite map_map; apply map_id|]. intros y Hy. apply in_map_iff in Hy. now destruct Hy as (r & <- & _).
    + intros i r H. cbn. now apply (map_nth_error (fun r => (r, true))).
Qed.
Lemma stored_old s xs i r : collection s xs -> nth_error xs i = Some r -> stored (Fin 0) (s_snr s) i (old_snr s r) /\ stored 0%Z (s_max_snr_harmonic s) i (old_msh s r).
Proof.
  intros C H. unfold stored, old_snr, old_msh. split.
  - destruct (col_snr _ _ C) as [->| ->]; auto. now apply map_nth_error.
  - destruct (col_msh _ _ C) as [->| ->]; auto. now apply map_nth_error.
Qed.
Lemma after_same s v m s' : after s v m s' -> same_sources s s' /\ s_snr s' = Some v /\ s_max_snr_harmonic s' = m.
Proof. intros (sc & d & ->). cbn. repeat split. Qed.

(** ** C46 *)
Lemma src_val_spec x s xs a t n sc kw p tol r : computable x s xs a t n -> noise_curve (x_psd x) kw sc t p -> h_ecc_tol (s_harm s) = Some (Fin tol) -> In r xs ->
  source_snr x s sc kw t n r (src_val x s t p (Fin tol) n r) (src_msh x s t p (Fin tol) n r).
Proof.
  intros HC P T Hr. destruct (ok_ecc _ _ _ _ _ _ HC r Hr) as (e & E & E01 & H). unfold src_val, src_msh. pose proof (stat_of_spec s t r) as S.
  destruct (stat_of s t r).
  - apply by_stationary; auto. now apply (st_val_spec x s sc t p tol kw r e).
  - apply by_evolving; auto. apply (ev_val_spec x s sc t p tol kw n r e); auto; apply HC.
Qed.
Lemma snr_thm x s xs a t n which : computable x s xs a t n -> s_class s = KSource \/ s_class s = KVerification -> fits which (length xs) ->
  exists s' v sc kw, get_snr x a n which s = (s', Ok v) /\ length v = length xs /\ s_snr s' = Some v /\ same_sources s s' /\
    curve_in_use x s (used a s) sc /\ kw_of x (params_of (used a s)) = Ok kw /\
    forall i r, nth_error xs i = Some r -> exists vi, nth_error v i = Some vi /\
      if selected which i && negb (r_merged r)
      then exists h, source_snr x s sc kw t n r vi h /\ stored 0%Z (s_max_snr_harmonic s') i h
      else vi = Fin 0 /\ exists h, stored 0%Z (s_max_snr_harmonic s) i h /\ stored 0%Z (s_max_snr_harmonic s') i h.
Proof.
  intros HC Hk F. destruct (mask_rows which s xs (ok_rows _ _ _ _ _ _ HC) F) as (ys & Hys & W & _ & Sel). subst xs.
  destruct (settings fst x a n s ys t HC) as (sc & kw & p & tol & CU & K & P & T & U).
  destruct (source_run fst x a n s ys t HC sc kw p tol K P T U which snd W) as (s' & v & m & E & A & V & M).
  destruct (after_same _ _ _ _ A) as (SS & SV & SM).
  exists s', v, sc, kw. split.
  { unfold get_snr. rewrite mbind_self. destruct Hk as [-> | ->]; exact E. }
  split; [rewrite V, !map_length; reflexivity|]. split; auto. split; auto. split; auto. split; auto. intros i r Hi.
  pose proof (Sel i r Hi) as Hy. rewrite V. set (val := fun y : row * bool => if snd y && negb (r_merged (fst y)) then src_val x s t p (Fin tol) n (fst y) else Fin 0).
  exists (val (r, selected which i)). split; [now apply (map_nth_error val)|]. unfold val. cbn [fst snd].
  pose proof (nth_error_In _ _ Hi) as Hin. destruct (stored_old s _ i r (ok_rows _ _ _ _ _ _ HC) Hi) as [_ SO].
  destruct (selected which i && negb (r_merged r)) eqn:Q.
  - exists (src_msh x s t p (Fin tol) n r). split; [eapply src_val_spec; eauto|]. rewrite SM. destruct M as [->|[-> N]].
    + cbn. set (f := fun y : row * bool => if snd y && negb (r_merged (fst y)) then src_msh x s t p (Fin tol) n (fst y) else old_msh s (fst y)).
      assert (B : nth_error (map f ys) i = Some (f (r, selected which i))) by now apply map_nth_error. fold f. rewrite B. unfold f. cbn [fst snd]. now rewrite Q.
    + exfalso. specialize (N _ (nth_error_In _ _ Hy)). cbn [fst snd] in N. congruence.
  - split; auto. exists (old_msh s r). split; auto. rewrite SM. destruct M as [->|[-> N]]; auto. cbn.
    set (f := fun y : row * bool => if snd y && negb (r_merged (fst y)) then src_msh x s t p (Fin tol) n (fst y) else old_msh s (fst y)).
    assert (B : nth_error (map f ys) i = Some (f (r, selected which i))) by now apply map_nth_error. fold f. rewrite B. unfold f. cbn [fst snd]. now rewrite Q.
Qed.
Lemma nle_ngt e tol : nle e tol = true -> ngt e tol = true -> False.
Proof.
  unfold ngt. destruct e, tol; try (cbn; discriminate). intros A B. apply nle_fin in A. apply nlt_fin in B. lra.
Qed.
Lemma class_unique s r : is_circular s r -> is_eccentric s r -> False.
Proof. intros (a & A & B) (b & C & D). assert (a = b) by congruence. subst b. exact (nle_ngt _ _ B D). Qed.
Lemma group_unique hr u v : harmonic_group hr u -> harmonic_group hr v -> u = v.
Proof. intros A B. apply group_of_spec in A, B. congruence. Qed.
Lemma stationary_unique x s sc kw t r v h v' h' : stationary_snr x s sc kw t r v h -> stationary_snr x s sc kw t r v' h' -> v = v' /\ h = h'.
Proof.
  intros A B. inversion A as [A1 A2|u0 h0 A1 A2 A3]; subst; inversion B as [B1 B2|u1 h1 B1 B2 B3]; subst; try (exfalso; eauto using class_unique; fail).
  - rewrite A2 in B2. injection B2 as ->. auto.
  - rewrite <- (group_unique _ _ _ A2 B2) in B3. rewrite A3 in B3. injection B3 as -> ->. auto.
Qed.
Lemma evolving_unique x s sc kw t n r v h v' h' : evolving_snr x s sc kw t n r v h -> evolving_snr x s sc kw t n r v' h' -> v = v' /\ h = h'.
Proof.
  intros A B. inversion A as [A1 A2|u0 h0 A1 A2 A3]; subst; inversion B as [B1 B2|u1 h1 B1 B2 B3]; subst; try (exfalso; eauto using class_unique; fail).
  - rewrite A2 in B2. injection B2 as ->. auto.
  - rewrite <- (group_unique _ _ _ A2 B2) in B3. rewrite A3 in B3. injection B3 as -> ->. auto.
Qed.
Lemma snr_unique x s sc kw t n r v h v' h' : source_snr x s sc kw t n r v h -> source_snr x s sc kw t n r v' h' -> v = v' /\ h = h'.
Proof.
  intros [A1 A2|A1 A2] [B1 B2|B1 B2]; try (unfold is_stationary in *; congruence); eauto using stationary_unique, evolving_unique.
Qed.

(** ** C48, C49: get_snr_stationary and get_snr_evolving *)
Lemma Forall2_map_l {A B} (R : A -> B -> Prop) (f : A -> B) l : (forall y, In y l -> R y (f y)) -> Forall2 R l (map f l).
Proof. induction l; cbn; constructor; auto. Qed.
Lemma method_result_ok s ys which (spec : row -> num -> Z -> Prop) vf hf s1 sc d : collection s (map fst ys) -> map fst (filter snd ys) = chosen which (map fst ys) ->
  (forall i r, nth_error (map fst ys) i = Some r -> nth_error ys i = Some (r, selected which i)) ->
  (forall r, In r (map fst ys) -> spec r (vf r) (hf r)) ->
  s1 = set_snr (Some (map (fun y : row * bool => if snd y && negb (r_merged (fst y)) then vf (fst y) else old_snr s (fst y)) ys))
         (set_max_snr_harmonic (Some (map (fun y : row * bool => if snd y && negb (r_merged (fst y)) then hf (fst y) else old_msh s (fst y)) ys)) (set_curve (s_interpolate_sc s) sc d s)) ->
  method_result s (map fst ys) which spec s1 (map (fun y : row * bool => if r_merged (fst y) then Fin 0 else vf (fst y)) (filter snd ys)).
Proof.
  intros C CH Sel Sp ->. split; [|split].
  - rewrite <- CH. rewrite <- (map_map fst (fun r => if r_merged r then Fin 0 else vf r)). apply Forall2_map_l. intros r Hr.
    apply in_map_iff in Hr. destruct Hr as (y & <- & Hy). apply filter_In in Hy. destruct Hy as [Hy _]. destruct (r_merged (fst y)); auto.
    exists (hf (fst y)). apply Sp. now apply in_map.
  - cbn. repeat split.
  - intros i r Hi. pose proof (Sel i r Hi) as Hy. pose proof (nth_error_In _ _ Hi) as Hin. destruct (stored_old s _ i r C Hi) as [SO1 SO2]. cbn.
    set (f := fun y : row * bool => if snd y && negb (r_merged (fst y)) then vf (fst y) else old_snr s (fst y)).
    set (h := fun y : row * bool => if snd y && negb (r_merged (fst y)) then hf (fst y) else old_msh s (fst y)).
    exists (f (r, selected which i)), (h (r, selected which i)). split; [now apply map_nth_error|]. split; [now apply map_nth_error|].
    unfold f, h. cbn [fst snd]. destruct (selected which i && negb (r_merged r)); auto.
Qed.
Lemma stationary_thm x s xs a t n which : computable x s xs a t n -> fits which (length xs) ->
  exists s' v sc kw, get_snr_stationary x a which s = (s', Ok v) /\ curve_in_use x s (used a s) sc /\ kw_of x (params_of (used a s)) = Ok kw /\
    method_result s xs which (stationary_snr x s sc kw t) s' v.
Proof.
  intros HC F. destruct (mask_rows which s xs (ok_rows _ _ _ _ _ _ HC) F) as (ys & Hys & W & CH & Sel). subst xs.
  destruct (settings fst x a n s ys t HC) as (sc & kw & p & tol & CU & K & P & T & U).
  pose proof (stationary_run fst x a n s ys t HC sc kw p tol K P T U a which s fst snd (good_s fst x a n s ys t HC)) as E.
  assert (R : related s s) by (repeat split). specialize (E R (ok_rows _ _ _ _ _ _ HC) (fun y => near_refl _) eq_refl W).
  eexists _, _, sc, kw. split; [exact E|]. split; auto. split; auto.
  eapply (method_result_ok s ys which _ (st_val x s t p (Fin tol)) (st_msh x s t p (Fin tol))); eauto using (ok_rows _ _ _ _ _ _ HC).
  intros r Hr. destruct (ok_ecc _ _ _ _ _ _ HC r Hr) as (e & Ee & E01 & H). now apply (st_val_spec x s sc t p tol kw r e).
Qed.
Lemma evolving_thm x s xs a t n which : computable x s xs a t n -> fits which (length xs) ->
  exists s' v sc kw, get_snr_evolving x a n which s = (s', Ok v) /\ curve_in_use x s (used a s) sc /\ kw_of x (params_of (used a s)) = Ok kw /\
    method_result s xs which (evolving_snr x s sc kw t n) s' v.
Proof.
  intros HC F. destruct (mask_rows which s xs (ok_rows _ _ _ _ _ _ HC) F) as (ys & Hys & W & CH & Sel). subst xs.
  destruct (settings fst x a n s ys t HC) as (sc & kw & p & tol & CU & K & P & T & U).
  pose proof (evolving_run fst x a n s ys t HC sc kw p tol K P T U a which s fst snd (good_s fst x a n s ys t HC)) as E.
  assert (R : related s s) by (repeat split). specialize (E R (ok_rows _ _ _ _ _ _ HC) (fun y => near_refl _) eq_refl W).
  eexists _, _, sc, kw. split; [exact E|]. split; auto. split; auto.
  eapply (method_result_ok s ys which _ (ev_val x s t p (Fin tol) n) (ev_msh x s t p (Fin tol) n)); eauto using (ok_rows _ _ _ _ _ _ HC).
  intros r Hr. destruct (ok_ecc _ _ _ _ _ _ HC r Hr) as (e & Ee & E01 & H). apply (ev_val_spec x s sc t p tol kw n r e); auto; apply HC.
Qed.
