(** WorldProofs.v -- histories over several collections (C58, C81, C92). *)
From Coq Require Import String Reals ZArith List Bool Arith Lia.
From Verif Require Import Num NumFacts Np NpFacts Utils Strain Psd Snr Interp Evol Harmonics ScParams Source Index SourceSpec SourceFacts InitSpec InitFacts History World WorldSpec WorldFacts WorldThms WorldSim WorldSteps WorldEvents.
Import ListNotations.
Open Scope nat_scope.
Open Scope world_scope.
Open Scope m_scope.
Open Scope list_scope.

Lemma isolated_thm x w e j : reached x w -> fair w e -> no_write e -> about w e <> Some j -> j < length (w_objs w) -> contents (fst (w_step x e w)) j = contents w j.
Proof. intros R. apply step_frame. exact (reached_inv _ _ R). Qed.
Lemma contents_obj w i s : contents w i = Some s -> exists o, nth_error (w_objs w) i = Some o /\ view w o = s.
Proof. unfold contents. destruct (nth_error (w_objs w) i) as [o|]; [|discriminate]. cbn. intros H. exists o. split; auto. congruence. Qed.
Lemma plain_result (n : M unit) s s' (r : res out) r' : (_ <<- n ;; ret (@None (list num))) s = (s', r') ->
  match r, r' with Ok a, Ok b => a = Nothing /\ b = None | Err e, Err e' => e = e' | _, _ => False end -> r = match snd (n s) with Ok _ => Ok Nothing | Err e => Err e end.
Proof. unfold mbind, ret. destruct (n s) as [s1 [u|e]]; intros H X; injection H as <- <-; destruct r as [r|e']; try contradiction; cbn; [destruct X as [-> _]|]; congruence. Qed.
Lemma array_result (n : M (list num)) s s' w (r : res out) r' (Q : addr -> list num -> Prop) : (forall b l, Q b l -> nth_error (w_heap w) b = Some (ANum l)) -> (v <<- n ;; ret (Some v)) s = (s', r') ->
  match r, r' with Ok a, Ok b => exists c l, a = Array c /\ b = Some l /\ Q c l | Err e, Err e' => e = e' | _, _ => False end -> returns w r (snd (n s)).
Proof.
  intros HQ. unfold mbind, ret. destruct (n s) as [s1 [u|e]]; intros H X; injection H as <- <-; destruct r as [r|e']; try contradiction; cbn; [|exact X].
  destruct X as (c & l & -> & E & X). injection E as <-. exact (HQ _ _ X).
Qed.
Lemma refines_inv x w i o s : inv w -> contents w i = Some s ->
  contents (fst (w_step x (Do i o) w)) i = Some (fst (step x o s)) /\
  (forall v, answer x o s = Some v -> returns (fst (w_step x (Do i o) w)) (snd (w_step x (Do i o) w)) v) /\
  (answer x o s = None -> snd (w_step x (Do i o) w) = match snd (step x o s) with Ok _ => Ok Nothing | Err e => Err e end).
Proof.
  intros I C. destruct (contents_obj w i s C) as (oi & O & V). destruct (good_do x i o (fun _ => True) w oi I O Logic.I) as (w' & r & s' & r' & E1 & E2 & K & C' & X). rewrite V in E2.
  change (w_step x (Do i o) w) with (w_do x i o w). rewrite E1. cbn [fst snd]. split; [rewrite C'; f_equal; rewrite <- n_do_state, E2; reflexivity|].
  destruct o; cbn [answer n_do]; (split; [intros v1 H; try discriminate H|intros H; try discriminate H]); try exact (plain_result _ _ _ _ _ E2 X); injection H as <-.
  - apply (array_result _ _ _ w' r r' (stored i w') (fun b l Q => proj1 Q) E2 X).
  - apply (array_result _ _ _ w' r r' (fun b l => nth_error (w_heap w') b = Some (ANum l) /\ users_own w' b /\ S b = length (w_heap w')) (fun b l Q => proj1 Q) E2 X).
  - apply (array_result _ _ _ w' r r' (fun b l => nth_error (w_heap w') b = Some (ANum l) /\ users_own w' b /\ S b = length (w_heap w')) (fun b l Q => proj1 Q) E2 X).
  - apply (array_result _ _ _ w' r r' (fun b l => nth_error (w_heap w') b = Some (ANum l) /\ users_own w' b /\ S b = length (w_heap w')) (fun b l Q => proj1 Q) E2 X).
Qed.
Lemma refines_thm x w i o s : reached x w -> contents w i = Some s ->
  contents (fst (w_step x (Do i o) w)) i = Some (fst (step x o s)) /\
  (forall v, answer x o s = Some v -> returns (fst (w_step x (Do i o) w)) (snd (w_step x (Do i o) w)) v) /\
  (answer x o s = None -> snd (w_step x (Do i o) w) = match snd (step x o s) with Ok _ => Ok Nothing | Err e => Err e end).
Proof. intros R. apply refines_inv. exact (reached_inv _ _ R). Qed.
Lemma contents_lt w j s : contents w j = Some s -> j < length (w_objs w).
Proof. intros C. destruct (contents_obj _ _ _ C) as (o & O & _). exact (nth_some_lt _ _ _ O). Qed.
Lemma alone_inv x es : forall w j s, inv w -> all_fair x es w -> all_elsewhere x es w j -> contents w j = Some s -> contents (w_run x es w) j = Some (fst (run x (ops_on j es) s)).
Proof.
  induction es as [|e es IH]; intros w j s I F A C; [exact C|]. destruct F as [F Fs], A as [A As]. cbn [w_run]. pose proof (step_inv x e w I F) as I1. destruct A as [[o ->]|[NW Ab]].
  - cbn [ops_on flat_map]. rewrite Nat.eqb_refl. cbn [app run]. pose proof (proj1 (refines_inv x w j o s I C)) as C1. fold (ops_on j es).
    rewrite (IH _ j _ I1 Fs As C1). destruct (step x o s) as [s1 r]. cbn [fst]. destruct (run x (ops_on j es) s1). reflexivity.
  - assert (E : ops_on j (e :: es) = ops_on j es).
    { unfold ops_on. cbn [flat_map]. destruct e; try reflexivity. cbn in Ab. destruct (Nat.eqb_spec i j); [congruence|reflexivity]. }
    rewrite E. apply IH; auto. rewrite (step_frame x e w j I F NW Ab); [exact C|exact (contents_lt _ _ _ C)].
Qed.
Lemma alone_thm x es w j s : reached x w -> all_fair x es w -> all_elsewhere x es w j -> contents w j = Some s -> contents (w_run x es w) j = Some (fst (run x (ops_on j es) s)).
Proof. intros R. apply alone_inv. exact (reached_inv _ _ R). Qed.

(** ** Copies and subsets *)
Lemma holds_every w i a : holds w i a <-> exists o, nth_error (w_objs w) i = Some o /\ In a (every o).
Proof.
  unfold holds, snr_array, data_array. split.
  - intros [(o & O & H)|(o & O & H)]; exists o; (split; [exact O|]); apply in_every; [right; now apply in_muts|left; now apply in_others].
  - intros (o & O & H). apply in_every in H. destruct H as [H|H]; [right; exists o; split; auto; now apply in_others|left; exists o; split; auto; now apply in_muts].
Qed.
Lemma get_thm x w i ind s new : reached x w -> contents w i = Some s -> getitem ind s = Ok new -> exists w', w_step x (Get i ind) w = (w', Ok (Collection (length (w_objs w)))) /\
  contents w' (length (w_objs w)) = Some new /\ (forall j, j < length (w_objs w) -> contents w' j = contents w j) /\ forall j, j < length (w_objs w) -> ~ share w' j (length (w_objs w)).
Proof.
  intros R C G. pose proof (reached_inv _ _ R) as I. destruct (getitem_spec ind i w) as [(w' & o & s0 & new0 & C0 & G0 & E & N)|(e & E & [H|(s0 & C0 & H)])]; try congruence.
  rewrite C in C0. injection C0 as <-. rewrite G in G0. injection G0 as <-. exists w'. split; [cbn [w_step]; unfold wbind; now rewrite E|]. split; [exact (new_contents _ _ _ _ _ N)|].
  split; [intros j J; exact (new_frame _ _ _ _ _ j I N J)|]. intros j J (a & H1 & H2). apply holds_every in H1, H2. destruct H1 as (o1 & O1 & A1), H2 as (o2 & O2 & A2).
  rewrite (ns_objs _ _ _ _ _ N) in O1, O2. rewrite nth_before in O1 by exact J. rewrite nth_last in O2. injection O2 as <-. pose proof (wf_valid _ _ (inv_wf _ I _ _ O1) a A1) as L.
  apply in_every in A2. destruct A2 as [A2|A2]; [|pose proof (ns_muts _ _ _ _ _ N a A2); lia]. destruct (ns_others _ _ _ _ _ N a A2) as [[Gv _]|?]; [|lia].
  unfold given, nothing_shared in Gv. cbn in Gv. decompose [or] Gv; discriminate.
Qed.
(** No method makes two collections share arrays. *)
Definition old_or_new (w w' : world) (o o' : obj) : Prop := forall a, In a (every o') -> In a (every o) \/ length (w_heap w) <= a.
Lemma ok_apart i w w' j : okstep i w w' -> forall oj', nth_error (w_objs w') j = Some oj' -> exists oj, nth_error (w_objs w) j = Some oj /\ (if j =? i then old_or_new w w' oj oj' else oj' = oj).
Proof.
  intros K oj' O'. destruct (Nat.eqb_spec j i) as [->|N].
  - assert (exists o, nth_error (w_objs w) i = Some o) as [o O] by (apply nth_some_lt in O'; rewrite (ok_count _ _ _ K) in O'; apply nth_error_Some in O'; destruct (nth_error (w_objs w) i); [eauto|congruence]).
    exists o. split; auto. destruct (ok_self _ _ _ K o O) as (o' & O1 & _ & M & T & _). rewrite O1 in O'. injection O' as <-. intros a Ha. rewrite in_every in *. destruct Ha as [Ha|Ha]; [destruct (T a Ha)|destruct (M a Ha)]; auto.
  - rewrite (ok_objs _ _ _ K j N) in O'. eauto.
Qed.
Lemma ok_share i w w' j k : inv w -> okstep i w w' -> j <> k -> share w' j k -> share w j k.
Proof.
  intros I K N (a & H1 & H2). apply holds_every in H1, H2. destruct H1 as (o1' & O1' & A1), H2 as (o2' & O2' & A2).
  destruct (ok_apart i w w' j K o1' O1') as (o1 & O1 & X1), (ok_apart i w w' k K o2' O2') as (o2 & O2 & X2).
  assert (L1 : forall b, In b (every o1) -> b < length (w_heap w)) by exact (wf_valid _ _ (inv_wf _ I _ _ O1)). assert (L2 : forall b, In b (every o2) -> b < length (w_heap w)) by exact (wf_valid _ _ (inv_wf _ I _ _ O2)).
  exists a. rewrite !holds_every.
  assert (B1 : In a (every o1) \/ j = i /\ length (w_heap w) <= a) by (destruct (Nat.eqb_spec j i); [destruct (X1 a A1); auto|subst; auto]).
  assert (B2 : In a (every o2) \/ k = i /\ length (w_heap w) <= a) by (destruct (Nat.eqb_spec k i); [destruct (X2 a A2); auto|subst; auto]).
  destruct B1 as [B1|[B1 C1]], B2 as [B2|[B2 C2]]; [split; eauto|specialize (L1 a B1); lia|specialize (L2 a B2); lia|congruence].
Qed.
Lemma new_share h s w w' o j k : newstep h s w w' o -> j < length (w_objs w) -> k < length (w_objs w) -> share w' j k -> share w j k.
Proof.
  intros N J K (a & H1 & H2). exists a. apply holds_every in H1, H2. destruct H1 as (o1 & O1 & A1), H2 as (o2 & O2 & A2). rewrite (ns_objs _ _ _ _ _ N) in O1, O2.
  rewrite nth_before in O1, O2 by assumption. split; apply holds_every; eauto.
Qed.
Lemma plain_share w w' j k : w_objs w' = w_objs w -> share w' j k -> share w j k.
Proof. intros E (a & H1 & H2). exists a. apply holds_every in H1, H2. destruct H1 as (o1 & O1 & A1), H2 as (o2 & O2 & A2). rewrite E in O1, O2. split; apply holds_every; eauto. Qed.
Lemma apart_inv x e w j k : inv w -> handed e = [] -> j <> k -> j < length (w_objs w) -> k < length (w_objs w) -> share (fst (w_step x e w)) j k -> share w j k.
Proof.
  intros I Hh N J K. assert (F : fair w e) by (unfold fair; rewrite Hh; intros a []). destruct e; cbn [w_step].
  - rewrite fst_map. now apply plain_share.
  - rewrite fst_done. destruct (nth_error (w_heap w) a); [now apply plain_share|auto].
  - rewrite fst_map. destruct (new_spec x k0 g w F) as [(w' & o & s & E & E2 & N1)|(e & E & E2)]; rewrite E2; cbn [fst]; [now apply (new_share _ _ _ _ _ j k N1)|auto].
  - rewrite fst_map. destruct (getitem_spec ind i w) as [(w' & o & s & new & C & G & E & N1)|(e & E & _)]; rewrite E; cbn [fst]; [now apply (new_share _ _ _ _ _ j k N1)|auto].
  - rewrite fst_map. destruct (nth_error (w_objs w) i) as [o|] eqn:O.
    + destruct (evolve_new_spec x t i w o I O) as (w1 & o1 & Ks & O1 & R). destruct R as [(w' & on & new & E & E2 & N1)|(e & E & E2)]; rewrite E2; cbn [fst]; [|now apply (ok_share i)].
      intros H. apply (ok_share i w w1 j k I Ks N). apply (new_share _ _ _ _ _ j k N1); auto; now rewrite (ok_count _ _ _ Ks).
    + unfold w_evolve_new, w_ensure_t_merge, look, wbind, contents. rewrite O. auto.
  - exact (ok_share i w _ j k I (proj1 (do_spec x i o w I)) N).
  - discriminate Hh.
  - change (share (fst (w_step x (HandleSet p k0 v) w)) j k -> share w j k). destruct (params_spec x (HandleSet p k0 v) p w I) as [->|(q & Q & H)]; [left; eauto|auto|].
    destruct (p_source q) as [i|]; [exact (ok_share i w _ j k I (proj1 H) N)|exact (ok_share 0 w _ j k I (proj1 (H 0)) N)].
  - change (share (fst (w_step x (HandleUpdate p new) w)) j k -> share w j k). destruct (params_spec x (HandleUpdate p new) p w I) as [->|(q & Q & H)]; [right; eauto|auto|].
    destruct (p_source q) as [i|]; [exact (ok_share i w _ j k I (proj1 H) N)|exact (ok_share 0 w _ j k I (proj1 (H 0)) N)].
  - rewrite fst_map. unfold w_copy_handle, wbind, get_handle. destruct (nth_error (w_params w) p) as [q|]; [|auto]. cbn. now apply plain_share.
Qed.
Lemma apart_thm x e w j k : reached x w -> handed e = [] -> j <> k -> j < length (w_objs w) -> k < length (w_objs w) -> ~ share w j k -> ~ share (fst (w_step x e w)) j k.
Proof. intros R H N J K S Q. apply S. exact (apart_inv x e w j k (reached_inv _ _ R) H N J K Q). Qed.
(** In-place changes of an array show in the collections that hold it, and in no other. *)
Lemma in_place_thm x w a k c j : ~ holds w j a -> contents (fst (w_step x (UserWrite a k c) w)) j = contents w j.
Proof.
  intros H. cbn [w_step]. rewrite fst_done. destruct (nth_error (w_heap w) a) as [v|]; [|reflexivity]. cbn. unfold contents. cbn [w_objs]. destruct (nth_error (w_objs w) j) as [o|] eqn:O; [|reflexivity].
  cbn. f_equal. apply view_frame; [|reflexivity]. intros b Hb. cbn [w_heap]. apply nth_replace_ne. intros ->. apply H. apply holds_every. eauto.
Qed.

(** ** Arrays that were returned (C81) *)
Lemma users_run x es a : forall w, inv w -> all_fair x es w -> (forall e, In e es -> ~ writes e a) -> users_own w a -> nth_error (w_heap (w_run x es w)) a = nth_error (w_heap w) a.
Proof.
  induction es as [|e es IH]; intros w I F NW U; [reflexivity|]. destruct F as [F Fs]. cbn [w_run]. destruct (step_users x e w a I F (NW e (or_introl eq_refl)) U) as [U1 H1].
  rewrite (IH _ (step_inv x e w I F) Fs (fun e' He => NW e' (or_intror He)) U1). exact H1.
Qed.
Lemma returned_thm x w i o b es : reached x w -> match o with SnrStationary _ _ | SnrEvolving _ _ _ | MergerTime _ _ _ => True | _ => False end ->
  snd (w_step x (Do i o) w) = Ok (Array b) -> let w1 := fst (w_step x (Do i o) w) in all_fair x es w1 -> (forall e, In e es -> ~ writes e b) -> nth_error (w_heap (w_run x es w1)) b = nth_error (w_heap w1) b.
Proof.
  intros R Ho Hr w1 F NW. pose proof (reached_inv _ _ R) as I. assert (I1 : inv w1) by (apply step_inv; [exact I|intros a []]). apply users_run; auto.
  unfold w1. change (w_step x (Do i o) w) with (w_do x i o w) in *. destruct (nth_error (w_objs w) i) as [oi|] eqn:O.
  - destruct (good_do x i o (fun _ => True) w oi I O Logic.I) as (w' & r & s' & r' & E1 & E2 & K & C' & X). rewrite E1 in *. cbn [fst snd] in *. subst r. destruct r' as [v|e]; [|contradiction].
    destruct o; try contradiction; destruct X as (b' & l & Eb & _ & _ & U & _); injection Eb as <-; exact U.
  - destruct (do_none x i o w O) as [e E]. rewrite E in Hr. discriminate.
Qed.
(** The user's own arrays. *)
Lemma own_thm x w a es : reached x w -> users_own w a -> all_fair x es w -> (forall e, In e es -> ~ writes e a) -> nth_error (w_heap (w_run x es w)) a = nth_error (w_heap w) a.
Proof. intros R U F NW. apply users_run; auto. exact (reached_inv _ _ R). Qed.
(** The SNR methods write into the array the collection has. *)
Definition snr_at (i : nat) (b : addr) (w : world) : Prop := exists o, nth_error (w_objs w) i = Some o /\ o_snr o = Some b.
Definition pres (Q : world -> Prop) {A} (m : WM A) : Prop := forall w, Q w -> Q (fst (m w)).
Lemma pres_bind Q {A B} (m : WM A) (k : A -> WM B) : pres Q m -> (forall a, pres Q (k a)) -> pres Q (wbind m k).
Proof. intros H K w Hw. unfold wbind. specialize (H w Hw). destruct (m w) as [w1 [a|e]]; cbn in *; [exact (K a w1 H)|exact H]. Qed.
Lemma pres_ret Q {A} (a : A) : pres Q (wret a).
Proof. intros w H. exact H. Qed.
Lemma pres_lift Q {A} (a : res A) : pres Q (wlift a).
Proof. intros w H. exact H. Qed.
Lemma pres_look Q i : pres Q (look i).
Proof. intros w H. unfold look. destruct (contents w i); exact H. Qed.
Lemma pres_obj Q i : pres Q (get_obj i).
Proof. intros w H. unfold get_obj. destruct (nth_error (w_objs w) i); exact H. Qed.
Lemma pres_assign i b j f : (forall o, o_snr (f o) = o_snr o) -> pres (snr_at i b) (assign j f).
Proof.
  intros F w (o & O & E). unfold assign. destruct (nth_error (w_objs w) j) as [oj|] eqn:Oj; [|exists o; auto]. cbn. destruct (Nat.eq_dec i j) as [->|N].
  - exists (f oj). split; [apply nth_replace_eq; exact (nth_some_lt _ _ _ Oj)|]. rewrite F. congruence.
  - exists o. cbn. rewrite nth_replace_ne by auto. auto.
Qed.
Lemma pres_heap i b {A} (m : WM A) : (forall w, w_objs (fst (m w)) = w_objs w) -> pres (snr_at i b) m.
Proof. intros H w (o & O & E). exists o. rewrite H. auto. Qed.
Lemma pres_set_sc x i b j : pres (snr_at i b) (w_set_sc x j).
Proof.
  unfold w_set_sc. apply pres_bind; [apply pres_look|]. intros s. destruct (s_interpolate_sc s); [apply pres_bind; [apply pres_lift|]; intros c|]; apply pres_assign; reflexivity.
Qed.
Lemma pres_update x i b p new : pres (snr_at i b) (w_update x p new).
Proof.
  unfold w_update. apply pres_bind; [apply pres_lift|]. intros _. apply pres_bind; [apply pres_heap; intros w; unfold get_handle; destruct (nth_error (w_params w) p); reflexivity|]. intros q. cbn zeta.
  apply pres_bind; [apply pres_heap; intros w; unfold set_dict; destruct (nth_error (w_params w) p); reflexivity|]. intros _. destruct (existsb _ _); [|apply pres_ret].
  unfold w_re_interpolate. apply pres_bind; [apply pres_heap; intros w; unfold get_handle; destruct (nth_error (w_params w) p); reflexivity|]. intros q'. destruct (p_source q'); [apply pres_set_sc|apply pres_ret].
Qed.
Lemma pres_harmonics i b insp v : pres (snr_at i b) (w_store_harmonics i insp v).
Proof.
  unfold w_store_harmonics. apply pres_bind; [apply pres_look|]. intros s. apply pres_bind; [apply pres_obj|]. intros o. apply pres_bind.
  - destruct (o_max_snr_harmonic o); [apply pres_ret|]. apply pres_bind; [now apply pres_heap|]. intros m. apply pres_bind; [now apply pres_assign|]. intros _. apply pres_ret.
  - intros m. apply pres_heap. reflexivity.
Qed.
Lemma pres_store i b insp v : pres (snr_at i b) (w_store_snr i insp v).
Proof.
  intros w (o & O & E). unfold w_store_snr, look, get_obj. unfold wbind at 1. rewrite (contents_view _ _ _ O). unfold wbind at 1. rewrite O. unfold wbind. rewrite E. cbn. exists o. auto.
Qed.
Lemma pres_method x i b values a which : pres (snr_at i b) (w_snr_method x values a which i).
Proof.
  unfold w_snr_method. apply pres_bind; [apply pres_look|]. intros s. cbn zeta. apply pres_bind; [apply pres_obj|]. intros o. apply pres_bind; [apply pres_update|]. intros _. apply pres_bind; [apply pres_look|]. intros s1.
  apply pres_bind; [apply pres_lift|]. intros insp. apply pres_bind; [apply pres_lift|]. intros v. apply pres_bind; [|intros _; apply pres_lift].
  unfold w_record_snr. apply pres_bind; [apply pres_harmonics|]. intros _. apply pres_store.
Qed.
Lemma pres_fresh i b m : pres (snr_at i b) m -> pres (snr_at i b) (fresh_array m).
Proof. intros H. unfold fresh_array. apply pres_bind; [exact H|]. intros v. apply pres_bind; [now apply pres_heap|]. intros c. apply pres_ret. Qed.
Lemma returned_is_stored x w i a n which b : reached x w -> snd (w_step x (Do i (Snr a n which)) w) = Ok (Array b) -> snr_at i b (fst (w_step x (Do i (Snr a n which)) w)).
Proof.
  intros R Hr. pose proof (reached_inv _ _ R) as I. change (w_step x (Do i (Snr a n which)) w) with (w_do x i (Snr a n which) w) in *. destruct (nth_error (w_objs w) i) as [oi|] eqn:O.
  - destruct (good_do x i (Snr a n which) (fun _ => True) w oi I O Logic.I) as (w' & r & s' & r' & E1 & E2 & K & C' & X). rewrite E1 in *. cbn [fst snd] in *. subst r. destruct r' as [v|e]; [|contradiction].
    destruct X as (b' & l & Eb & _ & _ & H). injection Eb as <-. exact H.
  - destruct (do_none x i (Snr a n which) w O) as [e E]. rewrite E in Hr. discriminate.
Qed.
Lemma pres_stationary x i b a which : pres (snr_at i b) (w_snr_stationary x a which i).
Proof. exact (pres_method x i b (stationary_values x) a which). Qed.
Lemma pres_evolving x i b a n which : pres (snr_at i b) (w_snr_evolving x a n which i).
Proof. exact (pres_method x i b (fun a => evolving_values x a n) a which). Qed.
Definition writes_in_place (o : op) : Prop := match o with SnrStationary _ _ | SnrEvolving _ _ _ => True | _ => False end.
Lemma writes_keep x i b o : writes_in_place o -> pres (snr_at i b) (w_step x (Do i o)).
Proof. destruct o; try contradiction; intros _; [exact (pres_fresh i b _ (pres_stationary x i b a which))|exact (pres_fresh i b _ (pres_evolving x i b a n_step which))]. Qed.
Lemma overwritten_inv x w i b o s : inv w -> snr_at i b w -> writes_in_place o -> contents w i = Some s ->
  s_snr (fst (step x o s)) = Some (nums (w_heap (fst (w_step x (Do i o) w))) b).
Proof.
  intros I H Ho C. pose proof (writes_keep x i b o Ho w H) as (o' & O' & E'). pose proof (proj1 (refines_inv x w i o s I C)) as C'. rewrite (contents_view _ _ _ O') in C'. apply some_inj in C'. rewrite <- C'. cbn. now rewrite E'.
Qed.
Lemma overwritten_thm x w i a n which b o s : reached x w -> snd (w_step x (Do i (Snr a n which)) w) = Ok (Array b) -> writes_in_place o -> let w1 := fst (w_step x (Do i (Snr a n which)) w) in contents w1 i = Some s ->
  s_snr (fst (step x o s)) = Some (nums (w_heap (fst (w_step x (Do i o) w1))) b).
Proof.
  intros R Hr Ho w1 C. apply overwritten_inv; auto; [|exact (returned_is_stored x w i a n which b R Hr)]. apply step_inv; [exact (reached_inv _ _ R)|intros c []].
Qed.

(** ** Arrays that are shared (C92) *)
Lemma bind_ok {A B} (m : WM A) (k : A -> WM B) w w' r : wbind m k w = (w', Ok r) -> exists w1 a, m w = (w1, Ok a) /\ k a w1 = (w', Ok r).
Proof. unfold wbind. destruct (m w) as [w1 [a|e]]; [eauto|discriminate]. Qed.
Lemma place_kept a v w w' b : place a v w = (w', Ok b) -> forall c, a = Some c -> b = c.
Proof. intros H c ->. unfold place, wret in H. now injection H. Qed.
Lemma place_opt_kept a v w w' r : place_opt a v w = (w', Ok r) -> v <> None -> forall c, a = Some c -> r = Some c.
Proof.
  unfold place_opt. destruct v as [v|]; [|congruence]. intros H _ c ->. unfold place, wbind, wret in H. now injection H.
Qed.
(** The arrays given are the attributes. *)
Definition takes (h : shared) (s : src) (o : obj) : Prop :=
  (forall c, h_m_1 h = Some c -> o_m_1 o = c) /\ (forall c, h_m_2 h = Some c -> o_m_2 o = c) /\ (forall c, h_dist h = Some c -> o_dist o = c) /\
  (forall c, h_f_orb h = Some c -> o_f_orb o = c) /\ (forall c, h_ecc h = Some c -> o_ecc o = c) /\
  (s_weights s <> None -> forall c, h_weights h = Some c -> o_weights o = Some c) /\
  (s_inclination s <> None -> forall c, h_inclination h = Some c -> o_inclination o = Some c) /\
  (s_polarisation s <> None -> forall c, h_polarisation h = Some c -> o_polarisation o = Some c).
Lemma omap_some {A B} (f : A -> B) v : v <> None -> option_map f v <> None.
Proof. now destruct v. Qed.
Lemma objs_last w w' (o o' : obj) : w_objs w' = w_objs w ++ [o] -> nth_error (w_objs w') (length (w_objs w)) = Some o' -> o = o'.
Proof. intros -> H. rewrite nth_last in H. congruence. Qed.
Lemma build_takes h s w w' j : build h s w = (w', Ok j) -> exists o, nth_error (w_objs w') j = Some o /\ takes h s o.
Proof.
  unfold build. intros H.
  do 13 (apply bind_ok in H; destruct H as (? & ? & ? & H)). cbn in H. injection H as <- <-. eexists. cbn [w_objs]. rewrite nth_last. split; [reflexivity|]. unfold takes. cbn [o_m_1 o_m_2 o_dist o_f_orb o_ecc o_weights o_inclination o_polarisation].
  do 5 (split; [eapply place_kept; eassumption|]). split; [intros N; eapply place_opt_kept; [eassumption|apply omap_some, N]|]. split; intros N; eapply place_opt_kept; try eassumption; apply omap_some, N.
Qed.
