(** WorldThms.v -- methods on a world do what Source.v says to their collection, and nothing to others (C58, C81). *)
From Coq Require Import String Reals ZArith List Bool Arith Lia.
From Verif Require Import Num NumFacts Np NpFacts Utils Strain Psd Snr Interp Evol Harmonics ScParams Source Index SourceSpec SourceFacts InitSpec InitFacts History World WorldSpec WorldFacts.
Import ListNotations.
Open Scope nat_scope.
Open Scope world_scope.
Open Scope m_scope.
Open Scope list_scope.

(** A step on the world and a method of Source.v do the same to collection i. *)
Definition good {A B} (i : nat) (P : world -> Prop) (m : WM A) (n : M B) (R : world -> A -> B -> Prop) : Prop :=
  forall w o, inv w -> nth_error (w_objs w) i = Some o -> P w ->
  exists w' r s' r', m w = (w', r) /\ n (view w o) = (s', r') /\ okstep i w w' /\ contents w' i = Some s' /\
    match r, r' with Ok a, Ok b => R w' a b | Err e, Err e' => e = e' | _, _ => False end.
Definition tt_ok {A B} (_ : world) (_ : A) (_ : B) : Prop := True.
Definition same {A} (_ : world) (a b : A) : Prop := a = b.
Lemma good_pre {A B} i (P Q : world -> Prop) (m : WM A) (n : M B) R : (forall w, inv w -> Q w -> P w) -> good i P m n R -> good i Q m n R.
Proof. intros H G w o I O Hq. exact (G w o I O (H w I Hq)). Qed.
Lemma good_post {A B} i P (m : WM A) (n : M B) (R R' : world -> A -> B -> Prop) : (forall w a b, inv w -> R w a b -> R' w a b) -> good i P m n R -> good i P m n R'.
Proof.
  intros H G w o I O Hp. destruct (G w o I O Hp) as (w' & r & s' & r' & E1 & E2 & K & C & X). exists w', r, s', r'. repeat (split; [assumption|]).
  destruct r, r'; auto. apply H; auto. exact (ok_inv _ _ _ I K).
Qed.
Lemma good_bind {A B A' B'} i P (m : WM A) (n : M B) (R : world -> A -> B -> Prop) (k : A -> WM A') (k' : B -> M B') R' :
  good i P m n R -> (forall a b, good i (fun w => R w a b) (k a) (k' b) R') -> good i P (wbind m k) (mbind n k') R'.
Proof.
  intros G H w o I O Hp. destruct (G w o I O Hp) as (w1 & r & s1 & r' & E1 & E2 & K & C & X). unfold wbind, mbind. rewrite E1, E2.
  destruct r as [a|e], r' as [b|e']; try contradiction.
  - unfold contents in C. destruct (nth_error (w_objs w1) i) as [o1|] eqn:O1; [|discriminate]. injection C as C. pose proof (ok_inv _ _ _ I K) as I1.
    destruct (H a b w1 o1 I1 O1 X) as (w2 & r2 & s2 & r2' & F1 & F2 & K2 & C2 & X2). rewrite <- C. exists w2, r2, s2, r2'. split; [exact F1|]. split; [exact F2|]. split; [exact (ok_trans _ _ _ _ K K2)|]. auto.
  - subst e'. exists w1, (Err e), s1, (Err e). auto.
Qed.
(** A step that leaves the contents alone. *)
Lemma good_skip {A A' B'} i P (m : WM A) (Q : world -> A -> Prop) (k : A -> WM A') (n : M B') R' :
  good i P m (ret tt) (fun w a _ => Q w a) -> (forall a, good i (fun w => Q w a) (k a) n R') -> good i P (wbind m k) n R'.
Proof. intros G H. assert (E : good i P (wbind m k) (mbind (ret tt) (fun _ => n)) R') by (eapply good_bind; [exact G|]; intros a b; apply H). exact E. Qed.
Lemma contents_view w i o : nth_error (w_objs w) i = Some o -> contents w i = Some (view w o).
Proof. unfold contents. now intros ->. Qed.
Lemma good_look i P : good i P (look i) self (fun w a b => a = b /\ contents w i = Some a /\ P w).
Proof.
  intros w o I O Hp. unfold look. rewrite (contents_view w i o O). eexists _, _, _, _. split; [reflexivity|]. split; [reflexivity|].
  split; [apply ok_refl|]. split; [exact (contents_view w i o O)|]. auto using contents_view.
Qed.
Lemma good_lift {A} i P (r : res A) : good i P (wlift r) (lift r) (fun w a b => a = b /\ P w).
Proof. intros w o I O Hp. eexists _, _, _, _. split; [reflexivity|]. split; [reflexivity|]. split; [apply ok_refl|]. split; [exact (contents_view w i o O)|]. destruct r; auto. Qed.
Lemma good_ret {A B} i P (a : A) (b : B) : good i P (wret a) (ret b) (fun w a' b' => a' = a /\ b' = b /\ P w).
Proof. intros w o I O Hp. eexists _, _, _, _. split; [reflexivity|]. split; [reflexivity|]. split; [apply ok_refl|]. split; [exact (contents_view w i o O)|]. auto. Qed.
Lemma good_raise {A B} i P e (R : world -> A -> B -> Prop) : good i P (wlift (Err e)) (raise e) R.
Proof. intros w o I O Hp. eexists _, _, _, _. split; [reflexivity|]. split; [reflexivity|]. split; [apply ok_refl|]. split; [exact (contents_view w i o O)|]. auto. Qed.
Lemma good_get_obj i P : good i P (get_obj i) (ret tt) (fun w a _ => nth_error (w_objs w) i = Some a /\ P w).
Proof.
  intros w o I O Hp. unfold get_obj. rewrite O. eexists _, _, _, _. split; [reflexivity|]. split; [reflexivity|]. split; [apply ok_refl|]. split; [exact (contents_view w i o O)|]. auto.
Qed.

(** ** Primitive changes *)
Lemma wfo_grow n n' o o' : wfo n o -> n <= n' -> o_snr o' = o_snr o -> o_max_snr_harmonic o' = o_max_snr_harmonic o ->
  (forall a, In a (others o') -> In a (others o) \/ n <= a < n') -> wfo n' o'.
Proof.
  intros [V S T] L E1 E2 H.
  assert (M : forall a, In a (muts o') <-> In a (muts o)) by (intros a; rewrite !in_muts, E1, E2; reflexivity). split.
  - intros a Ha. apply in_every in Ha. destruct Ha as [Ha|Ha].
    + destruct (H a Ha) as [K|K]; [|lia]. pose proof (V a (proj2 (in_every _ _) (or_introl K))). lia.
    + apply M in Ha. pose proof (V a (proj2 (in_every _ _) (or_intror Ha))). lia.
  - intros a Ha K. apply M in Ha. destruct (H a K) as [K'|K']; [exact (S a Ha K')|]. pose proof (V a (proj2 (in_every _ _) (or_intror Ha))). lia.
  - rewrite E1, E2. exact T.
Qed.
Lemma wfo_mut n o o' : wfo n o -> (forall a, In a (others o') <-> In a (others o)) ->
  (o_snr o' = Some n /\ o_max_snr_harmonic o' = o_max_snr_harmonic o \/ o_snr o' = o_snr o /\ o_max_snr_harmonic o' = Some n) -> wfo (S n) o'.
Proof.
  intros [V S T] H E.
  assert (M : forall a, In a (muts o') -> In a (muts o) \/ a = n) by (intros a; rewrite !in_muts; destruct E as [[-> ->]|[-> ->]]; intros [K|K]; auto; injection K; auto).
  assert (V' : forall a, In a (others o) \/ In a (muts o) -> a < n) by (intros a Ha; apply V, in_every, Ha). split.
  - intros a Ha. apply in_every in Ha. destruct Ha as [Ha|Ha]; [apply H in Ha; specialize (V' a (or_introl Ha)); lia|]. destruct (M a Ha) as [K|K]; [specialize (V' a (or_intror K))|]; lia.
  - intros a Ha K. apply H in K. destruct (M a Ha) as [K'| ->]; [exact (S a K' K)|]. specialize (V' n (or_introl K)). lia.
  - intros a E1 E2. destruct E as [[A B]|[A B]].
    + rewrite A in E1. injection E1 as <-. rewrite B in E2. specialize (V' n (or_intror (proj2 (in_muts _ _) (or_intror E2)))). lia.
    + rewrite B in E2. injection E2 as <-. rewrite A in E1. specialize (V' n (or_intror (proj2 (in_muts _ _) (or_introl E1)))). lia.
Qed.
(** Assigning an attribute after making arrays: object i becomes f o, the heap grows. *)
Lemma ok_assign i w o h t o' : inv w -> nth_error (w_objs w) i = Some o -> h = w_heap w ++ t -> wfo (length h) o' -> o_params o' = o_params o ->
  (forall a, In a (muts o') -> In a (muts o) \/ length (w_heap w) <= a) -> (forall a, In a (others o') -> In a (others o) \/ length (w_heap w) <= a) ->
  okstep i w (mkWorld h (replace i o' (w_objs w)) (w_params w)).
Proof.
  intros I O -> W P M T. pose proof (nth_some_lt _ _ _ O) as L. split; cbn [w_heap w_objs w_params].
  - rewrite app_length. lia.
  - intros o1 a _ La _. now apply nth_before.
  - intros j J. now apply nth_replace_ne.
  - apply length_replace.
  - intros o1 O1. rewrite O in O1. injection O1 as <-. exists o'. split; [now apply nth_replace_eq|]. split; [auto|]. split; [exact M|]. split; [exact T|]. now rewrite P.
  - auto.
  - eauto.
Qed.
Lemma contents_replace i w h ps o' : i < length (w_objs w) -> contents (mkWorld h (replace i o' (w_objs w)) ps) i = Some (view (mkWorld h (replace i o' (w_objs w)) ps) o').
Proof. intros L. apply contents_view. cbn. now apply nth_replace_eq. Qed.
Lemma view_heap w o h objs t : wfo (length (w_heap w)) o -> h = w_heap w ++ t -> view (mkWorld h objs (w_params w)) o = view w o.
Proof. intros W ->. apply view_frame; cbn; [|reflexivity]. intros a Ha. apply nth_before. exact (wf_valid _ _ W a Ha). Qed.
Lemma view_objs h objs objs' ps o : view (mkWorld h objs ps) o = view (mkWorld h objs' ps) o.
Proof. reflexivity. Qed.
(** Assigning attributes that are not arrays. *)
Lemma good_assign i P f g : (forall o, others (f o) = others o /\ o_snr (f o) = o_snr o /\ o_max_snr_harmonic (f o) = o_max_snr_harmonic o /\ o_params (f o) = o_params o) ->
  (forall w o, view w (f o) = g (view w o)) -> good i P (assign i f) (modify g) tt_ok.
Proof.
  intros F V w o I O _. unfold assign. rewrite O. destruct (F o) as (F1 & F2 & F3 & F4). pose proof (inv_wf _ I _ _ O) as W.
  eexists _, _, _, _. split; [reflexivity|]. split; [reflexivity|]. split; [|split; [|exact Logic.I]].
  - apply (ok_assign i w o _ [] (f o)); auto.
    + now rewrite app_nil_r.
    + apply (wfo_grow (length (w_heap w)) _ o); auto. rewrite F1. auto.
    + unfold muts. rewrite F2, F3. auto.
    + rewrite F1. auto.
  - rewrite contents_replace by exact (nth_some_lt _ _ _ O). f_equal. rewrite <- V. reflexivity.
Qed.
(** A new array assigned to an attribute that is not written into. *)
Lemma good_rebind i P v f g : (forall a o, o_snr (f a o) = o_snr o /\ o_max_snr_harmonic (f a o) = o_max_snr_harmonic o /\ o_params (f a o) = o_params o /\
     forall b, In b (others (f a o)) -> In b (others o) \/ b = a) ->
  (forall w o n, nth_error (w_heap w) n = Some v -> view w (f n o) = g (view w o)) -> good i P (b <== alloc v ;; assign i (f b)) (modify g) tt_ok.
Proof.
  intros F V w o I O _. unfold wbind, alloc, assign. cbn [w_objs]. rewrite O. set (n := length (w_heap w)). destruct (F n o) as (F2 & F3 & F4 & F1). pose proof (inv_wf _ I _ _ O) as W.
  eexists _, _, _, _. split; [reflexivity|]. split; [reflexivity|]. split; [|split; [|exact Logic.I]].
  - cbn [w_heap w_params]. apply (ok_assign i w o _ [v] (f n o)); auto.
    + rewrite app_length. cbn. fold n. apply (wfo_grow n _ o); auto; [lia|]. intros b Hb. destruct (F1 b Hb) as [K| ->]; [auto|right; lia].
    + unfold muts. rewrite F2, F3. auto.
    + intros b Hb. destruct (F1 b Hb) as [K| ->]; auto.
  - cbn [w_heap w_params]. rewrite contents_replace by exact (nth_some_lt _ _ _ O). f_equal. rewrite V by apply nth_last. f_equal. apply (view_heap w o _ _ [v]); auto.
Qed.
(** The array of SNRs or of loudest harmonics. *)
Lemma good_fresh_mut i P v f g : (forall a o, others (f a o) = others o /\ o_params (f a o) = o_params o /\
     (o_snr (f a o) = Some a /\ o_max_snr_harmonic (f a o) = o_max_snr_harmonic o \/ o_snr (f a o) = o_snr o /\ o_max_snr_harmonic (f a o) = Some a)) ->
  (forall w o n, nth_error (w_heap w) n = Some v -> view w (f n o) = g (view w o)) ->
  good i P (b <== alloc v ;; _ <== assign i (f b) ;; wret b) (modify g) (fun w b _ => nth_error (w_heap w) b = Some v /\ exists o, nth_error (w_objs w) i = Some (f b o)).
Proof.
  intros F V w o I O _. unfold wbind, alloc, assign. cbn [w_objs]. rewrite O. set (n := length (w_heap w)). destruct (F n o) as (F1 & F4 & F2). pose proof (inv_wf _ I _ _ O) as W.
  eexists _, _, _, _. split; [reflexivity|]. split; [reflexivity|]. split; [|split].
  - cbn [w_heap w_params]. apply (ok_assign i w o _ [v] (f n o)); auto.
    + rewrite app_length. cbn. fold n. replace (n + 1) with (S n) by lia. apply (wfo_mut n o); auto. rewrite F1. tauto.
    + intros a. rewrite !in_muts. destruct F2 as [[-> ->]|[-> ->]]; intros [K|K]; auto; injection K as <-; auto.
    + rewrite F1. auto.
  - cbn [w_heap w_params]. rewrite contents_replace by exact (nth_some_lt _ _ _ O). f_equal. rewrite V by apply nth_last. f_equal. apply (view_heap w o _ _ [v]); auto.
  - cbn. split; [apply nth_last|]. exists o. rewrite nth_replace_eq; [reflexivity|]. exact (nth_some_lt _ _ _ O).
Qed.
(** Writing into such an array. *)
Lemma ok_write i w o a v : inv w -> nth_error (w_objs w) i = Some o -> In a (muts o) -> okstep i w (mkWorld (replace a v (w_heap w)) (w_objs w) (w_params w)).
Proof.
  intros I O M. split; cbn [w_heap w_objs w_params]; auto.
  - now rewrite length_replace.
  - intros o1 b O1 _ N. rewrite O in O1. injection O1 as <-. apply nth_replace_ne. intros ->. contradiction.
  - intros o1 O1. exists o1. rewrite length_replace. auto 7.
  - eauto.
Qed.
Lemma in_set_arrays m1 m2 d f e wt inc pol t snr msh mg o a : In a (others (o_set_arrays m1 m2 d f e wt inc pol t snr msh mg o)) <->
  (a = m1 \/ a = m2 \/ a = d \/ a = f \/ a = e \/ a = mg \/ wt = Some a \/ o_position o = Some a \/ inc = Some a \/ pol = Some a \/ t = Some a).
Proof. rewrite in_others. reflexivity. Qed.
Lemma nums_at h n l : nth_error h n = Some (ANum l) -> nums h n = l.
Proof. unfold nums. now intros ->. Qed.
Lemma ints_at h n l : nth_error h n = Some (AInt l) -> ints h n = l.
Proof. unfold ints. now intros ->. Qed.
Lemma bools_at h n l : nth_error h n = Some (ABool l) -> bools h n = l.
Proof. unfold bools. now intros ->. Qed.
Lemma skies_at h n l : nth_error h n = Some (ASky l) -> skies h n = l.
Proof. unfold skies. now intros ->. Qed.
Lemma good_t_merge i P l : good i P (b <== alloc (ANum l) ;; assign i (o_set_t_merge b)) (modify (set_t_merge (Some l))) tt_ok.
Proof.
  apply good_rebind.
  - intros a o. split; [reflexivity|]. split; [reflexivity|]. split; [reflexivity|]. intros b. unfold o_set_t_merge. rewrite in_set_arrays, in_others. intros H. decompose [or] H; auto 15.
    match goal with K : Some _ = Some _ |- _ => injection K as K; auto end.
  - intros w o n H. change (view w (o_set_t_merge n o)) with (set_t_merge (Some (nums (w_heap w) n)) (view w o)). now rewrite (nums_at _ _ _ H).
Qed.
Lemma good_f_orb i P l : good i P (b <== alloc (ANum l) ;; assign i (o_set_f_orb b)) (modify (set_f_orb l)) tt_ok.
Proof.
  apply good_rebind.
  - intros a o. split; [reflexivity|]. split; [reflexivity|]. split; [reflexivity|]. intros b. unfold o_set_f_orb. rewrite in_set_arrays, in_others. intros H. decompose [or] H; auto 15.
  - intros w o n H. change (view w (o_set_f_orb n o)) with (set_f_orb (nums (w_heap w) n) (view w o)). now rewrite (nums_at _ _ _ H).
Qed.
Lemma good_set_snr i P l : good i P (b <== alloc (ANum l) ;; _ <== assign i (o_set_snr b) ;; wret b) (_ <<- modify (set_snr (Some l)) ;; ret l)
  (fun w b v => nth_error (w_heap w) b = Some (ANum v) /\ exists o, nth_error (w_objs w) i = Some o /\ o_snr o = Some b).
Proof.
  assert (G : good i P (b <== alloc (ANum l) ;; _ <== assign i (o_set_snr b) ;; wret b) (modify (set_snr (Some l)))
     (fun w b _ => nth_error (w_heap w) b = Some (ANum l) /\ exists o, nth_error (w_objs w) i = Some (o_set_snr b o))).
  { apply good_fresh_mut.
    - intros a o. split; [reflexivity|]. split; [reflexivity|]. left. split; reflexivity.
    - intros w o n H. change (view w (o_set_snr n o)) with (set_snr (Some (nums (w_heap w) n)) (view w o)). now rewrite (nums_at _ _ _ H). }
  intros w o I O Hp. destruct (G w o I O Hp) as (w' & r & s' & r' & E1 & E2 & K & C & X). unfold modify in E2. injection E2 as <- <-.
  exists w', r, (set_snr (Some l) (view w o)), (Ok l). split; [exact E1|]. split; [reflexivity|]. split; [exact K|]. split; [exact C|].
  destruct r as [b|]; [|contradiction]. destruct X as (X1 & o1 & X2). split; auto. exists (o_set_snr b o1). auto.
Qed.
Lemma good_orbit i P ecc f mg : good i P (e <== alloc (ANum ecc) ;; fo <== alloc (ANum f) ;; m <== alloc (ABool mg) ;; assign i (o_set_orbit e fo m)) (modify (set_orbit ecc f mg)) tt_ok.
Proof.
  intros w o I O _. unfold wbind, alloc, assign. cbn [w_objs w_heap w_params]. rewrite O. rewrite !app_length. cbn [length]. set (n := length (w_heap w)). pose proof (inv_wf _ I _ _ O) as W.
  assert (H3 : ((w_heap w ++ [ANum ecc]) ++ [ANum f]) ++ [ABool mg] = w_heap w ++ [ANum ecc; ANum f; ABool mg]) by (rewrite <- !app_assoc; reflexivity). rewrite H3.
  assert (N1 : nth_error (w_heap w ++ [ANum ecc; ANum f; ABool mg]) n = Some (ANum ecc)) by (unfold n; rewrite nth_error_app2, Nat.sub_diag by lia; reflexivity).
  assert (N2 : nth_error (w_heap w ++ [ANum ecc; ANum f; ABool mg]) (n + 1) = Some (ANum f)) by (unfold n; rewrite nth_error_app2 by lia; replace (_ + 1 - _) with 1 by lia; reflexivity).
  assert (N3 : nth_error (w_heap w ++ [ANum ecc; ANum f; ABool mg]) (n + 1 + 1) = Some (ABool mg)) by (unfold n; rewrite nth_error_app2 by lia; replace (_ + 1 + 1 - _) with 2 by lia; reflexivity).
  assert (T : forall b, In b (others (o_set_orbit n (n + 1) (n + 1 + 1) o)) -> In b (others o) \/ n <= b < n + 3) by (intros b; unfold o_set_orbit; rewrite in_set_arrays, in_others; intros H; decompose [or] H; subst; auto 15; right; lia).
  eexists _, _, _, _. split; [reflexivity|]. split; [reflexivity|]. split; [|split; [|exact Logic.I]].
  - apply (ok_assign i w o _ [ANum ecc; ANum f; ABool mg] (o_set_orbit n (n + 1) (n + 1 + 1) o)); auto.
    + rewrite app_length. cbn [length]. fold n. apply (wfo_grow n _ o); auto; lia.
    + fold n. intros b Hb. destruct (T b Hb); [auto|right; lia].
  - rewrite contents_replace by exact (nth_some_lt _ _ _ O). f_equal. set (w' := mkWorld _ _ _).
    change (view w' (o_set_orbit n (n + 1) (n + 1 + 1) o)) with (set_orbit (nums (w_heap w') n) (nums (w_heap w') (n + 1)) (bools (w_heap w') (n + 1 + 1)) (view w' o)). unfold w'. cbn [w_heap].
    rewrite (nums_at _ _ _ N1), (nums_at _ _ _ N2), (bools_at _ _ _ N3). f_equal. apply (view_heap w o _ _ [ANum ecc; ANum f; ABool mg]); auto.
Qed.
Lemma some_inj {A} (a b : A) : Some a = Some b -> a = b.
Proof. congruence. Qed.
(** Storing SNRs. *)
Lemma write_snr_view i w o b v : inv w -> nth_error (w_objs w) i = Some o -> o_snr o = Some b ->
  view (mkWorld (replace b (ANum v) (w_heap w)) (w_objs w) (w_params w)) o = set_snr (Some v) (view w o).
Proof.
  intros I O E. pose proof (inv_wf _ I _ _ O) as W. assert (Mb : In b (muts o)) by (apply in_muts; auto).
  assert (Lb : b < length (w_heap w)) by (apply (wf_valid _ _ W), in_every; auto). set (w' := mkWorld _ _ _).
  change (view w' o) with (set_snr (option_map (nums (w_heap w')) (o_snr o)) (set_snr None (view w' (o_set_snr (S b) o)))).
  assert (H : view w' (o_set_snr (S b) o) = view w (o_set_snr (S b) o)).
  { apply view_frame; [|reflexivity]. intros a Ha. unfold w'. cbn [w_heap]. apply nth_replace_ne. intros ->. apply in_every in Ha. destruct Ha as [Ha|Ha].
    - exact (wf_apart _ _ W b Mb Ha).
    - apply in_muts in Ha. cbn in Ha. destruct Ha as [Ha|Ha]; [injection Ha; lia|]; exact (wf_two _ _ W b E Ha). }
  rewrite H, E. cbn [option_map]. rewrite (nums_at (w_heap w') b v) by (unfold w'; cbn; now apply nth_replace_eq). reflexivity.
Qed.
Lemma good_store_snr i P insp vals : good i P (w_store_snr i insp vals) (modify (fun s => set_snr (Some (store (Fin 0) (n_sources s) insp vals (s_snr s))) s)) tt_ok.
Proof.
  intros w o I O _. unfold w_store_snr, wbind, look, get_obj. rewrite (contents_view w i o O), O. unfold modify, store.
  change (s_snr (view w o)) with (option_map (nums (w_heap w)) (o_snr o)). destruct (o_snr o) as [b|] eqn:Eb; cbn [option_map].
  - unfold wret, write. eexists _, _, _, _. split; [reflexivity|]. split; [reflexivity|]. assert (Mb : In b (muts o)) by (apply in_muts; auto). split; [exact (ok_write i w o b _ I O Mb)|]. split; [|exact Logic.I].
    match goal with |- contents ?w' _ = _ => rewrite (contents_view w' i o O) end. f_equal. exact (write_snr_view i w o b _ I O Eb).
  - destruct (good_set_snr i (fun _ => True) (np_repeat (Fin 0) (n_sources (view w o))) w o I O Logic.I) as (w1 & r & s1 & r' & E1 & E2 & K & C & X).
    unfold wbind in E1. rewrite E1. unfold mbind, modify, ret in E2. injection E2 as <- <-. destruct r as [b|]; [|contradiction]. destruct X as (X1 & o1 & X2 & X3).
    pose proof (ok_inv _ _ _ I K) as I1. unfold write. eexists _, _, _, _. split; [reflexivity|]. split; [reflexivity|].
    assert (Mb : In b (muts o1)) by (apply in_muts; auto). split; [exact (ok_trans _ _ _ _ K (ok_write i w1 o1 b _ I1 X2 Mb))|]. split; [|exact Logic.I].
    match goal with |- contents ?w' _ = _ => rewrite (contents_view w' i o1 X2) end. rewrite (contents_view _ _ _ X2) in C. apply some_inj in C. f_equal.
    rewrite (write_snr_view i w1 o1 b _ I1 X2 X3), C, (nums_at _ _ _ X1). reflexivity.
Qed.
Lemma good_set_harmonics i P l : good i P (b <== alloc (AInt l) ;; _ <== assign i (o_set_max_snr_harmonic b) ;; wret b) (_ <<- modify (set_max_snr_harmonic (Some l)) ;; ret l)
  (fun w b v => nth_error (w_heap w) b = Some (AInt v) /\ exists o, nth_error (w_objs w) i = Some o /\ o_max_snr_harmonic o = Some b).
Proof.
  assert (G : good i P (b <== alloc (AInt l) ;; _ <== assign i (o_set_max_snr_harmonic b) ;; wret b) (modify (set_max_snr_harmonic (Some l)))
     (fun w b _ => nth_error (w_heap w) b = Some (AInt l) /\ exists o, nth_error (w_objs w) i = Some (o_set_max_snr_harmonic b o))).
  { apply good_fresh_mut.
    - intros a o. split; [reflexivity|]. split; [reflexivity|]. right. split; reflexivity.
    - intros w o n H. change (view w (o_set_max_snr_harmonic n o)) with (set_max_snr_harmonic (Some (ints (w_heap w) n)) (view w o)). now rewrite (ints_at _ _ _ H). }
  intros w o I O Hp. destruct (G w o I O Hp) as (w' & r & s' & r' & E1 & E2 & K & C & X). unfold modify in E2. injection E2 as <- <-.
  exists w', r, (set_max_snr_harmonic (Some l) (view w o)), (Ok l). split; [exact E1|]. split; [reflexivity|]. split; [exact K|]. split; [exact C|].
  destruct r as [b|]; [|contradiction]. destruct X as (X1 & o1 & X2). split; auto. exists (o_set_max_snr_harmonic b o1). auto.
Qed.
(** Storing the loudest harmonics. *)
Lemma write_harmonics_view i w o b v : inv w -> nth_error (w_objs w) i = Some o -> o_max_snr_harmonic o = Some b ->
  view (mkWorld (replace b (AInt v) (w_heap w)) (w_objs w) (w_params w)) o = set_max_snr_harmonic (Some v) (view w o).
Proof.
  intros I O E. pose proof (inv_wf _ I _ _ O) as W. assert (Mb : In b (muts o)) by (apply in_muts; auto).
  assert (Lb : b < length (w_heap w)) by (apply (wf_valid _ _ W), in_every; auto). set (w' := mkWorld _ _ _).
  change (view w' o) with (set_max_snr_harmonic (option_map (ints (w_heap w')) (o_max_snr_harmonic o)) (set_max_snr_harmonic None (view w' (o_set_max_snr_harmonic (S b) o)))).
  assert (H : view w' (o_set_max_snr_harmonic (S b) o) = view w (o_set_max_snr_harmonic (S b) o)).
  { apply view_frame; [|reflexivity]. intros a Ha. unfold w'. cbn [w_heap]. apply nth_replace_ne. intros ->. apply in_every in Ha. destruct Ha as [Ha|Ha].
    - exact (wf_apart _ _ W b Mb Ha).
    - apply in_muts in Ha. cbn in Ha. destruct Ha as [Ha|Ha]; [|injection Ha; lia]; exact (wf_two _ _ W b Ha E). }
  rewrite H, E. cbn [option_map]. rewrite (ints_at (w_heap w') b v) by (unfold w'; cbn; now apply nth_replace_eq). reflexivity.
Qed.
Lemma good_store_harmonics i P insp vals : good i P (w_store_harmonics i insp vals) (modify (fun s => set_max_snr_harmonic (Some (store 0%Z (n_sources s) insp vals (s_max_snr_harmonic s))) s)) tt_ok.
Proof.
  intros w o I O _. unfold w_store_harmonics, wbind, look, get_obj. rewrite (contents_view w i o O), O. unfold modify, store.
  change (s_max_snr_harmonic (view w o)) with (option_map (ints (w_heap w)) (o_max_snr_harmonic o)). destruct (o_max_snr_harmonic o) as [b|] eqn:Eb; cbn [option_map].
  - unfold wret, write. eexists _, _, _, _. split; [reflexivity|]. split; [reflexivity|]. assert (Mb : In b (muts o)) by (apply in_muts; auto). split; [exact (ok_write i w o b _ I O Mb)|]. split; [|exact Logic.I].
    match goal with |- contents ?w' _ = _ => rewrite (contents_view w' i o O) end. f_equal. exact (write_harmonics_view i w o b _ I O Eb).
  - destruct (good_set_harmonics i (fun _ => True) (np_repeat 0%Z (n_sources (view w o))) w o I O Logic.I) as (w1 & r & s1 & r' & E1 & E2 & K & C & X).
    unfold wbind in E1. rewrite E1. unfold mbind, modify, ret in E2. injection E2 as <- <-. destruct r as [b|]; [|contradiction]. destruct X as (X1 & o1 & X2 & X3).
    pose proof (ok_inv _ _ _ I K) as I1. unfold write. eexists _, _, _, _. split; [reflexivity|]. split; [reflexivity|].
    assert (Mb : In b (muts o1)) by (apply in_muts; auto). split; [exact (ok_trans _ _ _ _ K (ok_write i w1 o1 b _ I1 X2 Mb))|]. split; [|exact Logic.I].
    match goal with |- contents ?w' _ = _ => rewrite (contents_view w' i o1 X2) end. rewrite (contents_view _ _ _ X2) in C. apply some_inj in C. f_equal.
    rewrite (write_harmonics_view i w1 o1 b _ I1 X2 X3), C, (ints_at _ _ _ X1). reflexivity.
Qed.
