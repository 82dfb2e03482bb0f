(** IndexThms.v -- theorem-level statements on indexing (C57). *)
From Coq Require Import String Reals ZArith List Bool Sorted Lia.
From Verif Require Import Num Np NpFacts Utils Strain Psd Snr Evol Harmonics ScParams Source Index SourceSpec IndexSpec CurveSpec CurveFacts IndexFacts Toy.
Import ListNotations.
Open Scope list_scope.

Lemma selects_unique n ind js js' : selects n ind js -> selects n ind js' -> js = js'.
Proof.
  destruct ind; cbn; intros H K; try easy.
  - destruct H as (j & -> & P), K as (j' & -> & P'). f_equal. now apply (position_fun n z).
  - destruct H as [_ ->], K as [_ ->]. reflexivity.
  - now apply (sliced_unique n start stop step).
  - destruct H as [_ H], K as [_ K]. revert js' K. induction H; intros js' K; inversion K; subst; auto. f_equal; auto. now apply (position_fun n x).
  - revert js' K. induction H; intros js' K; inversion K; subst; auto. f_equal; auto. now apply (position_fun n x).
  - destruct H as [_ ->], K as [_ ->]. reflexivity.
Qed.
Lemma index_thm ind s s2 n : aligned s n -> keys (s_params s) = documented -> getitem ind s = Ok s2 ->
  exists js, selects n ind js /\ rows js s s2 /\ same_settings s s2.
Proof.
  intros A P H. destruct (getitem_selects ind s s2 n A H) as (K & js & J). exists js. split; auto.
  destruct (getitem_rows ind s n js K P A J) as (s3 & E & R). rewrite H in E. injection E as ->. exact R.
Qed.
Lemma accepts_thm ind s n : aligned s n -> keys (s_params s) = documented -> s_class s <> KVerification ->
  (exists s2, getitem ind s = Ok s2) <-> exists js, selects n ind js.
Proof.
  intros A P K. split.
  - intros [s2 H]. now apply (getitem_selects ind s s2 n A).
  - intros [js J]. destruct (getitem_rows ind s n js K P A J) as (s2 & E & _). eauto.
Qed.
Lemma picked_trans {A} js1 js2 js (l a b : list A) : picked js2 js1 js -> picked js1 l a -> picked js2 a b -> picked js l b.
Proof.
  intros P Q R. unfold picked in *. revert b R. induction P as [|j k js2 js Hk _ IH]; intros b R; inversion R as [|? x ? b' Hx Rb]; subst; constructor; auto.
  clear - Hk Hx Q. revert j Hk Hx. induction Q as [|i y js1 a Hy _ IH]; intros [|j] Hk Hx; cbn in *; try discriminate; [congruence|eauto].
Qed.
Lemma picked_opt_trans {A} js1 js2 js (l a b : option (list A)) : picked js2 js1 js -> picked_opt js1 l a -> picked_opt js2 a b -> picked_opt js l b.
Proof. destruct l, a, b; cbn; try easy. apply picked_trans. Qed.
Lemma rows_trans js1 js2 js s s1 s2 : picked js2 js1 js -> rows js1 s s1 -> rows js2 s1 s2 -> rows js s s2.
Proof. intros P [] []. split; eauto using picked_trans, picked_opt_trans. Qed.
Lemma picked_opt_fun {A} js (l a b : option (list A)) : picked_opt js l a -> picked_opt js l b -> a = b.
Proof. destruct l, a, b; cbn; try easy. intros. f_equal. eapply picked_fun; eauto. Qed.
Lemma rows_fun js s a b : rows js s a -> rows js s b -> same_settings s a -> same_settings s b -> a = b.
Proof.
  intros Ra Rb (A1 & A2 & A3 & A4 & A5 & A6 & A7 & A8) (B1 & B2 & B3 & B4 & B5 & B6 & B7 & B8).
  pose proof (picked_fun _ _ _ _ (row_m_1 _ _ _ Ra) (row_m_1 _ _ _ Rb)) as E0.
  pose proof (picked_fun _ _ _ _ (row_m_2 _ _ _ Ra) (row_m_2 _ _ _ Rb)) as E1.
  pose proof (picked_fun _ _ _ _ (row_dist _ _ _ Ra) (row_dist _ _ _ Rb)) as E2.
  pose proof (picked_fun _ _ _ _ (row_f_orb _ _ _ Ra) (row_f_orb _ _ _ Rb)) as E3.
  pose proof (picked_fun _ _ _ _ (row_ecc _ _ _ Ra) (row_ecc _ _ _ Rb)) as E4.
  pose proof (picked_fun _ _ _ _ (row_merged _ _ _ Ra) (row_merged _ _ _ Rb)) as E5.
  pose proof (picked_opt_fun _ _ _ _ (row_weights _ _ _ Ra) (row_weights _ _ _ Rb)) as F0.
  pose proof (picked_opt_fun _ _ _ _ (row_position _ _ _ Ra) (row_position _ _ _ Rb)) as F1.
  pose proof (picked_opt_fun _ _ _ _ (row_inclination _ _ _ Ra) (row_inclination _ _ _ Rb)) as F2.
  pose proof (picked_opt_fun _ _ _ _ (row_polarisation _ _ _ Ra) (row_polarisation _ _ _ Rb)) as F3.
  pose proof (picked_opt_fun _ _ _ _ (row_t_merge _ _ _ Ra) (row_t_merge _ _ _ Rb)) as F4.
  pose proof (picked_opt_fun _ _ _ _ (row_snr _ _ _ Ra) (row_snr _ _ _ Rb)) as F5.
  pose proof (picked_opt_fun _ _ _ _ (row_msh _ _ _ Ra) (row_msh _ _ _ Rb)) as F6.
  clear Ra Rb. rewrite <- A1 in B1. rewrite <- A2 in B2. rewrite <- A3 in B3. rewrite <- A4 in B4. rewrite <- A5 in B5. rewrite <- A6 in B6. rewrite <- A7 in B7. rewrite <- A8 in B8.
  clear A1 A2 A3 A4 A5 A6 A7 A8. destruct a, b; cbn in *. subst. reflexivity.
Qed.
Lemma same_settings_trans a b c : same_settings a b -> same_settings b c -> same_settings a c.
Proof. unfold same_settings. intuition congruence. Qed.
Lemma picked_in {A} js (l r : list A) : picked js l r -> List.Forall (fun j => j < length l)%nat js.
Proof. induction 1; constructor; auto. apply nth_error_Some. congruence. Qed.
Lemma selects_bound n ind js : selects n ind js -> List.Forall (fun j => j < n)%nat js.
Proof.
  destruct ind; cbn; try easy.
  - intros (j & -> & H & _). auto.
  - intros [-> ->]. destruct b; auto.
  - intros (_ & H & _). exact H.
  - intros [_ H]. induction H; constructor; auto. apply H.
  - intros H. induction H; constructor; auto. apply H.
  - intros [_ ->]. apply List.Forall_forall. intros j Hj. apply filter_In in Hj. destruct Hj as [Hj _]. apply in_seq in Hj. lia.
Qed.
Lemma picked_ok {A} js (l : list A) : List.Forall (fun j => j < length l)%nat js -> exists r, picked js l r.
Proof.
  induction 1 as [|j js H _ (r & IH)]; [exists []; constructor|]. destruct (nth_error l j) as [a|] eqn:E; [|apply nth_error_None in E; lia].
  exists (a :: r). constructor; auto.
Qed.
Lemma positions_selects n js : List.Forall (fun j => j < n)%nat js -> selects n (IArray (map Z.of_nat js)) js.
Proof. cbn. induction 1; cbn; constructor; auto. split; auto. Qed.
Lemma twice_thm ind ind2 s s1 s2 n : aligned s n -> keys (s_params s) = documented -> getitem ind s = Ok s1 -> getitem ind2 s1 = Ok s2 ->
  exists js1 js2 js, selects n ind js1 /\ selects (length js1) ind2 js2 /\ picked js2 js1 js /\
                     getitem (IArray (map Z.of_nat js)) s = Ok s2.
Proof.
  intros A P H H2. destruct (index_thm ind s s1 n A P H) as (js1 & J1 & R1 & S1).
  assert (P1 : keys (s_params s1) = documented) by (destruct S1 as (_ & _ & _ & _ & _ & _ & _ & ->); exact P).
  destruct (index_thm ind2 s1 s2 _ (rows_aligned _ _ _ R1) P1 H2) as (js2 & J2 & R2 & S2).
  destruct (picked_ok js2 js1 (selects_bound _ _ _ J2)) as [js J]. exists js1, js2, js. split; [|split; [|split]]; auto.
  assert (R : rows js s s2) by now apply (rows_trans js1 js2 js s s1 s2).
  assert (K : s_class s <> KVerification) by apply (getitem_selects ind s s1 n A H).
  assert (B : List.Forall (fun j => j < n)%nat js) by (rewrite <- (al_m_1 _ _ A); exact (picked_in _ _ _ (row_m_1 _ _ _ R))).
  destruct (getitem_rows _ s n js K P A (positions_selects n js B)) as (s3 & E & R3 & S3). rewrite E. f_equal.
  apply (rows_fun js s); auto. now apply (same_settings_trans s s1 s2).
Qed.
Lemma picked_all {A} (l : list A) : picked (seq 0 (length l)) l l.
Proof.
  unfold picked. assert (K : forall l' k, l = firstn k l ++ l' -> length (firstn k l) = k -> Forall2 (fun j a => nth_error l j = Some a) (seq k (length l')) l').
  { induction l' as [|x l' IH]; intros k E L; cbn; constructor.
    - rewrite E, nth_error_app2, L, Nat.sub_diag by lia. reflexivity.
    - assert (F : firstn (S k) l = firstn k l ++ [x]).
      { rewrite E at 1. rewrite firstn_app, firstn_all2 by lia. rewrite L. replace (S k - k)%nat with 1%nat by lia. reflexivity. }
      apply IH; rewrite F; [now rewrite <- app_assoc|]. rewrite app_length, L. cbn. lia. }
  apply (K l 0%nat); reflexivity.
Qed.
Lemma picked_opt_all {A} (o : option (list A)) n : has_len n o -> picked_opt (seq 0 n) o o.
Proof. destruct o; cbn; auto. intros <-. apply picked_all. Qed.
Lemma sliced_all n : sliced n None None None (seq 0 n).
Proof.
  unfold sliced. cbn. split; [discriminate|]. split; [apply List.Forall_forall; intros j Hj; apply in_seq in Hj; lia|]. split.
  - pose proof (strongly_map_lt (fun j => j) n) as S. rewrite map_id in S. apply S. lia.
  - intros j. rewrite in_seq. split; [intros H; split; [lia|exists (Z.of_nat j); lia]|intros [H _]; lia].
Qed.
Lemma copy_thm s n : aligned s n -> keys (s_params s) = documented -> s_class s <> KVerification -> copy s = Ok s.
Proof.
  intros A P K. unfold copy. destruct (getitem_rows (ISlice None None None) s n (seq 0 n) K P A (sliced_all n)) as (s2 & E & R & S).
  rewrite E. f_equal. apply (rows_fun (seq 0 n) s); auto; [|unfold same_settings; auto 10].
  destruct A. split; try (now apply picked_opt_all); try (subst n; apply picked_all);
    match goal with |- picked (seq 0 ?n) ?l ?l => replace n with (length l) by assumption; apply picked_all end.
Qed.
Lemma verification_copy s : s_class s = KVerification -> copy s = Err NotImplementedErr.
Proof. intros H. unfold copy, getitem. now rewrite H. Qed.
Lemma errors_thm s n : aligned s n -> s_class s <> KVerification ->
  (forall m, length m <> n -> getitem (IMask m) s = Err ValueError) /\
  getitem IOther s = Err ValueError /\
  (forall z, (z < - Z.of_nat n \/ Z.of_nat n <= z)%Z -> getitem (IInt z) s = Err IndexError) /\
  (forall a b, getitem (ISlice a b (Some 0%Z)) s = Err ValueError).
Proof.
  intros A K. assert (N : n_sources s = n) by apply A. unfold getitem. rewrite N.
  assert (C : forall (r : res src), match s_class s with KVerification => Err NotImplementedErr | _ => r end = r) by (intros r; destruct (s_class s); congruence).
  split; [|split; [|split]].
  - intros m H. rewrite C. cbn [selection_of]. rewrite (proj2 (Nat.eqb_neq _ _) H). reflexivity.
  - rewrite C. reflexivity.
  - intros z H. rewrite C. cbn [selection_of rbind]. cbn [take mapM].
    replace (item (s_m_1 s) z) with (@Err num IndexError); [reflexivity|]. symmetry. unfold item. rewrite (al_m_1 _ _ A).
    destruct (z <? 0)%Z eqn:E; cbv zeta; [apply Z.ltb_lt in E|apply Z.ltb_ge in E].
    + rewrite (proj2 (Z.leb_gt _ _)) by lia. reflexivity.
    + rewrite (proj2 (Z.leb_le _ _)) by lia. rewrite (proj2 (nth_error_None _ _)); [reflexivity|]. rewrite (al_m_1 _ _ A). lia.
  - intros a b. rewrite C. reflexivity.
Qed.
(** An empty Python list selects nothing in numpy, but is rejected here. *)
Lemma empty_list_thm s n : aligned s n -> s_class s <> KVerification -> keys (s_params s) = documented ->
  getitem (IList []) s = Err ValueError /\ exists s2, getitem (IArray []) s = Ok s2 /\ rows [] s s2.
Proof.
  intros A K P. split.
  - unfold getitem. destruct (s_class s); cbn; congruence.
  - destruct (getitem_rows (IArray []) s n [] K P A (Forall2_nil _)) as (s2 & E & R & _). eauto.
Qed.
(** A bool is neither rejected nor used as an integer. *)
Lemma bool_thm s n b : aligned s n -> s_class s <> KVerification -> keys (s_params s) = documented ->
  (n <> 1%nat -> getitem (IBool b) s = Err IndexError) /\ (n = 1%nat -> exists s2, getitem (IBool b) s = Ok s2 /\ rows (if b then [0%nat] else []) s s2).
Proof.
  intros A K P. split.
  - intros N. unfold getitem. cbn [selection_of rbind take]. unfold take_mask. rewrite (al_m_1 _ _ A).
    assert (E : (length [b] =? n)%nat = false) by (apply Nat.eqb_neq; cbn; lia). rewrite E. destruct (s_class s); cbn; congruence.
  - intros E. assert (S : selects n (IBool b) (if b then [0%nat] else [])) by (cbn; auto).
    destruct (getitem_rows (IBool b) s n _ K P A S) as (s2 & G & R & _). eauto.
Qed.
Lemma toy_aligned k m1 m2 e d f isc sc params n : length m1 = n -> length m2 = n -> length e = n -> length d = n -> length f = n ->
  aligned (toy_src k m1 m2 e d f isc sc params) n.
Proof. intros. split; cbn; auto. unfold np_repeat. now rewrite repeat_length. Qed.
