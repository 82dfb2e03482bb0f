(** IndexFacts.v -- indexing a Source. *)
From Coq Require Import String Reals ZArith List Bool Sorted Lia.
From Verif Require Import Num Np NpFacts Utils Strain Psd Snr Evol Harmonics ScParams Source Index SourceSpec IndexSpec CurveSpec CurveFacts.
Import ListNotations.

Lemma item_spec {A} (l : list A) z a : item l z = Ok a <-> exists j, position (length l) z j /\ nth_error l j = Some a.
Proof.
  unfold item, position. destruct (z <? 0)%Z eqn:E; cbv zeta.
  - apply Z.ltb_lt in E. destruct (0 <=? z + Z.of_nat (length l))%Z eqn:F.
    + apply Z.leb_le in F. split.
      * intros H. destruct (nth_error l _) eqn:N; [|discriminate]. injection H as <-. exists (Z.to_nat (z + Z.of_nat (length l))).
        assert (Z.to_nat (z + Z.of_nat (length l)) < length l)%nat by (apply nth_error_Some; congruence). split; auto. split; auto. right. lia.
      * intros (j & (Hj & [K|[_ K]]) & N); [lia|]. rewrite K, Nat2Z.id, N. reflexivity.
    + apply Z.leb_gt in F. split; [discriminate|]. intros (j & (Hj & [K|[_ K]]) & N); lia.
  - apply Z.ltb_ge in E. rewrite (proj2 (Z.leb_le 0 z) E). split.
    + intros H. destruct (nth_error l _) eqn:N; [|discriminate]. injection H as <-. exists (Z.to_nat z).
      assert (Z.to_nat z < length l)%nat by (apply nth_error_Some; congruence). split; auto. split; auto. left. lia.
    + intros (j & (Hj & [K|[K1 K]]) & N); [|lia]. subst z. now rewrite Nat2Z.id, N.
Qed.
Lemma item_at {A} (l : list A) z j : position (length l) z j -> exists a, item l z = Ok a /\ nth_error l j = Some a.
Proof.
  intros H. destruct (nth_error l j) as [a|] eqn:E; [|exfalso; apply nth_error_None in E; destruct H; lia].
  exists a. split; auto. apply item_spec. eauto.
Qed.
Lemma position_fun n z j j' : position n z j -> position n z j' -> j = j'.
Proof. intros [A [B|[B C]]] [A' [B'|[B' C']]]; lia. Qed.
(** The positions an integer list or a mask selects. *)
Definition sel_positions (n : nat) (sel : selection) (js : list nat) : Prop :=
  match sel with
  | SelInts zs => Forall2 (position n) zs js
  | SelMask m => length m = n /\ js = filter (fun j => nth j m false) (seq 0 n)
  end.
Lemma mapM_item {A} (l : list A) zs js : Forall2 (position (length l)) zs js -> exists ys, mapM (item l) zs = Ok ys /\ picked js l ys.
Proof.
  induction 1 as [|z j zs js Hz _ (ys & E & P)]; [exists []; split; [reflexivity|constructor]|].
  destruct (item_at l z j Hz) as (a & Ha & Na). exists (a :: ys). cbn. rewrite Ha. cbn. rewrite E. split; [reflexivity|]. constructor; auto.
Qed.
Lemma select_positions {A} : forall m (l : list A) k, length m = length l ->
  Forall2 (fun j a => nth_error l (j - k) = Some a /\ (k <= j)%nat) (filter (fun j => nth (j - k) m false) (seq k (length l))) (select m l).
Proof.
  induction m as [|b m IH]; intros [|x l] k H; try discriminate H; cbn [select length seq filter]; [constructor|].
  injection H as H. rewrite Nat.sub_diag. change (nth 0 (b :: m) false) with b.
  assert (E : filter (fun j => nth (j - k) (b :: m) false) (seq (S k) (length l)) = filter (fun j => nth (j - S k) m false) (seq (S k) (length l))).
  { apply filter_ext_in. intros j Hj. apply in_seq in Hj. replace (j - k)%nat with (S (j - S k)) by lia. reflexivity. }
  rewrite E. clear E. specialize (IH l (S k) H).
  assert (K : Forall2 (fun j a => nth_error (x :: l) (j - k) = Some a /\ (k <= j)%nat) (filter (fun j => nth (j - S k) m false) (seq (S k) (length l))) (select m l)).
  { clear - IH. induction IH as [|j a js as_ [N Hj] _ IH2]; constructor; auto. replace (j - k)%nat with (S (j - S k)) by lia. split; [exact N|lia]. }
  destruct b; [|exact K]. constructor; [|exact K]. rewrite Nat.sub_diag. auto.
Qed.
Lemma Forall2_impl' {A B} (P Q : A -> B -> Prop) l l' : (forall a b, P a b -> Q a b) -> Forall2 P l l' -> Forall2 Q l l'.
Proof. intros H. induction 1; constructor; auto. Qed.
Lemma take_spec {A} sel js n (l : list A) : sel_positions n sel js -> length l = n -> exists ys, take sel l = Ok ys /\ picked js l ys.
Proof.
  intros S L. destruct sel as [zs|m]; cbn in S |- *.
  - subst n. now apply mapM_item.
  - destruct S as [Lm ->]. unfold take_mask. rewrite Lm, L, Nat.eqb_refl. eexists. split; [reflexivity|].
    pose proof (select_positions m l 0 ltac:(congruence)) as P. rewrite <- L.
    rewrite (filter_ext (fun j => nth (j - 0) m false) (fun j => nth j m false)) in P by (intros j; now rewrite Nat.sub_0_r).
    apply (Forall2_impl' _ _ _ _ (fun j a (H : nth_error l (j - 0) = Some a /\ _) => eq_trans (f_equal (nth_error l) (eq_sym (Nat.sub_0_r j))) (proj1 H)) P).
Qed.
Lemma take_opt_spec {A} sel js n (o : option (list A)) : sel_positions n sel js -> has_len n o -> exists o2, take_option sel o = Ok o2 /\ picked_opt js o o2.
Proof.
  intros S L. destruct o as [l|]; cbn; [|exists None; split; [reflexivity|exact I]].
  destruct (take_spec sel js n l S L) as (ys & -> & P). exists (Some ys). split; [reflexivity|exact P].
Qed.
Lemma picked_fun {A} js (l a b : list A) : picked js l a -> picked js l b -> a = b.
Proof.
  unfold picked. intros H. revert b. induction H as [|j x js l2 N _ IH]; intros b K; inversion K; subst; auto. f_equal; [congruence|auto].
Qed.
Lemma picked_len {A} js (l a : list A) : picked js l a -> length a = length js.
Proof. induction 1; cbn; auto. Qed.
Lemma picked_opt_len {A} js (l a : option (list A)) n : length js = n -> picked_opt js l a -> has_len n a.
Proof. intros <-. destruct l, a; cbn; auto; try easy. apply picked_len. Qed.
Lemma rows_aligned js s s2 : rows js s s2 -> aligned s2 (length js).
Proof. intros []. split; eauto using picked_len, picked_opt_len. Qed.

(** ** Slices *)
Lemma strongly_map_lt (f : nat -> nat) n : (forall i j, (i < j < n)%nat -> (f i < f j)%nat) -> StronglySorted lt (map f (seq 0 n)).
Proof.
  intros H. assert (K : forall m k, (k + m <= n)%nat -> StronglySorted lt (map f (seq k m))).
  { induction m; intros k Hk; cbn; constructor; [apply IHm; lia|]. apply List.Forall_forall. intros y Hy. apply in_map_iff in Hy. destruct Hy as (i & <- & Hi).
    apply in_seq in Hi. apply H. lia. }
  apply K. lia.
Qed.
Lemma strongly_map_gt (f : nat -> nat) n : (forall i j, (i < j < n)%nat -> (f i > f j)%nat) -> StronglySorted gt (map f (seq 0 n)).
Proof.
  intros H. assert (K : forall m k, (k + m <= n)%nat -> StronglySorted gt (map f (seq k m))).
  { induction m; intros k Hk; cbn; constructor; [apply IHm; lia|]. apply List.Forall_forall. intros y Hy. apply in_map_iff in Hy. destruct Hy as (i & <- & Hi).
    apply in_seq in Hi. apply H. lia. }
  apply K. lia.
Qed.
Lemma slice_bound_cut n st b d : (st <> 0)%Z -> slice_bound n st b d = if (0 <? st)%Z then cut n 0 n b d else cut n (-1) (n - 1) b d.
Proof. unfold slice_bound, cut, clamp. intros H. destruct (0 <? st)%Z, b as [z|]; auto; destruct (z <? 0)%Z; auto. Qed.
Lemma slice_spec n a b step l : slice_indices n a b step = Ok l ->
  l = map Z.of_nat (map Z.to_nat l) /\ sliced n a b step (map Z.to_nat l).
Proof.
  unfold slice_indices, sliced. set (st := match step with None => 1%Z | Some s => s end). cbv zeta. destruct (st =? 0)%Z eqn:E0; [discriminate|].
  apply Z.eqb_neq in E0. intros H. injection H as <-. rewrite !slice_bound_cut by auto. unfold slice_count.
  destruct (0 <? st)%Z eqn:Es; [apply Z.ltb_lt in Es|apply Z.ltb_ge in Es].
  - set (lo := cut _ 0 _ a 0). set (hi := cut _ 0 _ b (Z.of_nat n)).
    assert (Hlo : (0 <= lo)%Z) by (unfold lo, cut; destruct a; lia).
    assert (Hhi : (hi <= Z.of_nat n)%Z) by (unfold hi, cut; destruct b as [z|]; [destruct (z <? 0)%Z|]; lia).
    set (m := if (lo <? hi)%Z then Z.to_nat ((hi - lo - 1) / st + 1) else 0%nat).
    assert (Hm : forall k, (k < m)%nat -> (lo <= lo + Z.of_nat k * st < hi)%Z).
    { intros k Hk. unfold m in Hk. destruct (lo <? hi)%Z eqn:F; [apply Z.ltb_lt in F|lia].
      assert (0 <= (hi - lo - 1) / st)%Z by (apply Z.div_pos; lia). assert (Z.of_nat k <= (hi - lo - 1) / st)%Z by lia.
      assert (st * ((hi - lo - 1) / st) <= hi - lo - 1)%Z by (apply Z.mul_div_le; lia). nia. }
    rewrite !map_map. split; [|split; [exact E0|split]].
    + apply map_ext_in. intros k Hk. apply in_seq in Hk. rewrite Z2Nat.id; auto. specialize (Hm k ltac:(lia)). lia.
    + apply List.Forall_forall. intros j Hj. apply in_map_iff in Hj. destruct Hj as (k & <- & Hk). apply in_seq in Hk. specialize (Hm k ltac:(lia)). lia.
    + split.
      * apply strongly_map_lt. intros i j Hij. pose proof (Hm i ltac:(lia)). pose proof (Hm j ltac:(lia)). apply Z2Nat.inj_lt; try lia. nia.
      * intros j. rewrite in_map_iff. split.
        -- intros (k & <- & Hk). apply in_seq in Hk. specialize (Hm k ltac:(lia)). rewrite Z2Nat.id by lia. split; [lia|]. exists (Z.of_nat k). split; lia.
        -- intros (Hj & k & Hk & Ej). exists (Z.to_nat k). rewrite Z2Nat.id by lia. split; [lia|]. apply in_seq. split; [lia|].
           unfold m. rewrite (proj2 (Z.ltb_lt lo hi)) by lia. apply Z2Nat.inj_lt; try lia.
           ++ assert (0 <= (hi - lo - 1) / st)%Z by (apply Z.div_pos; lia). lia.
           ++ enough (k <= (hi - lo - 1) / st)%Z by lia. apply Z.div_le_lower_bound; lia.
  - set (hi := cut _ (-1) _ a _). set (lo := cut _ (-1) _ b (-1)).
    assert (Hhi : (hi <= Z.of_nat n - 1)%Z) by (unfold hi, cut; destruct a as [z|]; [destruct (z <? 0)%Z|]; lia).
    assert (Hlo : (-1 <= lo)%Z) by (unfold lo, cut; destruct b; lia).
    set (m := if (lo <? hi)%Z then Z.to_nat ((hi - lo - 1) / - st + 1) else 0%nat).
    assert (Hm : forall k, (k < m)%nat -> (lo < hi + Z.of_nat k * st <= hi)%Z).
    { intros k Hk. unfold m in Hk. destruct (lo <? hi)%Z eqn:F; [apply Z.ltb_lt in F|lia].
      assert (0 <= (hi - lo - 1) / - st)%Z by (apply Z.div_pos; lia). assert (Z.of_nat k <= (hi - lo - 1) / - st)%Z by lia.
      assert (- st * ((hi - lo - 1) / - st) <= hi - lo - 1)%Z by (apply Z.mul_div_le; lia). nia. }
    rewrite !map_map. split; [|split; [exact E0|split]].
    + apply map_ext_in. intros k Hk. apply in_seq in Hk. rewrite Z2Nat.id; auto. specialize (Hm k ltac:(lia)). lia.
    + apply List.Forall_forall. intros j Hj. apply in_map_iff in Hj. destruct Hj as (k & <- & Hk). apply in_seq in Hk. specialize (Hm k ltac:(lia)). lia.
    + split.
      * apply strongly_map_gt. intros i j Hij. pose proof (Hm i ltac:(lia)). pose proof (Hm j ltac:(lia)). apply Z2Nat.inj_lt; try lia. nia.
      * intros j. rewrite in_map_iff. split.
        -- intros (k & <- & Hk). apply in_seq in Hk. specialize (Hm k ltac:(lia)). rewrite Z2Nat.id by lia. split; [lia|]. exists (Z.of_nat k). split; lia.
        -- intros (Hj & k & Hk & Ej). exists (Z.to_nat k). rewrite Z2Nat.id by lia. split; [lia|]. apply in_seq. split; [lia|].
           unfold m. rewrite (proj2 (Z.ltb_lt lo hi)) by lia. apply Z2Nat.inj_lt; try lia.
           ++ assert (0 <= (hi - lo - 1) / - st)%Z by (apply Z.div_pos; lia). lia.
           ++ enough (k <= (hi - lo - 1) / - st)%Z by lia. apply Z.div_le_lower_bound; nia.
Qed.
(** Sorted lists with the same elements are equal. *)
Lemma sorted_unique (R : nat -> nat -> Prop) : (forall a b, R a b -> ~ R b a) -> forall l l', StronglySorted R l -> StronglySorted R l' ->
  (forall j, In j l <-> In j l') -> l = l'.
Proof.
  intros Hr. assert (Hirr : forall a, ~ R a a) by (intros a Ha; exact (Hr a a Ha Ha)).
  induction l as [|x l IH]; intros [|y l'] S S' E; auto.
  - exfalso. apply (proj2 (E y)). now left.
  - exfalso. apply (proj1 (E x)). now left.
  - inversion_clear S as [|? ? S1 S2]. inversion_clear S' as [|? ? S1' S2']. rewrite List.Forall_forall in S2, S2'.
    assert (x = y).
    { destruct (proj1 (E x) (or_introl eq_refl)) as [->|Hx]; auto. destruct (proj2 (E y) (or_introl eq_refl)) as [->|Hy]; auto.
      exfalso. exact (Hr _ _ (S2 y Hy) (S2' x Hx)). }
    subst y. f_equal. apply IH; auto. intros j. split; intros Hj.
    + destruct (proj1 (E j) (or_intror Hj)) as [->|]; auto. exfalso. exact (Hirr _ (S2 _ Hj)).
    + destruct (proj2 (E j) (or_intror Hj)) as [->|]; auto. exfalso. exact (Hirr _ (S2' _ Hj)).
Qed.
Lemma sliced_unique n a b st js js' : sliced n a b st js -> sliced n a b st js' -> js = js'.
Proof.
  unfold sliced. cbv zeta. intros (_ & _ & A) (_ & _ & B). destruct (0 <? _)%Z.
  - destruct A as [S A], B as [S' B]. apply (sorted_unique lt); auto; [intros; lia|]. intros j. now rewrite A, B.
  - destruct A as [S A], B as [S' B]. apply (sorted_unique gt); auto; [intros; lia|]. intros j. now rewrite A, B.
Qed.
Lemma slice_exists n a b step : (match step with None => 1 | Some s => s end <> 0)%Z -> exists l, slice_indices n a b step = Ok l.
Proof. intros H. unfold slice_indices. rewrite (proj2 (Z.eqb_neq _ 0) H). eauto. Qed.

(** ** What is selected *)
Lemma selection_spec n ind sel js : selection_of n ind = Ok sel -> (sel_positions n sel js <-> selects n ind js).
Proof.
  destruct ind; cbn; intros H; try discriminate.
  - injection H as <-. cbn. split.
    + intros F. inversion F as [|? j ? ? P Q]; subst. inversion Q; subst. eauto.
    + intros (j & -> & P). now constructor.
  - injection H as <-. cbn. split.
    + intros [E ->]. rewrite <- E. split; auto; cbn; now destruct b.
    + intros [-> ->]. split; auto; cbn; now destruct b.
  - destruct (slice_indices n start stop step) as [l|e] eqn:E; cbn in H; [|discriminate]. injection H as <-. destruct (slice_spec _ _ _ _ _ E) as [Rt Sl].
    cbn. split.
    + intros F. assert (js = map Z.to_nat l); [|now subst]. clear Sl. rewrite Rt in F. clear - F Rt. remember (map Z.to_nat l) as q. clear Rt Heqq l.
      revert js F. induction q as [|j q IH]; intros js F; cbn in F; inversion F as [|? ? ? ? P Q]; subst; auto. f_equal; [|now apply IH].
      destruct P as [_ [P|[P _]]]; lia.
    + intros S. rewrite (sliced_unique _ _ _ _ _ _ S Sl). destruct Sl as (_ & B & _). rewrite Rt at 1. clear - B. induction (map Z.to_nat l); cbn; constructor.
      * inversion B; subst. split; auto.
      * apply IHl0. now inversion B.
  - destruct l; [discriminate|]. injection H as <-. cbn. split; [intros F; split; [discriminate|exact F]|now intros [_ F]].
  - injection H as <-. cbn. tauto.
  - destruct (length l =? n)%nat eqn:E; [|discriminate]. injection H as <-. cbn. tauto.
Qed.
Lemma selects_ok n ind js : selects n ind js -> exists sel, selection_of n ind = Ok sel.
Proof.
  destruct ind; cbn; intros H; eauto; try easy.
  - destruct H as (H & _). destruct (slice_exists n start stop step H) as [l ->]. cbn. eauto.
  - destruct l; [now destruct H|eauto].
  - destruct H as [-> _]. rewrite Nat.eqb_refl. eauto.
Qed.
Lemma getitem_rows ind s n js : s_class s <> KVerification -> keys (s_params s) = documented -> aligned s n -> selects n ind js ->
  exists s2, getitem ind s = Ok s2 /\ rows js s s2 /\ same_settings s s2.
Proof.
  intros K P A S. destruct (selects_ok _ _ _ S) as [sel E]. apply (selection_spec _ _ _ _ E) in S.
  assert (N : n_sources s = n) by apply A.
  destruct A as [L1 L2 L3 L4 L5 L6 L7 L8 L9 L10 L11 L12 L13].
  destruct (take_spec sel js n _ S L1) as (m1 & E1 & P1). destruct (take_spec sel js n _ S L2) as (m2 & E2 & P2).
  destruct (take_spec sel js n _ S L3) as (d & E3 & P3). destruct (take_spec sel js n _ S L4) as (f & E4 & P4).
  destruct (take_spec sel js n _ S L5) as (e & E5 & P5). destruct (take_spec sel js n _ S L6) as (mg & E6 & P6).
  destruct (take_opt_spec sel js n _ S L7) as (w & E7 & P7). destruct (take_opt_spec sel js n _ S L8) as (po & E8 & P8).
  destruct (take_opt_spec sel js n _ S L9) as (ic & E9 & P9). destruct (take_opt_spec sel js n _ S L10) as (pl & E10 & P10).
  destruct (take_opt_spec sel js n _ S L11) as (tm & E11 & P11). destruct (take_opt_spec sel js n _ S L12) as (sn & E12 & P12).
  destruct (take_opt_spec sel js n _ S L13) as (ms & E13 & P13).
  unfold getitem. rewrite N, E, (make_params_same _ P). cbn [rbind].
  rewrite E1, E2, E5, E3, E4. cbn [rbind]. rewrite E8, E9, E10, E7, E11, E12, E13. cbn [rbind]. rewrite E6. cbn [rbind].
  exists (mkSrc (s_class s) m1 m2 d f e w po ic pl tm sn ms mg (s_stat_tol s) (s_n_proc s) (s_harm s) (s_g s) (s_interpolate_sc s) (s_sc s) (s_params s)).
  split; [destruct (s_class s); try reflexivity; congruence|]. split; [split; assumption|]. unfold same_settings. cbn. auto 10.
Qed.
Lemma mapM_length {A B} (f : A -> res B) l r : mapM f l = Ok r -> length r = length l.
Proof. revert r. induction l as [|x l IH]; cbn; intros r; [intros H; now injection H as <-|]. destruct (f x); cbn; [|discriminate]. destruct (mapM f l); cbn; [|discriminate].
  intros H. injection H as <-. cbn. f_equal. now apply IH. Qed.
(** Conversely a successful indexing selects something. *)
Lemma take_selects {A} sel n (l r : list A) : length l = n -> take sel l = Ok r -> exists js, sel_positions n sel js.
Proof.
  intros L H. destruct sel as [zs|m]; cbn in *.
  - subst n. revert r H. induction zs as [|z zs IH]; cbn; intros r H; [exists []; constructor|].
    destruct (item l z) eqn:E; cbn in H; [|discriminate]. destruct (mapM (item l) zs) eqn:F; cbn in H; [|discriminate].
    destruct (IH _ eq_refl) as [js J]. apply item_spec in E. destruct E as (j & Pj & _). exists (j :: js). constructor; auto.
  - unfold take_mask in H. destruct (length m =? length l)%nat eqn:E; [|discriminate]. apply Nat.eqb_eq in E. eexists. split; [congruence|reflexivity].
Qed.
Lemma getitem_selects ind s s2 n : aligned s n -> getitem ind s = Ok s2 -> s_class s <> KVerification /\ exists js, selects n ind js.
Proof.
  intros A H. unfold getitem in H. destruct (s_class s) eqn:C; try discriminate; (split; [discriminate|]);
  rewrite (al_m_1 _ _ A : n_sources s = n) in H; destruct (selection_of n ind) as [sel|e] eqn:E; cbn in H; try discriminate;
  destruct (take sel (s_m_1 s)) as [m1|e] eqn:F; cbn in H; try discriminate;
  destruct (take_selects sel n _ _ (al_m_1 _ _ A) F) as [js J]; exists js; now apply (selection_spec _ _ _ _ E).
Qed.
