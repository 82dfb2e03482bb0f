(** EvolveThms.v -- C62, C63, C83: evolution of a collection. *)
From Coq Require Import String Reals ZArith List Bool Lra Lia.
From Verif Require Import Num NumFacts Np NpFacts Utils Spec UtilsFacts Evol EvolSpec EvolFacts MergeFacts ArrEvolFacts EccEvolFacts CircFacts Strain StrainSpec
  Snr SnrSpec SnrFacts Harmonics ScParams Source Index SourceSpec MethodSpec History CurveSpec CurveFacts SourceFacts MethodFacts MethodThms SourceThms SourceThms2 CurveThms InitSpec InitFacts EvolveSpec EvolveFacts.
Import ListNotations.
Open Scope R_scope.

Definition enum (xs : list row) : list (nat * row) := combine (seq 0 (length xs)) xs.
Lemma enum_snd xs : map snd (enum xs) = xs.
Proof. apply combine_snd. now rewrite seq_length. Qed.
Lemma enum_fst xs : map fst (enum xs) = seq 0 (length xs).
Proof. apply combine_fst. now rewrite seq_length. Qed.
Lemma enum_nth xs i r : nth_error xs i = Some r -> nth_error (enum xs) i = Some (i, r).
Proof.
  intros H. apply combine_nth'; auto. assert (L : (i < length xs)%nat) by (apply nth_error_Some; congruence).
  rewrite (nth_error_nth' (seq 0 (length xs)) O) by (now rewrite seq_length). now rewrite seq_nth.
Qed.
Lemma enum_in xs i r : In (i, r) (enum xs) -> nth_error xs i = Some r.
Proof.
  intros H. apply In_nth_error in H. destruct H as [k K]. assert (L : (k < length (enum xs))%nat) by (apply nth_error_Some; congruence).
  unfold enum in L. rewrite combine_length, seq_length in L. destruct (nth_error xs k) as [r'|] eqn:E.
  - rewrite (enum_nth xs k r' E) in K. injection K as <- <-. exact E.
  - apply nth_error_None in E. lia.
Qed.
Lemma times_for_enum te xs (T : nat -> R) : evolution_times te (length xs) (map T (seq 0 (length xs))) -> times_for (fun y => T (fst y)) (enum xs) te.
Proof.
  intros [_ H]. destruct te as [|t|l]; cbn; auto.
  - intros y Hy. apply H. apply in_map_iff. exists (fst y). split; auto. rewrite <- enum_fst. now apply in_map.
  - rewrite H, map_map, <- enum_fst, map_map. reflexivity.
Qed.
(** One call. *)
Definition evolve_state x s xs (T tm : nat -> R) : src :=
  set_t_merge (Some (map (fun y => Fin (Rmax 0 (tm (fst y) - T (fst y)))) (enum xs)))
    (set_orbit (map (fun y => new_e x (snd y) (T (fst y)) (tm (fst y))) (enum xs)) (map (fun y => new_f x (snd y) (T (fst y)) (tm (fst y))) (enum xs))
       (map (fun y => new_m (T (fst y)) (tm (fst y))) (enum xs)) s).
Definition evolve_rows x xs (T tm : nat -> R) : list row := map (fun y => next_row x (snd y) (T (fst y)) (tm (fst y))) (enum xs).
Lemma evolve_step x te s xs (T tm : nat -> R) : collection s xs -> (s_t_merge s = None -> bound xs) -> (forall i r, nth_error xs i = Some r -> merges_at x s r (Fin (tm i))) ->
  evolution_times te (length xs) (map T (seq 0 (length xs))) ->
  evolve_sources x te s = (evolve_state x s xs T tm, Ok tt) /\ collection (evolve_state x s xs T tm) (evolve_rows x xs T tm).
Proof.
  intros C B H HT. rewrite <- (enum_snd xs) in C at 1.
  split.
  - apply (evolve_map snd x te s (enum xs) (fun y => T (fst y)) (fun y => tm (fst y))); auto.
    + intros N. rewrite enum_snd. auto.
    + intros [i r] Hy. apply (H i). now apply enum_in.
    + now apply times_for_enum.
  - apply (collection_next snd x s (enum xs) (fun y => T (fst y)) (fun y => tm (fst y))). exact C.
Qed.
Lemma evolve_rows_nth x xs T tm i r : nth_error xs i = Some r -> nth_error (evolve_rows x xs T tm) i = Some (next_row x r (T i) (tm i)).
Proof. intros H. unfold evolve_rows. apply enum_nth in H. apply (map_nth_error (fun y => next_row x (snd y) (T (fst y)) (tm (fst y)))) in H. exact H. Qed.
Lemma evolve_rows_len x xs T tm : length (evolve_rows x xs T tm) = length xs.
Proof. unfold evolve_rows, enum. rewrite map_length, combine_length, seq_length. lia. Qed.
Lemma evolve_rows_inv x xs T tm i r' : nth_error (evolve_rows x xs T tm) i = Some r' -> exists r, nth_error xs i = Some r /\ r' = next_row x r (T i) (tm i).
Proof.
  intros H. assert (L : (i < length xs)%nat) by (rewrite <- (evolve_rows_len x xs T tm); apply nth_error_Some; congruence).
  destruct (nth_error xs i) as [r|] eqn:E; [|apply nth_error_None in E; lia]. exists r. split; auto. rewrite (evolve_rows_nth x xs T tm i r E) in H. congruence.
Qed.
Lemma evolve_same x s xs T tm : same_but_orbit s (evolve_state x s xs T tm).
Proof. unfold same_but_orbit, same_settings. cbn. auto 20. Qed.
Lemma same_trans a b c : same_but_orbit a b -> same_but_orbit b c -> same_but_orbit a c.
Proof.
  unfold same_but_orbit, same_settings. intros (A1 & A2 & A3 & A4 & A5 & A6 & A7 & A8 & A9 & A10 & A11 & A12 & A13 & A14 & A15 & A16 & A17).
  intros (B1 & B2 & B3 & B4 & B5 & B6 & B7 & B8 & B9 & B10 & B11 & B12 & B13 & B14 & B15 & B16 & B17).
  repeat split; etransitivity; eassumption.
Qed.
Lemma same_refl s : same_but_orbit s s.
Proof. unfold same_but_orbit, same_settings. auto 20. Qed.

(** ** C83 *)
Lemma evolve_thm x te s xs (T tm : nat -> R) : odeint_shape (x_odeint x) -> collection s xs -> bound xs ->
  (forall i r, nth_error xs i = Some r -> merges_at x s r (Fin (tm i))) -> evolution_times te (length xs) (map T (seq 0 (length xs))) ->
  exists s', evolve_sources x te s = (s', Ok tt) /\ same_but_orbit s s' /\
    length (s_ecc s') = length xs /\ length (s_f_orb s') = length xs /\ length (s_merged s') = length xs /\
    forall i r, nth_error xs i = Some r -> exists e f b, evolves_to x (T i) (tm i) r e f b /\
      nth_error (s_ecc s') i = Some e /\ nth_error (s_f_orb s') i = Some f /\ nth_error (s_merged s') i = Some b /\
      exists tms, s_t_merge s' = Some tms /\ length tms = length xs /\ nth_error tms i = Some (Fin (Rmax 0 (tm i - T i))).
Proof.
  intros O C B H HT. destruct (evolve_step x te s xs T tm C (fun _ => B) H HT) as [E C']. eexists. split; [exact E|]. split; [apply evolve_same|].
  assert (L : length (enum xs) = length xs) by (unfold enum; rewrite combine_length, seq_length; lia).
  cbn. rewrite !map_length, L. split; auto. split; auto. split; auto. intros i r Hr. pose proof (enum_nth xs i r Hr) as N.
  exists (new_e x r (T i) (tm i)), (new_f x r (T i) (tm i)), (new_m (T i) (tm i)). split; [now apply new_spec|].
  split; [exact (map_nth_error (fun y => new_e x (snd y) (T (fst y)) (tm (fst y))) i (enum xs) N)|].
  split; [exact (map_nth_error (fun y => new_f x (snd y) (T (fst y)) (tm (fst y))) i (enum xs) N)|].
  split; [exact (map_nth_error (fun y => new_m (T (fst y)) (tm (fst y))) i (enum xs) N)|].
  eexists. split; [reflexivity|]. rewrite map_length, L. split; auto.
  exact (map_nth_error (fun y => Fin (Rmax 0 (tm (fst y) - T (fst y)))) i (enum xs) N).
Qed.

(** ** C62 *)
Definition counted (tm T : nat -> R) : nat -> R := fun i => Rmax 0 (tm i - T i).
Lemma clock_next x s xs T tm : clock x s xs tm -> clock x (evolve_state x s xs T tm) (evolve_rows x xs T tm) (counted tm T).
Proof.
  intros H i r' Hr. destruct (evolve_rows_inv _ _ _ _ _ _ Hr) as (r & Hr0 & ->). unfold merges_at. cbn. reflexivity.
Qed.
Lemma history_all x : forall tes Ts s xs tm, collection s xs -> (s_t_merge s = None -> bound xs) -> clock x s xs tm -> (forall i, (i < length xs)%nat -> 0 <= tm i) ->
  history_times (length xs) tes Ts -> tes <> [] ->
  exists s' xs', evolve_all x tes s = (s', Ok tt) /\ collection s' xs' /\ length xs' = length xs /\ same_but_orbit s s' /\
    forall i r', nth_error xs' i = Some r' -> s_t_merge s' <> None /\ r_tm r' = Fin (Rmax 0 (tm i - total Ts i)) /\ (r_merged r' = true <-> tm i <= total Ts i) /\
      (r_merged r' = true -> r_f r' = Fin 100 /\ r_e r' = Fin 0).
Proof.
  induction tes as [|te tes IH]; [easy|]. intros Ts s xs tm C B K P HT _. inversion HT as [|? T ? Ts' [H1 H2] H3]; subst.
  destruct (evolve_step x te s xs T tm C B K H1) as [E C']. cbn [evolve_all]. rewrite E. set (s1 := evolve_state x s xs T tm) in *. set (xs1 := evolve_rows x xs T tm) in *.
  assert (L1 : length xs1 = length xs) by apply evolve_rows_len.
  destruct tes as [|te2 tes].
  - inversion H3; subst Ts'. exists s1, xs1. split; [reflexivity|]. split; auto. split; auto. split; [apply evolve_same|].
    intros i r' Hr. destruct (evolve_rows_inv _ _ _ _ _ _ Hr) as (r & Hr0 & ->). split; [discriminate|]. unfold total, Rsum. cbn. rewrite Rplus_0_r. split; auto.
    unfold new_m, new_f, new_e. destruct (Rle_dec (tm i) (T i)); split; auto; split; intros; auto; try easy; lra.
  - destruct (IH Ts' s1 xs1 (counted tm T) C') as (s' & xs' & E' & C2 & L2 & S2 & H).
    + discriminate.
    + now apply clock_next.
    + intros i _. apply Rmax_l.
    + rewrite L1. exact H3.
    + discriminate.
    + exists s', xs'. split; [exact E'|]. split; auto. split; [congruence|]. split; [eapply same_trans; [apply evolve_same|exact S2]|].
      intros i r' Hr. destruct (H i r' Hr) as (A1 & A2 & A3 & A4). assert (Li : (i < length xs)%nat) by (rewrite <- L1, <- L2; apply nth_error_Some; congruence).
      split; auto. unfold counted in A2, A3. change (total (T :: Ts') i) with (T i + total Ts' i).
      assert (Z : 0 <= total Ts' i).
      { rewrite <- L1 in Li. clear - H3 Li L1. unfold history_times in H3. rewrite <- L1 in H3. unfold total. generalize dependent (te2 :: tes). intros l H3. induction H3 as [|? ? ? ? [_ Q] ? IH]; cbn; [lra|]. specialize (Q i Li). 
        change (Rsum (map (fun T => T i) l')) with (total l' i) in IH. unfold Rsum in *. cbn. fold (Rsum (map (fun T => T i) l')). unfold total in IH. lra. }
      split; [rewrite A2; f_equal; unfold Rmax; repeat destruct (Rle_dec _ _); lra|]. split; auto.
      rewrite A3. specialize (H2 i Li). unfold Rmax. destruct (Rle_dec 0 (tm i - T i)); lra.
Qed.

(** ** C63 *)
Definition circ_row (r : row) (tm : R) : Prop :=
  r_merged r = true /\ tm = 0 \/
  r_merged r = false /\ r_e r = Fin 0 /\ exists m1 m2 f, r_m1 r = Fin m1 /\ r_m2 r = Fin m2 /\ r_f r = Fin f /\ 0 < m1 /\ 0 < m2 /\ 0 < f /\
     tm = tmR (betaR m1 m2) (aR f m1 m2).
Lemma circ_row_of x s r tm : circular_binary x s r tm -> circ_row r tm.
Proof.
  intros [_ [H|(A & B & m1 & m2 & f & C1 & C2 & C3 & C4 & C5 & C6 & C7)]]; [now left|]. right. split; auto. split; auto. exists m1, m2, f. do 6 (split; auto).
  rewrite merge_circ_sc_f in C7 by auto. congruence.
Qed.
Lemma circ_step x r tm T : circ_row r tm -> 0 <= T -> (r_merged r = false -> unmarked x r T) ->
  circ_row (next_row x r T tm) (Rmax 0 (tm - T)) /\
  (r_merged (next_row x r T tm) = false -> exists m1 m2 f f', r_merged r = false /\ r_m1 r = Fin m1 /\ r_m2 r = Fin m2 /\ r_f r = Fin f /\ 0 < m1 /\ 0 < m2 /\ 0 < f /\ 0 < f' /\
     tm = tmR (betaR m1 m2) (aR f m1 m2) /\ T < tm /\ is_circ r = true /\
     r_f (next_row x r T tm) = Fin f' /\ aR f' m1 m2 = acR (aR f m1 m2) (betaR m1 m2) T).
Proof.
  intros H HT U. cbn [next_row r_merged r_f]. unfold new_m, new_f. destruct (Rle_dec tm T) as [L|L].
  - split; [|discriminate]. left. cbn. unfold new_m. destruct (Rle_dec tm T); [|easy]. split; auto. unfold Rmax. destruct (Rle_dec 0 _); lra.
  - destruct H as [[H ->]|(A & B & m1 & m2 & f & C1 & C2 & C3 & C4 & C5 & C6 & C7)]; [lra|].
    pose proof (betaR_pos m1 m2 C4 C5) as Hb. assert (Ha : 0 < aR f m1 m2) by apply aR_pos. assert (L' : T < tmR (betaR m1 m2) (aR f m1 m2)) by lra.
    assert (IC : is_circ r = true) by (unfold is_circ; rewrite B; now apply neqb_t).
    assert (NT : acR (aR f m1 m2) (betaR m1 m2) T <> tiny).
    { intros K. apply (U A m1 m2 f C1 C2 C3). rewrite circ_call_freq_a by auto. now rewrite K. }
    pose proof (acR_pos (aR f m1 m2) _ T Hb L') as Hp.
    assert (EF : circ_f r (Fin T) = Fin (fR (acR (aR f m1 m2) (betaR m1 m2) T) m1 m2)).
    { unfold circ_f, sep, bet. rewrite C1, C2, C3, beta_fin, get_a_fin, circ_a_fin by auto. now rewrite freq_of_a_fin. }
    assert (EA : aR (fR (acR (aR f m1 m2) (betaR m1 m2) T) m1 m2) m1 m2 = acR (aR f m1 m2) (betaR m1 m2) T) by (now apply aR_fR).
    rewrite IC. split.
    + right. cbn. unfold new_m, new_e, new_f. destruct (Rle_dec tm T); [easy|]. rewrite IC. split; auto. split; auto. exists m1, m2, (fR (acR (aR f m1 m2) (betaR m1 m2) T) m1 m2).
      do 3 (split; auto). do 2 (split; auto). split; [apply fR_pos|]. rewrite EA, tmR_acR by auto. rewrite Rmax_right; lra.
    + intros _. exists m1, m2, f, (fR (acR (aR f m1 m2) (betaR m1 m2) T) m1 m2). do 7 (split; auto). split; [apply fR_pos|]. split; auto. split; [lra|]. auto.
Qed.
Lemma circ_compose x r tm T1 T2 : circ_row r tm -> 0 <= T1 -> 0 <= T2 -> (r_merged r = false -> unmarked x r T1) ->
  next_row x (next_row x r T1 tm) T2 (Rmax 0 (tm - T1)) = next_row x r (T1 + T2) tm.
Proof.
  intros H H1 H2 U. destruct (circ_step x r tm T1 H H1 U) as [HC HN].
  assert (EM : Rmax 0 (Rmax 0 (tm - T1) - T2) = Rmax 0 (tm - (T1 + T2))) by (unfold Rmax; repeat destruct (Rle_dec _ _); lra).
  assert (EN : new_m T2 (Rmax 0 (tm - T1)) = new_m (T1 + T2) tm) by (unfold new_m, Rmax; repeat destruct (Rle_dec _ _); try lra; auto).
  unfold next_row at 1 3. f_equal; auto; try reflexivity.
  - unfold new_f at 1 2. unfold new_m in EN. destruct (Rle_dec (Rmax 0 (tm - T1)) T2) as [L|L], (Rle_dec tm (T1 + T2)) as [L'|L']; try discriminate; auto.
    assert (NM : r_merged (next_row x r T1 tm) = false) by (cbn; unfold new_m; destruct (Rle_dec tm T1); [lra|auto]).
    destruct (HN NM) as (m1 & m2 & f & f' & A & C1 & C2 & C3 & C4 & C5 & C6 & C7 & C8 & C9 & IC & E1 & E2).
    assert (IC' : is_circ (next_row x r T1 tm) = true) by (unfold is_circ; cbn; unfold new_e; rewrite IC; destruct (Rle_dec _ _); now apply neqb_t).
    rewrite IC, IC'. unfold circ_f, sep, bet. rewrite E1. cbn [r_m1 r_m2 next_row]. rewrite C1, C2, C3, !beta_fin, !get_a_fin, !circ_a_fin by auto.
    rewrite E2, acR_compose; auto; [now apply betaR_pos|lra].
  - unfold new_e at 1 2. unfold new_m in EN. destruct (Rle_dec (Rmax 0 (tm - T1)) T2) as [L|L], (Rle_dec tm (T1 + T2)) as [L'|L']; try discriminate; auto.
    assert (NM : r_merged (next_row x r T1 tm) = false) by (cbn; unfold new_m; destruct (Rle_dec tm T1); [lra|auto]).
    destruct (HN NM) as (m1 & m2 & f & f' & A & C1 & C2 & C3 & C4 & C5 & C6 & C7 & C8 & C9 & IC & E1 & E2).
    assert (IC' : is_circ (next_row x r T1 tm) = true) by (unfold is_circ; cbn; unfold new_e; rewrite IC; destruct (Rle_dec _ _); now apply neqb_t).
    now rewrite IC, IC'.
  - now rewrite EM.
Qed.
Lemma circ_unmarked x r tm T1 t : circ_row r tm -> 0 <= T1 -> (r_merged r = false -> unmarked x r T1) -> (r_merged r = false -> unmarked x r (T1 + t)) ->
  r_merged (next_row x r T1 tm) = false -> unmarked x (next_row x r T1 tm) t.
Proof.
  intros H H1 U U2 NM. destruct (circ_step x r tm T1 H H1 U) as [HC HN].
  destruct (HN NM) as (m1 & m2 & f & f' & A & C1 & C2 & C3 & C4 & C5 & C6 & C7 & C8 & C9 & IC & E1 & E2).
  intros n1 n2 g G1 G2 G3. cbn [r_m1 r_m2 next_row] in G1, G2. rewrite E1 in G3. assert (n1 = m1) by congruence. assert (n2 = m2) by congruence. assert (g = f') by congruence. subst.
  specialize (U2 A m1 m2 f C1 C2 C3). rewrite circ_call_freq_a in U2 by auto. rewrite circ_call_freq_a by auto. rewrite E2, acR_compose; auto; try (now apply betaR_pos); lra.
Qed.
Lemma enum_rows x xs T tm : enum (evolve_rows x xs T tm) = map (fun y => (fst y, next_row x (snd y) (T (fst y)) (tm (fst y)))) (enum xs).
Proof.
  unfold enum at 1. rewrite evolve_rows_len. unfold evolve_rows, enum. generalize (seq 0 (length xs)). intros l. revert xs.
  induction l as [|i l IH]; intros [|r xs]; cbn; auto. f_equal. apply IH.
Qed.
Lemma two_states x s xs T1 T2 tm : (forall i r, nth_error xs i = Some r -> circ_row r (tm i) /\ 0 <= T1 i /\ 0 <= T2 i /\ (r_merged r = false -> unmarked x r (T1 i))) ->
  evolve_state x (evolve_state x s xs T1 tm) (evolve_rows x xs T1 tm) T2 (counted tm T1) = evolve_state x s xs (fun i => T1 i + T2 i) tm.
Proof.
  intros H. unfold evolve_state. rewrite enum_rows, !map_map. cbn [fst snd].
  assert (K : forall y, In y (enum xs) -> next_row x (next_row x (snd y) (T1 (fst y)) (tm (fst y))) (T2 (fst y)) (counted tm T1 (fst y)) = next_row x (snd y) (T1 (fst y) + T2 (fst y)) (tm (fst y))).
  { intros [i r] Hy. destruct (H i r (enum_in _ _ _ Hy)) as (A & B & C & D). now apply circ_compose. }
  set (fe := fun y : nat * row => new_e x (next_row x (snd y) (T1 (fst y)) (tm (fst y))) (T2 (fst y)) (counted tm T1 (fst y))).
  set (ff := fun y : nat * row => new_f x (next_row x (snd y) (T1 (fst y)) (tm (fst y))) (T2 (fst y)) (counted tm T1 (fst y))).
  set (fm := fun y : nat * row => new_m (T2 (fst y)) (counted tm T1 (fst y))).
  set (ft := fun y : nat * row => Fin (Rmax 0 (counted tm T1 (fst y) - T2 (fst y)))).
  assert (E1 : map fe (enum xs) = map (fun y => new_e x (snd y) (T1 (fst y) + T2 (fst y)) (tm (fst y))) (enum xs)) by (apply map_ext_in; intros y Hy; exact (f_equal r_e (K y Hy))).
  assert (E2 : map ff (enum xs) = map (fun y => new_f x (snd y) (T1 (fst y) + T2 (fst y)) (tm (fst y))) (enum xs)) by (apply map_ext_in; intros y Hy; exact (f_equal r_f (K y Hy))).
  assert (E3 : map fm (enum xs) = map (fun y => new_m (T1 (fst y) + T2 (fst y)) (tm (fst y))) (enum xs)) by (apply map_ext_in; intros y Hy; exact (f_equal r_merged (K y Hy))).
  assert (E4 : map ft (enum xs) = map (fun y => Fin (Rmax 0 (tm (fst y) - (T1 (fst y) + T2 (fst y))))) (enum xs)) by (apply map_ext_in; intros y Hy; exact (f_equal r_tm (K y Hy))).
  rewrite E1, E2, E3, E4. reflexivity.
Qed.
Lemma total_nonneg n tes Ts i : history_times n tes Ts -> (i < n)%nat -> 0 <= total Ts i.
Proof.
  intros H L. induction H as [|te T tes Ts [_ Q] H IH]; [cbn; lra|]. change (total (T :: Ts) i) with (T i + total Ts i). specialize (Q i L). lra.
Qed.
Definition circ_ready x s xs tm : Prop := collection s xs /\ (forall i r, nth_error xs i = Some r -> merges_at x s r (Fin (tm i)) /\ circ_row r (tm i)).
Lemma circ_bound x s xs tm : circ_ready x s xs tm -> bound xs.
Proof.
  intros [_ H] r Hr M. apply In_nth_error in Hr. destruct Hr as [i Hi]. destruct (H i r Hi) as [_ [[M' _]|(_ & E & _)]]; [congruence|]. exists 0. split; auto. lra.
Qed.
Lemma circ_all x : forall tes Ts s xs tm, circ_ready x s xs tm -> history_times (length xs) tes Ts -> tes <> [] ->
  (forall k i r, (0 < k < length tes)%nat -> nth_error xs i = Some r -> r_merged r = false -> unmarked x r (total (firstn k Ts) i)) ->
  evolve_all x tes s = (evolve_state x s xs (total Ts) tm, Ok tt).
Proof.
  induction tes as [|te tes IH]; [easy|]. intros Ts s xs tm R0 HT _ HU. inversion HT as [|? T ? Ts' [H1 H2] H3]; subst.
  pose proof R0 as [C K]. destruct (evolve_step x te s xs T tm C (fun _ => circ_bound _ _ _ _ R0) (fun i r H => proj1 (K i r H)) H1) as [E C'].
  cbn [evolve_all]. rewrite E. destruct tes as [|te2 tes].
  - inversion H3; subst Ts'. cbn [evolve_all]. f_equal. unfold evolve_state.
    assert (Q : forall y : nat * row, total [T] (fst y) = T (fst y)) by (intros; unfold total, Rsum; cbn; apply Rplus_0_r).
    f_equal; [f_equal|f_equal]; apply map_ext; intros y; now rewrite Q.
  - assert (P : forall i r, nth_error xs i = Some r -> circ_row r (tm i) /\ 0 <= T i /\ 0 <= total Ts' i /\ (r_merged r = false -> unmarked x r (T i))).
    { intros i r Hr. assert (Li : (i < length xs)%nat) by (apply nth_error_Some; congruence). split; [now apply K|]. split; auto. split; [eapply total_nonneg; eauto|].
      intros M. specialize (HU 1%nat i r). cbn in HU. unfold total, Rsum in HU. cbn in HU. rewrite Rplus_0_r in HU. apply HU; auto. lia. }
    rewrite (IH Ts' (evolve_state x s xs T tm) (evolve_rows x xs T tm) (counted tm T)).
    + f_equal. rewrite two_states by exact P. unfold evolve_state. f_equal.
    + split; auto. intros i r' Hr. destruct (evolve_rows_inv _ _ _ _ _ _ Hr) as (r & Hr0 & ->). split; [reflexivity|]. destruct (P i r Hr0) as (A & B & _ & D). now apply circ_step.
    + rewrite evolve_rows_len. exact H3.
    + discriminate.
    + intros k i r' Hk Hr M. destruct (evolve_rows_inv _ _ _ _ _ _ Hr) as (r & Hr0 & ->). destruct (P i r Hr0) as (A & B & _ & D).
      apply circ_unmarked; auto. intros M'. assert (Lk : (0 < S k < length (te :: te2 :: tes))%nat) by (cbn [length] in *; lia).
      exact (HU (S k) i r Lk Hr0 M').
Qed.
Lemma circular_history_thm x tes Ts te s xs (tm : nat -> R) : collection s xs -> (forall i r, nth_error xs i = Some r -> circular_binary x s r (tm i)) ->
  tes <> [] -> history_times (length xs) tes Ts -> evolution_times te (length xs) (map (total Ts) (seq 0 (length xs))) ->
  (forall k i r, (0 < k < length tes)%nat -> nth_error xs i = Some r -> r_merged r = false -> unmarked x r (total (firstn k Ts) i)) ->
  evolve_all x tes s = evolve_sources x te s /\ snd (evolve_sources x te s) = Ok tt.
Proof.
  intros C H N HT HE HU. assert (R0 : circ_ready x s xs tm) by (split; auto; intros i r Hr; split; [apply (H i r Hr)|eapply circ_row_of; eauto]).
  destruct (evolve_step x te s xs (total Ts) tm C (fun _ => circ_bound _ _ _ _ R0) (fun i r Hr => proj1 (H i r Hr)) HE) as [E _]. rewrite E.
  split; [|reflexivity]. now apply circ_all.
Qed.

(** ** C64 *)
Lemma dists_len {Y} (g : Y -> row) s ys : collection s (map g ys) -> s_dist s = map (fun y => r_d (g y)) ys.
Proof. intros C. rewrite (col_d _ _ C). apply map_map. Qed.
Lemma gw_of tol jv lum h : set_gw_lum_tol jv lum tol no_harm = (h, Ok tt) -> h_gw_lum_tol h = Some tol.
Proof.
  unfold set_gw_lum_tol. cbn [h_gw_lum_tol no_harm]. unfold create_harmonics_functions. cbn [h_gw_lum_tol].
  destruct (harmonics_needed tol lum) as [needed|e]; [|intros H; discriminate H].
  unfold find_eccentric_transition. cbn [h_gw_lum_tol]. destruct (eccentric_transition jv tol) as [et|e]; intros H; [|discriminate H].
  apply (f_equal fst) in H. cbn [fst] in H. rewrite <- H. reflexivity.
Qed.
Lemma finish_value x i s0 h d : set_gw_lum_tol (x_jv x) (x_lum x) (i_gw_lum_tol i) (s_harm s0) = (h, Ok tt) -> make_params (i_sc_params i) = Ok d -> s_interpolate_sc s0 = false ->
  finish x i s0 = (set_g_attr (if i_interpolate_g i then Some (x_g x) else None) (put_sc None (put_params d (set_harm h s0))), Ok tt).
Proof.
  intros Hh Hd Hs. unfold finish, assign_gw_lum_tol. unfold mbind at 1. rewrite Hh. unfold mbind at 1. rewrite assign_cases, Hd. cbn zeta beta iota.
  unfold set_sc. replace (s_interpolate_sc (put_params d (set_harm h s0))) with false by (symmetry; exact Hs). reflexivity.
Qed.
Lemma enum_len xs : length (enum xs) = length xs.
Proof. unfold enum. rewrite combine_length, seq_length. lia. Qed.
Lemma evolve_new_step x te s xs (T tm : nat -> R) : collection s xs -> (s_t_merge s = None -> bound xs) -> (forall i r, nth_error xs i = Some r -> merges_at x s r (Fin (tm i))) ->
  evolution_times te (length xs) (map T (seq 0 (length xs))) -> own_harmonics x s -> keys (s_params s) = documented ->
  (s_position s <> None -> forall r, In r xs -> r_e r = Fin 0) ->
  evolve_new x te s = (set_t_merge (Some (map (fun y => Fin (tm (fst y))) (enum xs))) s,
    Ok (mkSrc KSource (s_m_1 s) (s_m_2 s) (s_dist s) (s_f_orb (evolve_state x s xs T tm)) (s_ecc (evolve_state x s xs T tm)) None (s_position s) (s_inclination s) (s_polarisation s)
      (s_t_merge (evolve_state x s xs T tm)) None None (s_merged (evolve_state x s xs T tm)) (s_stat_tol s) (s_n_proc s) (s_harm s) (s_g s) true (s_sc s) (s_params s))).
Proof.
  intros C B H HT [tol HH] HK HP.
  assert (C0 : collection s (map snd (enum xs))) by (now rewrite enum_snd).
  assert (TT : times_for (fun y => T (fst y)) (enum xs) te) by (now apply times_for_enum).
  assert (EN : ensure_t_merge x s = (set_t_merge (Some (map (fun y => Fin (tm (fst y))) (enum xs))) s, Ok (map (fun y => Fin (tm (fst y))) (enum xs)))).
  { apply (ensure_map snd x s (enum xs) (fun y => tm (fst y))); auto; [intros N; rewrite enum_snd; auto|]. intros [i r] Hy. apply H. now apply enum_in. }
  unfold evolve_new. unfold mbind at 1. rewrite EN. rewrite mbind_self.
  set (s1 := set_t_merge (Some (map (fun y => Fin (tm (fst y))) (enum xs))) s).
  pose proof (collection_tm snd s (enum xs) (fun y => tm (fst y)) C0) as C1. fold s1 in C1.
  rewrite mbind_lift. rewrite (evolved_map (fun y => with_tm (snd y) (tm (fst y))) x te s1 (enum xs) (fun y => T (fst y)) (fun y => tm (fst y)) C1 TT).
  cbv beta iota. rewrite mbind_lift. change (s_harm s1) with (s_harm s). rewrite (gw_of _ _ _ _ HH).
  change (fun y : nat * row => new_e x (with_tm (snd y) (tm (fst y))) (T (fst y)) (tm (fst y))) with (fun y : nat * row => new_e x (snd y) (T (fst y)) (tm (fst y))).
  change (fun y : nat * row => new_f x (with_tm (snd y) (tm (fst y))) (T (fst y)) (tm (fst y))) with (fun y : nat * row => new_f x (snd y) (T (fst y)) (tm (fst y))).
  set (le := map (fun y : nat * row => new_e x (snd y) (T (fst y)) (tm (fst y))) (enum xs)). set (lf := map (fun y : nat * row => new_f x (snd y) (T (fst y)) (tm (fst y))) (enum xs)).
  set (lm := map (fun y : nat * row => new_m (T (fst y)) (tm (fst y))) (enum xs)).
  set (i := mkInit _ _ _ _ _ _ _ _ _ _ _ _ _ _ _ _).
  assert (N1 : length (s_m_1 s) = length xs) by (rewrite (col_m1 _ _ C); apply map_length).
  assert (N2 : length (s_m_2 s) = length xs) by (rewrite (col_m2 _ _ C); apply map_length).
  assert (N3 : length (s_dist s) = length xs) by (rewrite (col_d _ _ C); apply map_length).
  assert (K : checked x i lf (s_position s) (s_inclination s) (s_polarisation s)).
  { split.
    - left. discriminate.
    - cbn [i i_position i_inclination i_polarisation i_ecc entries i_dist]. destruct (col_sky _ _ C) as [KS|KS].
      + unfold pop_sky, no_sky in KS. inversion KS as [[P1 P2 P3]]. cbn [s_position s_inclination s_polarisation s1 set_t_merge]. rewrite P1, P2, P3. auto.
      + unfold pop_sky in KS. inversion KS as [[P1 P2 P3]]. cbn [s_position s_inclination s_polarisation s_dist s1 set_t_merge]. rewrite P1, P2, P3.
        split; [reflexivity|]. split; [reflexivity|]. split.
        * intros e He. unfold le in He. apply in_map_iff in He. destruct He as ([j r] & <- & Hr). apply enum_in in Hr. apply nth_error_In in Hr.
          assert (Z : r_e r = Fin 0) by (apply HP; auto; rewrite P1; discriminate). unfold new_e, is_circ. cbn [snd fst]. rewrite Z, neqb_t by auto. destruct (Rle_dec _ _); auto.
        * eexists. split; [|reflexivity]. apply keep_pos. rewrite map_length. symmetry. exact N3.
    - exists (PQArr lf tt). split; [reflexivity|]. split; [reflexivity|]. left. eauto.
    - split; [left; cbn; eauto|split; left; cbn; eauto].
    - discriminate.
    - cbn [i i_m_1 i_m_2 i_dist i_ecc entries]. cbn [s1 set_t_merge s_m_1 s_m_2 s_dist]. unfold le, lf. rewrite !map_length, enum_len, N1, N2, N3. auto. }
  assert (F : init x KSource i = Ok (set_g_attr None (put_sc None (put_params (s_params s) (set_harm (s_harm s) (object KSource i lf (s_position s) (s_inclination s) (s_polarisation s))))))).
  { eapply init_bwd; [exact K|]. apply (finish_value x i _ (s_harm s) (s_params s)); [exact HH|now apply make_params_same|reflexivity]. }
  rewrite F. assert (NS : n_sources s1 = length (enum xs)) by (unfold n_sources; cbn; rewrite enum_len; exact N1).
  rewrite mbind_lift, NS, (times_for_of (fun y => T (fst y)) (enum xs) te TT). rewrite mbind_lift. rewrite (remaining_map (fun y : nat * row => tm (fst y)) (fun y => T (fst y)) (enum xs)).
  reflexivity.
Qed.
Lemma twin_thm x te s xs (T tm : nat -> R) : collection s xs -> bound xs -> (forall i r, nth_error xs i = Some r -> merges_at x s r (Fin (tm i))) ->
  evolution_times te (length xs) (map T (seq 0 (length xs))) -> own_harmonics x s -> keys (s_params s) = documented ->
  (s_position s <> None -> forall r, In r xs -> r_e r = Fin 0) ->
  exists s0 new s', evolve_new x te s = (s0, Ok new) /\ (exists tms, s0 = set_t_merge (Some tms) s) /\ twin s new /\ evolve_sources x te s = (s', Ok tt) /\ s_ecc new = s_ecc s' /\ s_f_orb new = s_f_orb s' /\ s_merged new = s_merged s' /\ s_t_merge new = s_t_merge s'.
Proof.
  intros C B H HT HH HK HP. eexists. eexists. exists (evolve_state x s xs T tm). rewrite (evolve_new_step x te s xs T tm C (fun _ => B) H HT HH HK HP).
  destruct (evolve_step x te s xs T tm C (fun _ => B) H HT) as [E _]. rewrite E.
  split; [reflexivity|]. split; [eauto|]. split; [unfold twin; cbn; auto 20|]. auto.
Qed.
Lemma twin_refuted_thm x te s xs (T tm : nat -> R) : collection s xs -> bound xs -> (forall i r, nth_error xs i = Some r -> merges_at x s r (Fin (tm i))) ->
  evolution_times te (length xs) (map T (seq 0 (length xs))) -> own_harmonics x s -> keys (s_params s) = documented ->
  (s_position s <> None -> forall r, In r xs -> r_e r = Fin 0) ->
  forall new, snd (evolve_new x te s) = Ok new -> s_weights new = None /\ s_class new = KSource /\ s_interpolate_sc new = true /\ s_sc new = s_sc s.
Proof.
  intros C B H HT HH HK HP new. rewrite (evolve_new_step x te s xs T tm C (fun _ => B) H HT HH HK HP). cbn [snd]. intros E. injection E as <-. cbn. auto.
Qed.
(** Once merged, merged for ever (C62). *)
Lemma total_more n more Ts i : history_times n more Ts -> (i < n)%nat -> 0 <= total Ts i.
Proof.
  intros H Hi. unfold history_times in H. unfold total. induction H as [|te T tes Ts' [_ A] H IH]; cbn; [unfold Rsum; cbn; lra|].
  specialize (A i Hi). unfold Rsum in *. cbn. lra.
Qed.
Lemma total_app Ts Ts' i : total (Ts ++ Ts')%list i = total Ts i + total Ts' i.
Proof. unfold total. induction Ts as [|T Ts IH]; unfold Rsum in *; cbn in *; lra. Qed.
Lemma permanent_thm x tes more Ts Ts' s xs tm s1 s2 : collection s xs -> (s_t_merge s = None -> bound xs) -> clock x s xs tm -> (forall i, (i < length xs)%nat -> 0 <= tm i) ->
  history_times (length xs) tes Ts -> history_times (length xs) more Ts' -> tes <> [] ->
  evolve_all x tes s = (s1, Ok tt) -> evolve_all x (tes ++ more)%list s = (s2, Ok tt) ->
  forall i, nth_error (s_merged s1) i = Some true -> nth_error (s_merged s2) i = Some true /\ nth_error (s_f_orb s2) i = Some (Fin 100) /\ nth_error (s_ecc s2) i = Some (Fin 0).
Proof.
  intros C B K P H1 H2 N E1 E2 i Hi.
  destruct (history_all x tes Ts s xs tm C B K P H1 N) as (s1' & xs1 & F1 & C1 & L1 & _ & A1). rewrite E1 in F1. injection F1 as <-.
  assert (N' : (tes ++ more)%list <> []) by (destruct tes; [easy|discriminate]).
  destruct (history_all x (tes ++ more)%list (Ts ++ Ts')%list s xs tm C B K P (Forall2_app H1 H2) N') as (s2' & xs2 & F2 & C2 & L2 & _ & A2). rewrite E2 in F2. injection F2 as <-.
  rewrite (col_merged _ _ C1) in Hi. destruct (nth_error xs1 i) as [r1|] eqn:R1; [|rewrite nth_error_map, R1 in Hi; discriminate].
  rewrite nth_error_map, R1 in Hi. cbn in Hi. injection Hi as Hi. destruct (A1 i r1 R1) as (_ & _ & M1 & _). apply M1 in Hi.
  assert (Li : (i < length xs)%nat) by (rewrite <- L1; apply nth_error_Some; congruence).
  destruct (nth_error xs2 i) as [r2|] eqn:R2; [|apply nth_error_None in R2; lia]. destruct (A2 i r2 R2) as (_ & _ & M2 & Q).
  assert (M : r_merged r2 = true) by (apply M2; rewrite total_app; pose proof (total_more _ _ _ i H2 Li); lra). destruct (Q M) as [Q1 Q2].
  rewrite (col_merged _ _ C2), (col_f _ _ C2), (col_e _ _ C2), !nth_error_map, R2. cbn. now rewrite M, Q1, Q2.
Qed.
