(** HarmThms.v -- theorems behind C53-C56. *)
From Coq Require Import Reals ZArith List Bool Lra Lia Psatz.
From Verif Require Import Num NumFacts Np NpFacts Utils Spec EvolSpec UtilsFacts ArgFacts Interp InterpFacts Harmonics HarmSpec
  HarmFacts.
Import ListNotations.
Open Scope R_scope.

Lemma list_max_le l m : (forall x, In x l -> (x <= m)%nat) -> (list_max l <= m)%nat.
Proof. induction l as [|x l IH]; intros H; cbn; [lia|]. apply Nat.max_lub; [apply H; now left|apply IH; intros; apply H; now right]. Qed.
Lemma list_max_in l x : In x l -> (x <= list_max l)%nat.
Proof. induction l as [|y l IH]; [easy|]. intros [H|H]; change (list_max (y :: l)) with (Nat.max y (list_max l)).
  - subst. lia.
  - apply IH in H. lia. Qed.

Section Tables.
  Variable lum : lum_info.
  Variable tbl : list (list R).
  Hypothesis T : lum_table lum tbl.
  Variable tol : R.

  Let needed := needed_of (Fin tol) lum.
  Let k i := nth i needed 0%nat.

  Lemma needed_length : length needed = e_len lum.
  Proof. exact (proj1 (needed_spec lum tbl tol T)). Qed.
  Lemma k_spec : harmonics_needed_spec lum tbl tol k.
  Proof. exact (proj2 (needed_spec lum tbl tol T)). Qed.
  Lemma k_mono i j : (i <= j < e_len lum)%nat -> (k i <= k j)%nat.
  Proof.
    intros [L H]. induction L as [|j L IH]; [lia|]. destruct k_spec as (_ & S). specialize (IH ltac:(lia)).
    destruct (S j H) as (A & _). lia.
  Qed.
  Lemma k_bounds i : (i < e_len lum)%nat -> (2 <= k i <= n_max lum)%nat.
  Proof.
    intros H. destruct k_spec as (K0 & S). destruct T as [_ _ _ Hl Hn _ _ _]. split.
    - rewrite <- K0. apply k_mono. lia.
    - destruct i; [lia|]. destruct (S i H) as (A & _). lia.
  Qed.
  Lemma needed_nth i : (i < e_len lum)%nat -> nth_error (map nN needed) i = Some (nN (k i)).
  Proof. intros H. apply map_nth_error. apply nth_error_nth'. rewrite needed_length; auto. Qed.
  Lemma needed_max : list_max needed = k (e_len lum - 1).
  Proof.
    destruct T as [_ _ _ Hl _ _ _ _]. apply Nat.le_antisymm.
    - apply list_max_le. intros x Hx. apply (In_nth _ _ 0%nat) in Hx. destruct Hx as (i & Hi & <-).
      rewrite needed_length in Hi. apply k_mono. lia.
    - apply list_max_in. apply nth_In. rewrite needed_length. lia.
  Qed.

  Let hr e := harmonics_required_of lum needed (Fin e).

  Lemma grid_facts : increasing (e_grid lum) /\ length (e_grid lum) = length (map nN needed) /\
    nth_error (e_grid lum) 0 = Some (e_min lum) /\ nth_error (e_grid lum) (length (e_grid lum) - 1) = Some (e_max lum).
  Proof.
    pose proof T as [_ _ _ Hl _ _ _ _].
    split; [now apply e_grid_increasing with tbl|]. split; [now rewrite map_length, needed_length, e_grid_length|].
    rewrite e_grid_length, !e_grid_nth, (tabulated_first lum tbl T), (tabulated_last lum tbl T) by lia. auto.
  Qed.
  Lemma hr_unfold e : hr e = nceil (interp1d (map Fin (e_grid lum)) (map nN needed) (Fin 2) (nN (k (e_len lum - 1))) (Fin e)).
  Proof. unfold hr, harmonics_required_of. now rewrite (e_range_eq lum tbl T), needed_max. Qed.
  Lemma hr_grid i : (i < e_len lum)%nat -> hr (tabulated_e lum i) = Z.of_nat (k i).
  Proof.
    intros H. destruct grid_facts as (G1 & G2 & _). rewrite hr_unfold.
    rewrite (interp1d_grid (e_grid lum) (map nN needed) _ _ G1 G2 i _ (nN (k i))).
    - cbn. apply Rceil_INR.
    - now apply e_grid_nth.
    - now apply needed_nth.
  Qed.
  Lemma hr_below e : e < e_min lum -> hr e = 2%Z.
  Proof. intros H. destruct grid_facts as (G1 & G2 & G3 & _). rewrite hr_unfold, (interp1d_below _ _ _ _ G1 G2 _ _ G3 H).
    cbn. apply (Rceil_INR 2). Qed.
  Lemma hr_above e : e_max lum < e -> hr e = Z.of_nat (k (e_len lum - 1)).
  Proof. intros H. destruct grid_facts as (G1 & G2 & G3 & G4). rewrite hr_unfold, (interp1d_above _ _ _ _ G1 G2 _ _ G4 H).
    cbn. apply Rceil_INR. Qed.
  Lemma hr_segment i e : (S i < e_len lum)%nat -> tabulated_e lum i <= e <= tabulated_e lum (S i) ->
    hr e = Rceil (between_rows lum k i e).
  Proof.
    intros Hi He. assert (L : tabulated_e lum i < tabulated_e lum (S i)) by (apply (tabulated_increasing lum tbl); auto).
    destruct grid_facts as (G1 & G2 & _).
    destruct (Rlt_le_dec e (tabulated_e lum (S i))) as [Hlt|Hge].
    - rewrite hr_unfold. rewrite (interp1d_between (e_grid lum) (map nN needed) _ _ G1 G2 i (tabulated_e lum i) (tabulated_e lum (S i)) (nN (k i)) (nN (k (S i)))).
      + unfold nN. rewrite segment_fin by auto. reflexivity.
      + apply e_grid_nth. lia.
      + now apply e_grid_nth.
      + apply needed_nth. lia.
      + now apply needed_nth.
      + lra.
    - assert (e = tabulated_e lum (S i)) by lra. subst e. rewrite hr_grid by auto.
      unfold between_rows. rewrite <- Rceil_INR. f_equal. field. lra.
  Qed.
  Lemma between_mono i e e' : (S i < e_len lum)%nat -> e <= e' -> between_rows lum k i e <= between_rows lum k i e'.
  Proof.
    intros Hi He. assert (L : tabulated_e lum i < tabulated_e lum (S i)) by (apply (tabulated_increasing lum tbl); auto).
    unfold between_rows.
    assert (INR (k i) <= INR (k (S i))) by (apply le_INR, k_mono; lia).
    assert ((e - tabulated_e lum i) / (tabulated_e lum (S i) - tabulated_e lum i) <=
            (e' - tabulated_e lum i) / (tabulated_e lum (S i) - tabulated_e lum i)).
    { apply Rmult_le_compat_r; [left; apply Rinv_0_lt_compat; lra|lra]. }
    nra.
  Qed.
  Lemma hr_mono_segment i e e' : (S i < e_len lum)%nat -> tabulated_e lum i <= e -> e <= e' -> e' <= tabulated_e lum (S i) ->
    (hr e <= hr e')%Z.
  Proof. intros Hi A B C. rewrite !(hr_segment i) by (auto; lra). apply Rceil_le, between_mono; auto. Qed.
  Lemma hr_in_segment i e : (S i < e_len lum)%nat -> tabulated_e lum i <= e <= tabulated_e lum (S i) ->
    (Z.of_nat (k i) <= hr e <= Z.of_nat (k (S i)))%Z.
  Proof.
    intros Hi He. rewrite <- !hr_grid by lia. split; apply (hr_mono_segment i); auto; lra.
  Qed.
  Lemma locate_e e : e_min lum <= e <= e_max lum ->
    exists i, (S i < e_len lum)%nat /\ tabulated_e lum i <= e <= tabulated_e lum (S i).
  Proof.
    intros He. pose proof T as [_ _ _ Hl _ _ _ _]. destruct grid_facts as (G1 & _ & G3 & G4).
    destruct (locate (e_grid lum) e _ _ G3 G4 He) as [->|(i & a & b & Ha & Hb & Hx)].
    - exists (e_len lum - 2)%nat. split; [lia|]. replace (S (e_len lum - 2)) with (e_len lum - 1)%nat by lia.
      rewrite (tabulated_last lum tbl T). split; [|lra]. apply (tabulated_bounds lum tbl); auto. lia.
    - assert (Hi : (S i < e_len lum)%nat) by (rewrite <- e_grid_length; apply nth_error_Some; congruence).
      rewrite e_grid_nth in Ha, Hb by lia. inversion Ha; inversion Hb; subst. exists i. split; auto. lra.
  Qed.
  Lemma hr_bounds e : (2 <= hr e <= Z.of_nat (k (e_len lum - 1)))%Z.
  Proof.
    pose proof T as [_ _ _ Hl _ _ _ _]. pose proof (k_bounds (e_len lum - 1) ltac:(lia)).
    destruct (Rlt_le_dec e (e_min lum)) as [L|L]; [rewrite hr_below by auto; lia|].
    destruct (Rlt_le_dec (e_max lum) e) as [L'|L']; [rewrite hr_above by auto; lia|].
    destruct (locate_e e) as (i & Hi & He); [lra|].
    pose proof (hr_in_segment i e Hi He). pose proof (k_bounds i ltac:(lia)).
    pose proof (k_mono (S i) (e_len lum - 1) ltac:(lia)). lia.
  Qed.
  Lemma hr_mono e e' : e <= e' -> (hr e <= hr e')%Z.
  Proof.
    intros H. pose proof T as [_ _ _ Hl _ _ _ _].
    destruct (Rlt_le_dec e (e_min lum)) as [L|L]; [rewrite (hr_below e) by auto; apply hr_bounds|].
    destruct (Rlt_le_dec (e_max lum) e') as [L'|L']; [rewrite (hr_above e') by auto; apply hr_bounds|].
    destruct (locate_e e) as (i & Hi & He); [lra|]. destruct (locate_e e') as (j & Hj & He'); [lra|].
    destruct (Nat.lt_trichotomy i j) as [C|[->|C]].
    - pose proof (hr_in_segment i e Hi He). pose proof (hr_in_segment j e' Hj He').
      pose proof (k_mono (S i) j ltac:(lia)). lia.
    - apply (hr_mono_segment j); auto; lra.
    - assert (tabulated_e lum (S j) <= tabulated_e lum i).
      { destruct (Nat.eq_dec (S j) i) as [->|]; [lra|]. left. apply (tabulated_increasing lum tbl); auto. lia. }
      assert (e = e') as -> by lra. lia.
  Qed.

  (** max_strain_harmonic *)
  Let msh e := max_strain_harmonic_of lum needed (Fin e).
  Let top i := S (argmax (map Fin (nth i tbl []))).
  Lemma tops_eq : max_strain_harmonics lum = map top (seq 0 (e_len lum)).
  Proof.
    destruct T as [Hv Hr _ _ _ _ _ _]. unfold max_strain_harmonics, top. rewrite Hv, map_map, <- Hr.
    clear. induction tbl as [|r t IH]; auto. cbn [map length seq]. f_equal. rewrite IH, <- seq_shift, map_map. reflexivity.
  Qed.
  Lemma tops_nth i : (i < e_len lum)%nat -> nth_error (map nN (max_strain_harmonics lum)) i = Some (nN (top i)).
  Proof. intros H. rewrite tops_eq, map_map. apply (map_nth_error (fun x => nN (top x))).
    rewrite nth_error_nth' with (d := 0%nat) by (rewrite seq_length; lia). now rewrite seq_nth. Qed.
  Lemma tops_length : length (e_grid lum) = length (map nN (max_strain_harmonics lum)).
  Proof. now rewrite tops_eq, !map_length, seq_length, e_grid_length. Qed.
  Lemma msh_unfold e : msh e = nround (interp1d (map Fin (e_grid lum)) (map nN (max_strain_harmonics lum)) (Fin 2)
                                               (nN (k (e_len lum - 1))) (Fin e)).
  Proof. unfold msh, max_strain_harmonic_of. now rewrite (e_range_eq lum tbl T), needed_max. Qed.
  Lemma msh_grid i : (i < e_len lum)%nat -> msh (tabulated_e lum i) = Z.of_nat (top i).
  Proof.
    intros H. destruct grid_facts as (G1 & _). rewrite msh_unfold.
    rewrite (interp1d_grid (e_grid lum) _ _ _ G1 tops_length i _ (nN (top i))).
    - cbn -[INR]. apply Rround_INR.
    - now apply e_grid_nth.
    - now apply tops_nth.
  Qed.
  Lemma top_maximal i : (i < e_len lum)%nat -> (1 <= top i <= n_max lum)%nat /\
    forall n, (1 <= n <= n_max lum)%nat -> power tbl i n <= power tbl i (top i).
  Proof.
    intros H. pose proof T as [Hv Hr Hc _ Hn _ _ _].
    assert (Hrow : length (nth i tbl []) = n_max lum) by (apply Hc, nth_In; lia).
    destruct (argmax_spec (nth i tbl [])) as (v & A & B).
    { intros E. rewrite E in Hrow. cbn in Hrow. lia. }
    assert (Hlt : (argmax (map Fin (nth i tbl [])) < n_max lum)%nat) by (rewrite <- Hrow; apply nth_error_Some; congruence).
    unfold top, power. split; [lia|]. intros n Hn'.
    replace (S (argmax (map Fin (nth i tbl []))) - 1)%nat with (argmax (map Fin (nth i tbl []))) by lia.
    rewrite (nth_error_nth _ _ _ A).
    destruct (nth_error (nth i tbl []) (n - 1)) as [u|] eqn:E; [|apply nth_error_None in E; lia].
    rewrite (nth_error_nth _ _ _ E). now apply (B (n - 1)%nat).
  Qed.
  Lemma msh_below e : e < e_min lum -> msh e = 2%Z.
  Proof. intros H. destruct grid_facts as (G1 & G2 & G3 & _). rewrite msh_unfold, (interp1d_below _ _ _ _ G1 tops_length _ _ G3 H).
    cbn -[INR]. apply (Rround_INR 2). Qed.
  Lemma msh_above e : e_max lum < e -> msh e = Z.of_nat (k (e_len lum - 1)).
  Proof. intros H. destruct grid_facts as (G1 & G2 & G3 & G4). rewrite msh_unfold, (interp1d_above _ _ _ _ G1 tops_length _ _ G4 H).
    cbn -[INR]. apply Rround_INR. Qed.
  Lemma msh_segment i e : (S i < e_len lum)%nat -> tabulated_e lum i <= e <= tabulated_e lum (S i) ->
    Rabs (IZR (msh e) - between_rows lum top i e) <= 1/2.
  Proof.
    intros Hi He. assert (L : tabulated_e lum i < tabulated_e lum (S i)) by (apply (tabulated_increasing lum tbl); auto).
    destruct grid_facts as (G1 & G2 & _).
    destruct (Rlt_le_dec e (tabulated_e lum (S i))) as [Hlt|Hge].
    - rewrite msh_unfold. rewrite (interp1d_between (e_grid lum) _ _ _ G1 tops_length i (tabulated_e lum i) (tabulated_e lum (S i)) (nN (top i)) (nN (top (S i)))).
      + unfold nN. rewrite segment_fin by auto. apply Rround_near.
      + apply e_grid_nth. lia.
      + now apply e_grid_nth.
      + apply tops_nth. lia.
      + now apply tops_nth.
      + lra.
    - assert (e = tabulated_e lum (S i)) by lra. subst e. rewrite msh_grid by auto. rewrite <- INR_IZR_INZ.
      unfold between_rows. replace (INR (top (S i)) - _) with 0 by (field; lra). rewrite Rabs_R0. lra.
  Qed.
End Tables.

(** C54 *)
Lemma harmonics_required_thm lum tbl tol h h' r : lum_table lum tbl -> h_gw_lum_tol h = Some (Fin tol) ->
  create_harmonics_functions lum h = (h', r) ->
  r = Ok tt /\
  exists k, harmonics_needed_spec lum tbl tol k /\
    (forall i, (i < e_len lum)%nat -> h_required h' (Fin (tabulated_e lum i)) = Z.of_nat (k i)) /\
    (forall i e, (S i < e_len lum)%nat -> tabulated_e lum i <= e <= tabulated_e lum (S i) ->
       between_rows lum k i e <= IZR (h_required h' (Fin e)) < between_rows lum k i e + 1 /\
       (Z.of_nat (k i) <= h_required h' (Fin e) <= Z.of_nat (k (S i)))%Z) /\
    (forall e, e < e_min lum -> h_required h' (Fin e) = 2%Z) /\
    (forall e, e_max lum < e -> h_required h' (Fin e) = Z.of_nat (k (e_len lum - 1)%nat)).
Proof.
  intros T Ht E. unfold create_harmonics_functions in E. rewrite Ht, (harmonics_needed_eq _ _ _ T) in E.
  injection E as <- <-. split; auto. exists (fun i => nth i (needed_of (Fin tol) lum) 0%nat).
  split; [now apply k_spec|]. split; [intros; now apply (hr_grid lum tbl T tol)|]. split; [|split].
  - intros i e Hi He. split.
    + pose proof (hr_segment lum tbl T tol i e Hi He) as R. cbn [h_required] in *. rewrite R. apply Rceil_spec.
    + now apply (hr_in_segment lum tbl T tol).
  - intros. now apply (hr_below lum tbl T tol).
  - intros. now apply (hr_above lum tbl T tol).
Qed.
Lemma harmonics_required_monotone lum tbl tol h h' r : lum_table lum tbl -> h_gw_lum_tol h = Some (Fin tol) ->
  create_harmonics_functions lum h = (h', r) ->
  (forall e e', e <= e' -> (h_required h' (Fin e) <= h_required h' (Fin e'))%Z) /\
  (forall e, (2 <= h_required h' (Fin e) <= Z.of_nat (n_max lum))%Z).
Proof.
  intros T Ht E. unfold create_harmonics_functions in E. rewrite Ht, (harmonics_needed_eq _ _ _ T) in E.
  injection E as <- <-. split; intros.
  - now apply (hr_mono lum tbl T tol).
  - pose proof (hr_bounds lum tbl T tol e). pose proof (k_bounds lum tbl T tol (e_len lum - 1)).
    destruct T. cbn [h_required]. lia.
Qed.
(** The tabulated eccentricities. *)
Lemma tabulated_thm lum tbl : lum_table lum tbl ->
  length (e_range lum) = e_len lum /\ tabulated_e lum 0 = e_min lum /\ tabulated_e lum (e_len lum - 1) = e_max lum /\
  (forall i, (i < e_len lum)%nat -> nth_error (e_range lum) i = Some (Fin (tabulated_e lum i))) /\
  (forall i j, (i < j)%nat -> tabulated_e lum i < tabulated_e lum j).
Proof.
  intros T. split; [now rewrite (e_range_eq _ _ T), map_length, e_grid_length|].
  split; [eapply tabulated_first; eauto|]. split; [eapply tabulated_last; eauto|].
  split; [intros; eapply e_range_nth; eauto|intros; eapply tabulated_increasing; eauto].
Qed.

(** C55 *)
Lemma max_strain_harmonic_thm lum tbl tol h h' r : lum_table lum tbl -> h_gw_lum_tol h = Some (Fin tol) ->
  create_harmonics_functions lum h = (h', r) ->
  exists top : nat -> nat,
    (forall i, (i < e_len lum)%nat ->
       h_max_strain h' (Fin (tabulated_e lum i)) = Z.of_nat (top i) /\ (1 <= top i <= n_max lum)%nat /\
       forall n, (1 <= n <= n_max lum)%nat -> power tbl i n <= power tbl i (top i)) /\
    (forall i e, (S i < e_len lum)%nat -> tabulated_e lum i <= e <= tabulated_e lum (S i) ->
       Rabs (IZR (h_max_strain h' (Fin e)) - between_rows lum top i e) <= 1/2) /\
    (forall e, e < e_min lum -> h_max_strain h' (Fin e) = 2%Z).
Proof.
  intros T Ht E. unfold create_harmonics_functions in E. rewrite Ht, (harmonics_needed_eq _ _ _ T) in E.
  injection E as <- <-. exists (fun i => S (argmax (map Fin (nth i tbl [])))). split; [|split].
  - intros i Hi. split; [now apply (msh_grid lum tbl T tol)|now apply (top_maximal lum tbl T)].
  - intros. now apply (msh_segment lum tbl T tol).
  - intros. now apply (msh_below lum tbl T tol).
Qed.
(** Beyond the table the answer is the number of harmonics needed there, not a harmonic of maximal power. *)
Lemma max_strain_beyond lum tbl tol h h' r : lum_table lum tbl -> h_gw_lum_tol h = Some (Fin tol) ->
  create_harmonics_functions lum h = (h', r) ->
  forall e, e_max lum < e -> h_max_strain h' (Fin e) = h_required h' (Fin e).
Proof.
  intros T Ht E e He. unfold create_harmonics_functions in E. rewrite Ht, (harmonics_needed_eq _ _ _ T) in E.
  injection E as <- <-. cbn [h_max_strain h_required].
  rewrite (msh_above lum tbl T tol) by auto. now rewrite (hr_above lum tbl T tol).
Qed.
Definition lum_ex : lum_info := mkLum 0 (1/2) 2 3 [[Fin 0; Fin 1; Fin 0]; [Fin 0; Fin 1; Fin 0]].
Definition tbl_ex : list (list R) := [[0; 1; 0]; [0; 1; 0]].
Lemma lum_ex_ok : lum_table lum_ex tbl_ex.
Proof. constructor; cbn; auto; try lra. intros row [<-|[<-|[]]]; reflexivity. Qed.
Lemma max_strain_refuted : exists lum tbl tol h h', lum_table lum tbl /\ h_gw_lum_tol h = Some (Fin tol) /\
  create_harmonics_functions lum h = (h', Ok tt) /\
  exists e n, e_max lum < e < 1 /\ h_max_strain h' (Fin e) = Z.of_nat n /\
    forall i, (i < e_len lum)%nat -> power tbl i n = 0 /\ power tbl i 2 = 1.
Proof.
  set (h := mkHarm (Some (Fin 0)) (fun _ => 0%Z) (fun _ => 0%Z) None).
  destruct (create_harmonics_functions lum_ex h) as [h' r] eqn:E.
  destruct (harmonics_required_thm lum_ex tbl_ex 0 h h' r lum_ex_ok eq_refl E) as (-> & k & (K0 & K) & A & _ & _ & B).
  exists lum_ex, tbl_ex, 0, h, h'. split; [exact lum_ex_ok|]. split; [reflexivity|]. split; [exact E|].
  exists (3/4), 3%nat. split; [cbn; lra|].
  assert (K1 : k 1%nat = 3%nat).
  { destruct (K 0%nat) as (P & Q & _); [cbn; lia|]. cbn in P. rewrite K0 in P.
    destruct Q as [Q|Q]; [|exact Q].
    assert (k 1%nat = 2%nat \/ k 1%nat = 3%nat) as [C|C] by lia; auto.
    exfalso. rewrite C in Q. change (tabulated_e lum_ex 1) with (tabulated_e lum_ex (e_len lum_ex - 1)) in Q.
    rewrite (tabulated_last _ _ lum_ex_ok) in Q. change (e_max lum_ex) with (1/2) in Q.
    replace (luminosity tbl_ex 1 2) with 1 in Q by (unfold luminosity, power, Rsum, tbl_ex; cbn [map seq fold_right nth Nat.sub]; ring).
    assert (1 < enhancement (1/2)).
    { unfold enhancement. set (s := sqrt (1 - (1/2)^2)).
      assert (Hs : 0 < s <= 1).
      { split; [apply sqrt_lt_R0; lra|]. unfold s. apply (Rle_trans _ (sqrt 1)); [apply sqrt_le_1_alt; lra|rewrite sqrt_1; lra]. }
      assert (Hp : 0 < s ^ 7 <= 1) by (split; [apply pow_lt; lra|rewrite <- (pow1 7); apply pow_incr; lra]).
      apply (Rmult_lt_reg_r (s ^ 7)); [lra|]. unfold Rdiv. rewrite Rmult_assoc, Rinv_l by lra. lra. }
    lra. }
  split.
  - rewrite (max_strain_beyond lum_ex tbl_ex 0 h h' _ lum_ex_ok eq_refl E) by (cbn; lra).
    rewrite B by (cbn; lra). cbn [e_len lum_ex Nat.sub]. now rewrite K1.
  - intros [|[|i]] Hi; cbn in Hi; try lia; cbn; auto.
Qed.

(** C56 *)
Lemma filter_first {A} (p : A -> bool) l e rest : filter p l = e :: rest ->
  exists l1 l2, l = l1 ++ e :: l2 /\ p e = true /\ forall x, In x l1 -> p x = false.
Proof.
  induction l as [|x l IH]; intros H; [discriminate|]. cbn [filter] in H. destruct (p x) eqn:E.
  - injection H as -> _. exists [], l. split; auto. split; auto. intros y [].
  - destruct (IH H) as (l1 & l2 & -> & P & Q). exists (x :: l1), l2. split; auto. split; auto.
    intros y [<-|Hy]; auto.
Qed.
Lemma ten_thousand : (2 <= Z.to_nat 10000)%nat.
Proof. change 2%nat with (Z.to_nat 2). apply Z2Nat.inj_le; lia. Qed.
Lemma transition_nth j : (j < Z.to_nat 10000)%nat -> nth_error transition_grid j = Some (Fin (grid_ecc j)).
Proof.
  intros H. unfold transition_grid. erewrite map_nth_error; [|apply linspace_nth; [apply ten_thousand|exact H]].
  do 2 f_equal. unfold grid_ecc. rewrite Rplus_0_l, Rminus_0_r. reflexivity.
Qed.
Lemma transition_length : length transition_grid = Z.to_nat 10000.
Proof. unfold transition_grid. rewrite map_length. apply linspace_length. Qed.
Lemma grid_ecc_bounds j : (j < Z.to_nat 10000)%nat -> 0 <= grid_ecc j <= 1/5.
Proof.
  intros H. pose proof ten_thousand. unfold grid_ecc. set (n := (Z.to_nat 10000 - 1)%nat) in *.
  assert (0 < INR n) by (apply lt_0_INR; lia). assert (0 <= INR j) by apply pos_INR. assert (INR j <= INR n) by (apply le_INR; lia).
  replace (INR j * (1/5 / INR n)) with (1/5 * (INR j / INR n)) by (field; lra).
  assert (0 <= INR j / INR n <= 1).
  { split; [apply Rmult_le_pos; [auto|left; now apply Rinv_0_lt_compat]|].
    apply (Rmult_le_reg_r (INR n)); auto. unfold Rdiv. rewrite Rmult_assoc, Rinv_l by lra. lra. }
  lra.
Qed.
Lemma grid_ecc_lt i j : (i < j)%nat -> grid_ecc i < grid_ecc j.
Proof.
  intros H. pose proof ten_thousand. unfold grid_ecc. apply Rmult_lt_compat_r; [|now apply lt_INR].
  apply Rdiv_lt_0_compat; [lra|apply lt_0_INR; lia].
Qed.

Lemma transition_spec jv tol e : eccentric_transition jv tol = Ok e ->
  exists j, (j < Z.to_nat 10000)%nat /\ e = Fin (grid_ecc j) /\
    below_tolerance jv tol (Fin (grid_ecc j)) = true /\
    forall i, (i < j)%nat -> below_tolerance jv tol (Fin (grid_ecc i)) = false.
Proof.
  unfold eccentric_transition. destruct (filter _ _) as [|e0 rest] eqn:E; [discriminate|]. intros H. inversion H; subst e0.
  apply filter_first in E. destruct E as (l1 & l2 & El & P & Q).
  assert (Hn : nth_error transition_grid (length l1) = Some e) by (rewrite El, nth_error_app2, Nat.sub_diag by lia; reflexivity).
  assert (Hj : (length l1 < Z.to_nat 10000)%nat) by (rewrite <- transition_length; apply nth_error_Some; congruence).
  exists (length l1). split; auto. rewrite transition_nth in Hn by auto. inversion Hn; subst e. split; auto. split; auto.
  intros i Hi. apply Q. assert (Hi' : nth_error transition_grid i = Some (Fin (grid_ecc i))) by (apply transition_nth; lia).
  rewrite El, nth_error_app1 in Hi' by auto. now apply nth_error_In in Hi'.
Qed.
Lemma below_iff jv J tol e : (forall k x, jv k (Fin x) = Fin (J k x)) -> 0 <= e <= 1/5 ->
  below_tolerance jv (Fin tol) (Fin e) = false <-> within_tolerance jv tol e.
Proof.
  intros HJ He. unfold below_tolerance, within_tolerance.
  rewrite (peters_g_fin jv J 2 e HJ) by lia. rewrite peters_f_fin by lra. rewrite nsub_fin, nmul_fin, nlt_fin_f.
  split; [intros H; eexists; split; [reflexivity|exact H]|intros (g & E & H); apply Fin_inj in E; now subst].
Qed.
Lemma transition_thm jv J tol e : (forall k x, jv k (Fin x) = Fin (J k x)) ->
  eccentric_transition jv (Fin tol) = Ok e ->
  exists j, (j < Z.to_nat 10000)%nat /\ e = Fin (grid_ecc j) /\ ~ within_tolerance jv tol (grid_ecc j) /\
    forall i, (i < j)%nat -> within_tolerance jv tol (grid_ecc i).
Proof.
  intros HJ H. destruct (transition_spec _ _ _ H) as (j & Hj & -> & P & Q). exists j. split; auto. split; auto.
  pose proof (grid_ecc_bounds j Hj). split.
  - intros W. apply (below_iff jv J tol) in W; auto. congruence.
  - intros i Hi. apply (below_iff jv J tol); auto; apply grid_ecc_bounds; lia.
Qed.

(** C53 *)
Lemma neqb_eq x y : neqb x y = true -> x = y.
Proof. destruct x, y; try discriminate; auto. intros H. apply neqb_fin in H. now subst. Qed.
Definition good_harm jv lum (h : harm) : Prop :=
  match h_gw_lum_tol h with None => True | Some t => tables_match jv lum h t end.
Lemma set_ok_match jv lum tol h h' : good_harm jv lum h -> set_gw_lum_tol jv lum tol h = (h', Ok tt) ->
  tables_match jv lum h' tol.
Proof.
  intros G. unfold set_gw_lum_tol.
  destruct (match h_gw_lum_tol h with Some t => neqb tol t | None => false end) eqn:E.
  - intros H. inversion H; subst h'. unfold good_harm in G. destruct (h_gw_lum_tol h) as [t|] eqn:Et; [|discriminate].
    apply neqb_eq in E. now subst t.
  - unfold create_harmonics_functions. cbn [h_gw_lum_tol].
    destruct (harmonics_needed tol lum) as [needed|x] eqn:En; [|discriminate].
    unfold find_eccentric_transition. cbn [h_gw_lum_tol h_required h_max_strain].
    destruct (eccentric_transition jv tol) as [e|x] eqn:Ee; [|discriminate].
    intros H. inversion H; subst h'. split; [reflexivity|]. split; [exists needed; auto|exists e; auto].
Qed.
Lemma assign_all_app jv lum tols tol h h1 rs h2 r : assign_all jv lum tols h = (h1, rs) ->
  set_gw_lum_tol jv lum tol h1 = (h2, r) -> assign_all jv lum (tols ++ [tol]) h = (h2, rs ++ [r]).
Proof. intros A B. unfold assign_all in *. rewrite fold_left_app, A. cbn. now rewrite B. Qed.
Lemma assign_all_inv jv lum tols h : exists h1 rs, assign_all jv lum tols h = (h1, rs).
Proof. destruct (assign_all jv lum tols h) as [a b]. eauto. Qed.
Lemma tables_always_match jv lum : forall tols h rs, assign_all jv lum tols no_harm = (h, rs) ->
  (forall r, In r rs -> r = Ok tt) -> good_harm jv lum h /\ (forall tol, tols <> [] -> last tols tol = last tols (Fin 0)) /\
  (tols <> [] -> tables_match jv lum h (last tols (Fin 0))).
Proof.
  intros tols. induction tols as [|tol tols IH] using rev_ind; intros h rs E R.
  - cbn in E. inversion E; subst. split; [exact I|]. split; intros; easy.
  - destruct (assign_all_inv jv lum tols no_harm) as (h1 & rs1 & E1).
    destruct (set_gw_lum_tol jv lum tol h1) as [h2 r] eqn:E2.
    rewrite (assign_all_app _ _ _ _ _ _ _ _ _ E1 E2) in E. inversion E; subst h rs.
    destruct (IH h1 rs1 E1) as (G & _); [intros; apply R, in_or_app; now left|].
    assert (r = Ok tt) as -> by (apply R, in_or_app; right; now left).
    pose proof (set_ok_match _ _ _ _ _ G E2) as M. split; [|split].
    + unfold good_harm. pose proof M as (M1 & _). now rewrite M1.
    + intros t _. now rewrite !last_last.
    + intros _. now rewrite last_last.
Qed.
Lemma tables_thm jv lum tols h rs : tols <> [] -> assign_all jv lum tols no_harm = (h, rs) ->
  (forall r, In r rs -> r = Ok tt) -> tables_match jv lum h (last tols (Fin 0)).
Proof. intros H E R. now apply (tables_always_match jv lum tols h rs E R). Qed.

(** An assignment that raises leaves a stale transition eccentricity, and repeating it hides the error. *)
Lemma transition_at_1 jv J : (forall k x, jv k (Fin x) = Fin (J k x)) -> eccentric_transition jv (Fin 1) = Err IndexError.
Proof.
  intros HJ. unfold eccentric_transition.
  destruct (filter _ _) as [|e rest] eqn:E; auto. exfalso. apply filter_first in E. destruct E as (l1 & l2 & El & P & _).
  assert (Hin : In e transition_grid) by (rewrite El; apply in_or_app; right; now left).
  apply In_nth_error in Hin. destruct Hin as (j & Hj).
  assert (L : (j < Z.to_nat 10000)%nat) by (rewrite <- transition_length; apply nth_error_Some; congruence).
  rewrite transition_nth in Hj by auto. inversion Hj; subst e. pose proof (grid_ecc_bounds j L) as B.
  assert (below_tolerance jv (Fin 1) (Fin (grid_ecc j)) = false); [|congruence].
  apply (below_iff jv J); auto. exists (gR J 2 (grid_ecc j)). split; [apply (peters_g_fin jv J); auto; lia|].
  pose proof (gR_nonneg J 2 (grid_ecc j) ltac:(lia) ltac:(lra)). lra.
Qed.
Lemma stale_thm jv J lum tbl tol0 h : (forall k x, jv k (Fin x) = Fin (J k x)) -> lum_table lum tbl -> tol0 <> 1 ->
  assign_all jv lum [Fin tol0] no_harm = (h, [Ok tt]) ->
  exists h', assign_all jv lum [Fin 1; Fin 1] h = (h', [Err IndexError; Ok tt]) /\
    h_gw_lum_tol h' = Some (Fin 1) /\ h_ecc_tol h' = h_ecc_tol h /\ ~ tables_match jv lum h' (Fin 1).
Proof.
  intros HJ T Ht E.
  assert (M : tables_match jv lum h (Fin tol0)) by (apply (tables_thm jv lum [Fin tol0] h [Ok tt]); [easy|exact E|intros r [<-|[]]; auto]).
  destruct M as (M1 & _).
  set (h1 := mkHarm (Some (Fin 1)) (harmonics_required_of lum (needed_of (Fin 1) lum))
                    (max_strain_harmonic_of lum (needed_of (Fin 1) lum)) (h_ecc_tol h)).
  assert (E1 : set_gw_lum_tol jv lum (Fin 1) h = (h1, Err IndexError)).
  { unfold set_gw_lum_tol. rewrite M1, neqb_f by auto.
    unfold create_harmonics_functions. cbn [h_gw_lum_tol]. rewrite (harmonics_needed_eq _ _ _ T).
    unfold find_eccentric_transition. cbn [h_gw_lum_tol]. now rewrite (transition_at_1 jv J HJ). }
  assert (E2 : set_gw_lum_tol jv lum (Fin 1) h1 = (h1, Ok tt)).
  { unfold set_gw_lum_tol, h1. cbn [h_gw_lum_tol]. now rewrite neqb_t. }
  exists h1. unfold assign_all. cbn [fold_left]. rewrite E1, E2. cbn [app].
  split; [reflexivity|]. split; [reflexivity|]. split; [reflexivity|].
  intros (_ & _ & e & He & _). rewrite (transition_at_1 jv J HJ) in He. discriminate.
Qed.

(** A Bessel routine with the right values at 0, for the examples. *)
Definition jv_toy (n : Z) (x : num) : num := if (n =? 0)%Z then Fin 1 else Fin 0.
Definition J_toy (n : Z) (x : R) : R := if (n =? 0)%Z then 1 else 0.
Lemma jv_toy_fin k x : jv_toy k (Fin x) = Fin (J_toy k x).
Proof. unfold jv_toy, J_toy. now destruct (k =? 0)%Z. Qed.
Lemma grid_ecc_last : grid_ecc (Z.to_nat 10000 - 1) = 1/5.
Proof. unfold grid_ecc. field. apply not_0_INR. pose proof ten_thousand. lia. Qed.
Lemma toy_transition : exists e, eccentric_transition jv_toy (Fin (1/20)) = Ok e.
Proof.
  unfold eccentric_transition. destruct (filter _ _) as [|e rest] eqn:E; [|eauto]. exfalso.
  assert (Hin : In (Fin (1/5)) (filter (below_tolerance jv_toy (Fin (1/20))) transition_grid)); [|now rewrite E in Hin].
  apply filter_In. split.
  - apply (nth_error_In _ (Z.to_nat 10000 - 1)). rewrite transition_nth by (pose proof ten_thousand; lia). now rewrite grid_ecc_last.
  - unfold below_tolerance. rewrite (peters_g_fin jv_toy J_toy 2 _ jv_toy_fin) by lia. rewrite peters_f_fin by lra.
    rewrite nsub_fin, nmul_fin. apply nlt_t.
    assert (EG : gR J_toy 2 (1/5) = 98/100) by (unfold gR, J_toy; cbn -[IZR]; lra).
    rewrite EG.
    assert (1.04 < enhancement (1/5)).
    { unfold enhancement. set (s := sqrt (1 - (1/5)^2)).
      assert (Hs : 0 < s <= 1).
      { split; [apply sqrt_lt_R0; lra|]. unfold s. apply (Rle_trans _ (sqrt 1)); [apply sqrt_le_1_alt; lra|rewrite sqrt_1; lra]. }
      assert (Hp : 0 < s ^ 7 <= 1) by (split; [apply pow_lt; lra|rewrite <- (pow1 7); apply pow_incr; lra]).
      apply (Rmult_lt_reg_r (s ^ 7)); [lra|]. unfold Rdiv. rewrite Rmult_assoc, Rinv_l by lra. lra. }
    lra.
Qed.
Lemma toy_assign : exists h, assign_all jv_toy lum_ex [Fin (1/20)] no_harm = (h, [Ok tt]).
Proof.
  destruct toy_transition as (e & He). unfold assign_all. cbn [fold_left app]. unfold set_gw_lum_tol. cbn [h_gw_lum_tol no_harm].
  unfold create_harmonics_functions. cbn [h_gw_lum_tol]. rewrite (harmonics_needed_eq _ _ _ lum_ex_ok).
  unfold find_eccentric_transition. cbn [h_gw_lum_tol]. rewrite He. eauto.
Qed.
