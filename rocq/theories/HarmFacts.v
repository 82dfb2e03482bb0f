(** HarmFacts.v -- lemmas about the harmonic tables (C53-C56). *)
From Coq Require Import Reals ZArith List Bool Lra Lia Psatz.
From Verif Require Import Num NumFacts Np Utils Spec EvolSpec UtilsFacts ArgFacts Interp InterpFacts Harmonics HarmSpec.
Import ListNotations.
Open Scope R_scope.

(** ** The tabulated eccentricities *)
Lemma Rpower10 x : 0 < x -> Rpower 10 (log10R x) = x.
Proof. intros H. unfold Rpower, log10R. assert (0 < ln 10) by (rewrite <- ln_1; apply ln_increasing; lra).
  replace (ln x / ln 10 * ln 10) with (ln x) by (field; lra). now apply exp_ln. Qed.

Lemma e_range_nth lum tbl i : lum_table lum tbl -> (i < e_len lum)%nat ->
  nth_error (e_range lum) i = Some (Fin (tabulated_e lum i)).
Proof.
  intros [_ _ _ Hl _ H0 H1 H2] Hi. unfold e_range, logspace.
  erewrite map_nth_error; [|apply map_nth_error, linspace_nth; [auto|exact Hi]].
  rewrite nsub_fin. do 2 f_equal. unfold tabulated_e. f_equal.
  set (n := INR (e_len lum - 1)). assert (0 < n) by (apply lt_0_INR; lia).
  rewrite Rpower_plus, Rpower10 by lra. f_equal.
  unfold Rpower. f_equal. unfold log10R. rewrite ln_div by lra.
  assert (0 < ln 10) by (rewrite <- ln_1; apply ln_increasing; lra). field. lra.
Qed.
Definition e_grid (lum : lum_info) : list R := map (tabulated_e lum) (seq 0 (e_len lum)).
Lemma e_grid_nth lum i : (i < e_len lum)%nat -> nth_error (e_grid lum) i = Some (tabulated_e lum i).
Proof. intros H. unfold e_grid. apply map_nth_error. rewrite nth_error_nth' with (d := 0%nat) by (rewrite seq_length; lia).
  now rewrite seq_nth. Qed.
Lemma e_grid_length lum : length (e_grid lum) = e_len lum.
Proof. unfold e_grid. now rewrite map_length, seq_length. Qed.
Lemma e_range_eq lum tbl : lum_table lum tbl -> e_range lum = map Fin (e_grid lum).
Proof.
  intros T. apply NpFacts.nth_error_ext. intros i.
  destruct (Nat.lt_ge_cases i (e_len lum)) as [L|L].
  - rewrite (e_range_nth lum tbl) by auto. symmetry. now apply map_nth_error, e_grid_nth.
  - rewrite !(proj2 (nth_error_None _ _)); auto; rewrite ?map_length, ?e_grid_length; auto.
    unfold e_range, logspace. now rewrite !map_length, linspace_length.
Qed.
Lemma tabulated_bounds lum tbl i : lum_table lum tbl -> (i < e_len lum)%nat -> e_min lum <= tabulated_e lum i <= e_max lum.
Proof.
  intros [_ _ _ Hl _ H0 H1 H2] Hi. unfold tabulated_e.
  set (r := (1 - e_max lum) / (1 - e_min lum)).
  assert (Hr : 0 < r < 1) by (unfold r; split; [apply Rdiv_lt_0_compat; lra|apply (Rmult_lt_reg_r (1 - e_min lum)); [lra|];
    unfold Rdiv; rewrite Rmult_assoc, Rinv_l by lra; lra]).
  set (n := INR (e_len lum - 1)). assert (0 < n) by (apply lt_0_INR; lia).
  assert (Hx : 0 <= INR i / n <= 1).
  { split; [apply Rmult_le_pos; [apply pos_INR|left; now apply Rinv_0_lt_compat]|].
    apply (Rmult_le_reg_r n); auto. unfold Rdiv. rewrite Rmult_assoc, Rinv_l by lra. rewrite Rmult_1_l, Rmult_1_r. apply le_INR. lia. }
  assert (Hln : ln r < 0) by (rewrite <- ln_1; apply ln_increasing; lra).
  assert (A : Rpower r (INR i / n) <= 1).
  { unfold Rpower. rewrite <- exp_0 at 1. destruct (Req_dec (INR i / n * ln r) 0) as [->|]; [lra|left; apply exp_increasing; nra]. }
  assert (B : r <= Rpower r (INR i / n)).
  { rewrite <- (Rpower_1 r) at 1 by lra. unfold Rpower.
    destruct (Req_dec (1 * ln r) (INR i / n * ln r)) as [->|]; [lra|left; apply exp_increasing; nra]. }
  assert (C : (1 - e_min lum) * r = 1 - e_max lum) by (unfold r; field; lra).
  nra.
Qed.
Lemma tabulated_first lum tbl : lum_table lum tbl -> tabulated_e lum 0 = e_min lum.
Proof. intros [_ _ _ Hl _ H0 H1 H2]. unfold tabulated_e. change (INR 0) with 0.
  replace (0 / INR (e_len lum - 1)) with 0 by (unfold Rdiv; ring).
  rewrite Rpower_O by (apply Rdiv_lt_0_compat; lra). lra. Qed.
Lemma tabulated_last lum tbl : lum_table lum tbl -> tabulated_e lum (e_len lum - 1) = e_max lum.
Proof.
  intros [_ _ _ Hl _ H0 H1 H2]. unfold tabulated_e. unfold Rdiv at 2. rewrite Rinv_r by (apply not_0_INR; lia).
  rewrite Rpower_1 by (apply Rdiv_lt_0_compat; lra). field. lra.
Qed.
Lemma tabulated_increasing lum tbl i j : lum_table lum tbl -> (i < j)%nat -> tabulated_e lum i < tabulated_e lum j.
Proof.
  intros [_ _ _ Hl _ H0 H1 H2] Hij. unfold tabulated_e.
  set (r := (1 - e_max lum) / (1 - e_min lum)).
  assert (Hr : 0 < r < 1) by (unfold r; split; [apply Rdiv_lt_0_compat; lra|apply (Rmult_lt_reg_r (1 - e_min lum)); [lra|];
    unfold Rdiv; rewrite Rmult_assoc, Rinv_l by lra; lra]).
  set (n := INR (e_len lum - 1)). assert (0 < n) by (apply lt_0_INR; lia).
  assert (Hx : INR i / n < INR j / n) by (apply Rmult_lt_compat_r; [now apply Rinv_0_lt_compat|apply lt_INR; lia]).
  assert (Hln : ln r < 0) by (rewrite <- ln_1; apply ln_increasing; lra).
  assert (Rpower r (INR j / n) < Rpower r (INR i / n)) by (unfold Rpower; apply exp_increasing; nra).
  assert (0 < 1 - e_min lum) by lra. nra.
Qed.
Lemma e_grid_increasing lum tbl : lum_table lum tbl -> increasing (e_grid lum).
Proof.
  intros T i j a b Ha Hb L.
  assert (Hi : (i < e_len lum)%nat) by (rewrite <- e_grid_length; apply nth_error_Some; congruence).
  assert (Hj : (j < e_len lum)%nat) by (rewrite <- e_grid_length; apply nth_error_Some; congruence).
  rewrite e_grid_nth in Ha, Hb by auto. inversion Ha; inversion Hb; subst. eapply tabulated_increasing; eauto.
Qed.

(** ** The while loop *)
Lemma Rsum_app l l' : Rsum (l ++ l') = Rsum l + Rsum l'.
Proof. unfold Rsum. induction l; cbn [fold_right app]; lra. Qed.
Lemma nsum_from l : forall acc, fold_left nadd (map Fin l) (Fin acc) = Fin (acc + Rsum l).
Proof. induction l as [|x l IH]; intros acc; cbn [map fold_left]; [f_equal; unfold Rsum; cbn [fold_right]; lra|].
  rewrite nadd_fin, IH. f_equal. unfold Rsum; cbn [fold_right]. lra. Qed.
Lemma nsum_fin l : nsum (map Fin l) = Fin (Rsum l).
Proof. unfold nsum. rewrite nsum_from. f_equal. lra. Qed.

Lemma add_harmonics_spec (row : list R) T : forall rest k, skipn k row = rest -> (k <= length row)%nat ->
  let k' := add_harmonics (Fin T) (Fin (Rsum (firstn k row))) k (map Fin rest) in
  (k <= k' <= length row)%nat /\ (T <= Rsum (firstn k' row) \/ k' = length row) /\
  (forall j, (k <= j < k')%nat -> Rsum (firstn j row) < T).
Proof.
  induction rest as [|g rest IH]; intros k Hs Hk.
  - cbn. assert (length (skipn k row) = 0%nat) by now rewrite Hs. rewrite skipn_length in H.
    split; [lia|]. split; [right; lia|]. intros j Hj; lia.
  - cbn [map add_harmonics].
    assert (Hlt : (k < length row)%nat).
    { assert (length (skipn k row) = S (length rest)) by now rewrite Hs. rewrite skipn_length in H. lia. }
    destruct (Rlt_le_dec (Rsum (firstn k row)) T) as [L|L].
    + rewrite nlt_t by auto. rewrite nadd_fin.
      assert (Es : Rsum (firstn k row) + g = Rsum (firstn (S k) row)).
      { rewrite <- (firstn_skipn k row) at 2. rewrite Hs.
        rewrite firstn_app, firstn_length, (Nat.min_l k) by lia. replace (S k - k)%nat with 1%nat by lia.
        rewrite firstn_firstn, Nat.min_r by lia. cbn [firstn]. rewrite Rsum_app. assert (Rsum [g] = g) as -> by (unfold Rsum; cbn [fold_right]; lra). lra. }
      rewrite Es. destruct (IH (S k)) as (A & B & C).
      * replace (S k) with (1 + k)%nat by lia. clear -Hs. revert row Hs. induction k; intros row Hs.
        -- cbn in Hs. subst. reflexivity.
        -- destruct row; [discriminate|]. cbn in Hs. apply IHk in Hs. exact Hs.
      * lia.
      * split; [lia|]. split; [exact B|]. intros j Hj. destruct (Nat.eq_dec j k) as [->|]; [exact L|apply C; lia].
    + rewrite nlt_f by auto. split; [lia|]. split; [now left|]. intros j Hj; lia.
Qed.

Lemma luminosity_firstn tbl i row k : nth_error tbl i = Some row -> (k <= length row)%nat ->
  luminosity tbl i k = Rsum (firstn k row).
Proof.
  intros H Hk. unfold luminosity, power. rewrite (nth_error_nth _ _ _ H). clear H.
  f_equal. clear tbl i. revert k Hk. induction row as [|x row IH]; intros [|k] Hk; try easy.
  cbn [firstn seq map]. f_equal. rewrite <- IH by (cbn in Hk; lia). rewrite <- seq_shift, map_map.
  apply map_ext_in. intros n Hn. apply in_seq in Hn. destruct n; [lia|]. cbn. now rewrite Nat.sub_0_r.
Qed.

Lemma needed_from_spec tol N : forall rows fs prev, length rows = length fs ->
  (forall row, In row rows -> length row = N) -> (prev <= N)%nat ->
  let l := needed_from (Fin tol) prev (map (map Fin) rows) (map Fin fs) in
  length l = length rows /\
  forall i row f, nth_error rows i = Some row -> nth_error fs i = Some f ->
    let p := nth i (prev :: l) 0%nat in let q := nth i l 0%nat in
    (p <= q <= N)%nat /\ ((1 - tol) * f <= Rsum (firstn q row) \/ q = N) /\
    (forall j, (p <= j < q)%nat -> Rsum (firstn j row) < (1 - tol) * f).
Proof.
  induction rows as [|row rows IH]; intros fs prev L HN Hp; destruct fs as [|f fs]; try discriminate.
  - cbn. split; auto. now intros [|].
  - cbn [map needed_from]. rewrite nsub_fin, nmul_fin.
    rewrite firstn_map, nsum_fin, skipn_map.
    assert (Hrow : length row = N) by (apply HN; now left).
    destruct (add_harmonics_spec row ((1 - tol) * f) (skipn prev row) prev eq_refl) as (A & B & C); [lia|].
    set (k := add_harmonics _ _ _ _) in *. rewrite Hrow in *.
    destruct (IH fs k) as (D & E); [now inversion L|intros; apply HN; now right|lia|].
    split; [cbn; now rewrite D|].
    intros [|i] row' f' H1 H2.
    + cbn in H1, H2. inversion H1; inversion H2; subst row' f'. cbn [nth]. auto.
    + cbn [nth_error] in H1, H2. apply (E i row' f' H1 H2).
Qed.

Definition needed_of (tol : num) (lum : lum_info) : list nat :=
  2%nat :: needed_from tol 2 (tl (g_vals lum)) (tl (f_vals lum)).
Lemma harmonics_needed_eq tol lum tbl : lum_table lum tbl -> harmonics_needed tol lum = Ok (needed_of tol lum).
Proof.
  intros [Hv Hr _ Hl _ _ _ _]. unfold harmonics_needed, needed_of. destruct (g_vals lum) eqn:E; auto.
  destruct tbl; cbn in *; [lia|discriminate].
Qed.
Lemma f_vals_eq lum tbl : lum_table lum tbl -> f_vals lum = map (fun e => Fin (enhancement e)) (e_grid lum).
Proof.
  intros T. unfold f_vals. rewrite (e_range_eq lum tbl T), map_map. apply map_ext_in. intros e He.
  apply In_nth_error in He. destruct He as (i & He).
  assert (Hi : (i < e_len lum)%nat) by (rewrite <- e_grid_length; apply nth_error_Some; congruence).
  rewrite e_grid_nth in He by auto. inversion He; subst.
  pose proof (tabulated_bounds lum tbl i T Hi). destruct T. apply peters_f_fin. lra.
Qed.

Lemma needed_spec lum tbl tol : lum_table lum tbl ->
  length (needed_of (Fin tol) lum) = e_len lum /\
  harmonics_needed_spec lum tbl tol (fun i => nth i (needed_of (Fin tol) lum) 0%nat).
Proof.
  intros T. pose proof T as [Hv Hr Hc Hl Hn H0 H1 H2].
  unfold needed_of. rewrite (f_vals_eq lum tbl T), Hv.
  destruct tbl as [|row0 tbl]; [cbn in Hr; lia|]. cbn [map tl].
  assert (Eg : tl (map (fun e => Fin (enhancement e)) (e_grid lum)) = map Fin (map enhancement (tl (e_grid lum)))).
  { rewrite map_map. now destruct (e_grid lum). }
  rewrite Eg.
  destruct (needed_from_spec tol (n_max lum) tbl (map enhancement (tl (e_grid lum))) 2) as (A & B).
  { rewrite map_length. pose proof (e_grid_length lum). destruct (e_grid lum); cbn in *; lia. }
  { intros; apply Hc; now right. }
  { lia. }
  set (l := needed_from _ _ _ _) in *.
  split; [cbn in *; lia|]. split; [reflexivity|].
  intros i Hi. destruct (nth_error tbl i) as [row|] eqn:Er.
  2:{ apply nth_error_None in Er. cbn in Hr. lia. }
  assert (Ef : nth_error (map enhancement (tl (e_grid lum))) i = Some (enhancement (tabulated_e lum (S i)))).
  { apply map_nth_error. pose proof (e_grid_nth lum (S i) Hi). destruct (e_grid lum); [discriminate|exact H]. }
  destruct (B i row _ Er Ef) as (C & D & E).
  assert (Hlen : length row = n_max lum) by (apply Hc; right; now apply nth_error_In in Er).
  change (nth (S i) (2%nat :: l) 0%nat) with (nth i l 0%nat).
  assert (EL : forall k, (k <= n_max lum)%nat -> luminosity (row0 :: tbl) (S i) k = Rsum (firstn k row)).
  { intros k Hk. apply luminosity_firstn; auto. lia. }
  split; [exact C|]. split.
  - rewrite EL by lia. exact D.
  - intros j Hj. rewrite EL by lia. apply E. exact Hj.
Qed.
