(** FloatSum.v -- sums of terms that are not negative, in any order. *)
From Coq Require Import Reals ZArith List Lra Lia Permutation.
From Verif Require Import Num NumFacts Np EvolSpec HarmFacts Float FloatSpec FloatFacts FloatThms.
Import ListNotations.
Open Scope R_scope.

Section Sums.
Variable d : doubles.
Hypothesis I : ieee d.
Variables (v v' : nat -> R) (k : R).
(** Exact and given terms. *)
Definition term (i : nat) : Prop := (v i = 0 /\ v' i = 0) \/ (within 900 (v i) /\ near k (v i) (v' i)).
Definition total (l : list nat) : R := Rsum (map v l).
Lemma total_app a b : total (a ++ b) = total a + total b.
Proof. unfold total. rewrite map_app. apply Rsum_app. Qed.
Lemma low_900 : 0 < Rpower 2 (- 900).
Proof. apply exp_pos. Qed.
Lemma total_bounds l : Forall term l -> (total l = 0 \/ Rpower 2 (- 900) <= total l) /\ total l <= INR (length l) * Rpower 2 900.
Proof.
  pose proof low_900. assert (H9 : 0 < Rpower 2 900) by apply exp_pos.
  induction 1 as [|i l T F (IH1 & IH2)]; [unfold total, Rsum; cbn; lra|]. change (total (i :: l)) with (v i + total l). cbn [length]. rewrite S_INR.
  destruct T as [(T & _)|((T1 & T2) & _)]; [rewrite T; split; [destruct IH1; [left|right]; lra|nra]|].
  replace (- (900)) with (-900) in T1 by lra. split; [right|nra]. destruct IH1; lra.
Qed.
Lemma tree_near t : Forall term (positions t) -> INR (length (positions t)) <= 2 ^ 50 -> (k + INR (length (positions t))) * eps <= 1 ->
  (total (positions t) = 0 /\ sum_computed d v' t = 0) \/ near (k + INR (length (positions t)) - 1) (total (positions t)) (sum_computed d v' t).
Proof.
  pose proof eps_pos. pose proof low_900. pose proof ln_2.
  induction t as [i|a IHa b IHb]; cbn [positions sum_computed]; intros F N E.
  - inversion_clear F as [|? ? T _]. unfold total, Rsum; cbn [map fold_right length]. rewrite Rplus_0_r. replace (k + INR 1 - 1) with k by (cbn; lra). destruct T as [T|(_ & T)]; [now left|now right].
  - apply Forall_app in F. destruct F as (Fa & Fb). rewrite app_length, plus_INR in N, E |- *. rewrite total_app.
    assert (La : 1 <= INR (length (positions a))) by (apply (le_INR 1); clear; induction a; cbn; rewrite ?app_length; lia).
    assert (Lb : 1 <= INR (length (positions b))) by (apply (le_INR 1); clear; induction b; cbn; rewrite ?app_length; lia).
    specialize (IHa Fa ltac:(lra) ltac:(nra)). specialize (IHb Fb ltac:(lra) ltac:(nra)).
    destruct (total_bounds _ Fa) as (A1 & A2), (total_bounds _ Fb) as (B1 & B2).
    set (x := total (positions a)) in *. set (x' := total (positions b)) in *. set (y := sum_computed d v' a) in *. set (y' := sum_computed d v' b) in *.
    set (n := INR (length (positions a))) in *. set (m := INR (length (positions b))) in *.
    assert (Z : (x + x' = 0 /\ y + y' = 0) \/ (Rpower 2 (- 900) <= x + x' /\ near (k + n + m - 2) (x + x') (y + y'))).
    { destruct IHa as [(A & A')|A], IHb as [(B & B')|B].
      - left. lra.
      - right. rewrite A, A', !Rplus_0_l. assert (0 < x') by apply B. split; [destruct B1; lra|]. destruct B as (P & Q & B). split; [exact P|]. split; [exact Q|]. nra.
      - right. rewrite B, B', !Rplus_0_r. assert (0 < x) by apply A. split; [destruct A1; lra|]. destruct A as (P & Q & A). split; [exact P|]. split; [exact Q|]. nra.
      - right. assert (X0 : 0 < x) by apply A. assert (X1 : 0 < x') by apply B. split; [destruct A1; lra|].
        assert (IA : inv (k + n - 1) (Rabs (ln y) / ln 2) x y) by (split; [exact A|]; right; field; lra).
        assert (IB : inv (k + m - 1) (Rabs (ln y') / ln 2) x' y') by (split; [exact B|]; right; field; lra).
        destruct (add_inv _ _ _ _ _ _ _ _ IA IB) as ((P & Q & S) & _). split; [exact P|]. split; [exact Q|]. eapply Rle_trans; [exact S|]. apply Rmult_le_compat_r; [lra|]. apply Rmax_lub; lra. }
    destruct Z as [(Z1 & Z2)|(Z1 & Z2)].
    + left. split; [exact Z1|]. rewrite Z2. apply (proj1 (proj2 I) 0%Z). reflexivity.
    + right. replace (k + (n + m) - 1) with (k + n + m - 2 + 1) by ring. apply (near_trans _ _ _ (y + y')); [exact Z2|]. destruct Z2 as (P & Q & Z2). apply rnd_near; [exact I|exact Q|].
      assert (W : within 950 (x + x')).
      { split; [apply Rle_trans with (2 := Z1); apply Rle_Rpower; lra|]. apply Rle_trans with (2 ^ 50 * Rpower 2 900).
        - assert (0 < Rpower 2 900) by apply exp_pos. nra.
        - replace (2 ^ 50) with (Rpower 2 50) by (replace 50 with (INR 50) by (cbn; lra); now rewrite Rpower_pow by lra). rewrite <- Rpower_plus. right. f_equal. lra. }
      apply ln_within in W. destruct W as (_ & W). replace (ln (y + y')) with ((ln (y + y') - ln (x + x')) + ln (x + x')) by ring. eapply Rle_trans; [apply Rabs_triang|].
      assert ((k + n + m - 2) * eps <= 1) by nra. lra.
Qed.
End Sums.

Lemma Rsum_perm l l' : Permutation l l' -> Rsum l = Rsum l'.
Proof. unfold Rsum. induction 1; cbn [fold_right]; lra. Qed.
Lemma map_nth_seq (l : list R) x : map (fun i => nth i l x) (seq 0 (length l)) = l.
Proof.
  induction l as [|a l IH]; [reflexivity|]. cbn [length seq map nth]. f_equal. rewrite <- seq_shift, map_map. exact IH.
Qed.
Lemma args_nth l i : (i < length l)%nat -> args l i = nth i l 0.
Proof. intros H. unfold args. now apply nth_indep. Qed.
Lemma total_args l t : Permutation (positions t) (seq 0 (length l)) -> total (args l) (positions t) = Rsum l.
Proof.
  intros P. unfold total. rewrite (Rsum_perm _ _ (Permutation_map (args l) P)). f_equal. apply map_nth_seq.
Qed.
Lemma terms_nth t l l' i : terms t l l' -> 0 <= t <= / 8 -> (i < length l)%nat -> term (args l) (args l') (2 * t / eps) i.
Proof.
  intros F T. pose proof eps_pos. unfold term, args. revert i. induction F as [|x y l l' G F IH]; intros i L; [cbn in L; lia|].
  destruct i as [|i]; [|cbn [nth]; apply IH; cbn in L; lia]. cbn [nth]. destruct G as [G|(W & A)]; [now left|right]. split; [exact W|].
  apply ln_within in W. destruct W as (X & _). unfold accurate in A. rewrite (Rabs_right x) in A by lra. apply relative_near in A; [|exact X|lra]. destruct A as (Y & A).
  split; [exact X|]. split; [exact Y|]. replace (2 * t / eps * eps) with (2 * t) by (field; lra). exact A.
Qed.
Lemma sum_case d t l l' o : ieee d -> terms t l l' -> 0 <= t <= / 8 -> INR (length l) <= 2 ^ 48 -> Permutation (positions o) (seq 0 (length l)) ->
  (Rsum l = 0 /\ sum_computed d (args l') o = 0) \/
  (within 950 (Rsum l) /\ near (2 * t / eps + INR (length l) - 1) (Rsum l) (sum_computed d (args l') o)).
Proof.
  intros I F T N P. pose proof eps_pos. assert (K : 0 <= 2 * t / eps) by (apply Rmult_le_pos; [lra|left; now apply Rinv_0_lt_compat]).
  assert (L : length (positions o) = length l) by (rewrite (Permutation_length P); apply seq_length).
  assert (A : Forall (term (args l) (args l') (2 * t / eps)) (positions o)).
  { apply Forall_forall. intros i Q. apply (terms_nth _ _ _ _ F T). apply (Permutation_in _ P) in Q. apply in_seq in Q. lia. }
  assert (E : (2 * t / eps + INR (length l)) * eps <= 1).
  { rewrite Rmult_plus_distr_r. replace (2 * t / eps * eps) with (2 * t) by (field; lra). assert (INR (length l) * eps <= / 2) by (rewrite eps_pow; lra). lra. }
  destruct (tree_near d I (args l) (args l') _ o A) as [Z|Z]; rewrite ?L; [lra|exact E| |]; rewrite (total_args _ _ P) in Z; [now left|right]. rewrite L in Z. split; [|exact Z].
  destruct (total_bounds _ _ _ _ A) as (B1 & B2). rewrite (total_args _ _ P) in B1, B2. rewrite L in B2. assert (0 < Rsum l) by apply Z.
  split.
  - apply Rle_trans with (Rpower 2 (- 900)); [apply Rle_Rpower; lra|]. destruct B1; lra.
  - apply Rle_trans with (1 := B2). apply Rle_trans with (2 ^ 50 * Rpower 2 900); [assert (0 < Rpower 2 900) by apply exp_pos; nra|].
    replace (2 ^ 50) with (Rpower 2 50) by (replace 50 with (INR 50) by (cbn; lra); now rewrite Rpower_pow by lra). rewrite <- Rpower_plus. right. f_equal. lra.
Qed.
Lemma small_error t n : 0 <= t <= / 8 -> 0 <= n <= 2 ^ 48 -> (2 * t / eps + n - 1) * eps = 2 * t + (n - 1) * eps /\ (n - 1) * eps <= / 8.
Proof. intros T N. pose proof eps_pos. split; [field; lra|]. rewrite eps_pow. lra. Qed.
Lemma sum_accurate d t l l' o : ieee d -> terms t l l' -> 0 <= t <= / 8 -> INR (length l) <= 2 ^ 48 -> Permutation (positions o) (seq 0 (length l)) ->
  exists x, nsum (map Fin l) = Fin x /\ accurate (4 * (t + INR (length l) * Rpower 2 (- 53))) x (sum_computed d (args l') o).
Proof.
  intros I F T N P. exists (Rsum l). split; [apply nsum_fin|]. rewrite half_eps. pose proof eps_pos. pose proof (pos_INR (length l)).
  destruct (small_error t (INR (length l)) T) as (E1 & E2); [lra|].
  destruct (sum_case d t l l' o I F T N P) as [(Z1 & Z2)|(_ & Z)].
  - unfold accurate. rewrite Z1, Z2, Rminus_0_r, !Rabs_R0. lra.
  - apply (near_relative _ _ _ _ Z); [lra|]. rewrite Rmult_assoc, E1. lra.
Qed.
Lemma root_accurate d t l l' o : ieee d -> terms t l l' -> 0 <= t <= / 8 -> INR (length l) <= 2 ^ 48 -> Permutation (positions o) (seq 0 (length l)) ->
  exists x, nsqrt (nsum (map Fin l)) = Fin x /\ accurate (2 * (t + (INR (length l) + 500) * Rpower 2 (- 53))) x (root_computed d (args l') o).
Proof.
  intros I F T N P. rewrite nsum_fin, half_eps. pose proof eps_pos. pose proof eps_small. pose proof ln_2. pose proof (pos_INR (length l)).
  destruct (small_error t (INR (length l)) T) as (E1 & E2); [lra|]. unfold root_computed.
  destruct (sum_case d t l l' o I F T N P) as [(Z1 & Z2)|(W & Z)].
  - exists 0. rewrite Z1, nsqrt_fin, sqrt_0 by lra. split; [reflexivity|]. rewrite Z2.
    assert (HR : 0 < rnd d (1 / 2)).
    { apply (rnd_near d (1 / 2) I); [lra|]. replace (1 / 2) with (/ 2) by lra. rewrite ln_Rinv, Rabs_Ropp, Rabs_right by lra. lra. }
    rewrite (proj1 (proj2 (proj2 (proj2 I)))) by exact HR. unfold accurate. rewrite Rminus_0_r, !Rabs_R0. lra.
  - exists (sqrt (Rsum l)). assert (X : 0 < Rsum l) by apply Z. rewrite nsqrt_fin by lra. split; [reflexivity|].
    assert (V : inv (2 * t / eps + INR (length l) - 1) 951 (Rsum l) (sum_computed d (args l') o)).
    { split; [exact Z|]. destruct Z as (_ & _ & Z). apply ln_within in W. destruct W as (_ & W). set (y := sum_computed d (args l') o) in *. set (x := Rsum l) in *.
      replace (ln y) with ((ln y - ln x) + ln x) by ring. eapply Rle_trans; [apply Rabs_triang|]. lra. }
    destruct (inv_pos _ _ _ _ V) as (K & _ & _).
    assert (Q := pow_inv d _ _ _ _ 1 2 I V K). cbv zeta in Q. change ((2 =? 1)%Z) with false in Q. cbv iota in Q. rewrite Rabs_right in Q by lra. rewrite (proj1 pow20), (proj2 pow20) in Q.
    specialize (Q ltac:(lra) ltac:(lra)). destruct Q as (Q & _). replace (1 / 2) with (/ 2) in Q at 2 by lra. rewrite Rpower_sqrt in Q by exact X.
    assert (E : (2 + 1 / 2 * (2 * t / eps + INR (length l) - 1 + 951 / 2)) * eps = t + (INR (length l) - 1) / 2 * eps + (2 + 951 / 4) * eps) by (field; lra).
    apply (near_relative _ _ _ _ Q); [rewrite E; lra|]. rewrite Rmult_assoc, E. lra.
Qed.
Lemma peters_f_circular d : ieee d -> computed d (args [0]) peters_f_ex = 1.
Proof. intros I. now apply peters_f_0. Qed.
(** Two orders. *)
Lemma orders_agree d l o o' : ieee d -> terms 0 l l -> INR (length l) <= 2 ^ 48 -> adds_all o (length l) -> adds_all o' (length l) ->
  accurate (INR (length l) * Rpower 2 (- 50)) (sum_computed d (args l) o) (sum_computed d (args l) o').
Proof.
  intros I F N P Q. assert (T : 0 <= 0 <= / 8) by lra. pose proof eps_pos. pose proof (pos_INR (length l)).
  assert (E : Rpower 2 (- 50) = 4 * eps).
  { rewrite <- eps_def. replace (-50) with (2 + -52) by lra. rewrite Rpower_plus. f_equal. replace 2 with (INR 2) at 2 by (cbn; lra). rewrite Rpower_pow by lra. lra. }
  destruct (small_error 0 (INR (length l)) T) as (E1 & E2); [lra|].
  destruct (sum_case d 0 l l o I F T N P) as [(Z1 & Z2)|(_ & Z)], (sum_case d 0 l l o' I F T N Q) as [(Y1 & Y2)|(_ & Y)].
  - unfold accurate. rewrite Z2, Y2, Rminus_0_r, !Rabs_R0. lra.
  - destruct Y as (Y & _). lra.
  - destruct Z as (Z & _). lra.
  - assert (A : near (2 * (INR (length l) - 1)) (sum_computed d (args l) o) (sum_computed d (args l) o')).
    { destruct Z as (_ & Z1 & Z), Y as (_ & Y1 & Y). rewrite E1 in Z, Y. split; [exact Z1|]. split; [exact Y1|]. apply Rabs_le_inv in Z. apply Rabs_le_inv in Y. apply Rabs_le. lra. }
    apply (near_relative _ _ _ _ A); [lra|]. rewrite E. lra.
Qed.
