(** FloatMergeFacts.v -- merger times of eccentric binaries in double precision (C105). *)
From Coq Require Import Reals ZArith List Lra Lia Bool.
From Verif Require Import Num NumFacts Np Utils Evol EvolFacts Float FloatSpec FloatFacts FloatThms FloatNoise FloatMerge.
Import ListNotations.
Open Scope R_scope.

Lemma within_more n m x : within n x -> n <= m -> within m x.
Proof. intros W L. destruct (ln_within _ _ W) as (P & B). pose proof ln_2. apply within_ln; [exact P|nra]. Qed.
Section Merger.
Variable d : doubles.
Hypothesis I : ieee d.
(** The constant of Peters as computed, for further calculations. *)
Lemma c_0_known a e : within 60 a -> within 40 e -> ecc_box e ->
  exists x, c_0 (Fin a) (Fin e) = Fin x /\ inv (120 * / (1 - e ^ 2)) 162 x (computed d (args [a; e]) c_0_ex).
Proof.
  intros A E4 B. destruct (ecc_square e B) as (Q & E0 & E1 & D12 & L). rewrite Q in D12. destruct B as (B & _). pose proof eps_pos. pose proof eps_small. pose proof ln_2.
  unfold Rdiv. set (D := / (1 - e ^ 2)) in *. destruct D12 as (D1 & D2). set (v := args [a; e]).
  assert (S : 4 * ((0 * 1 + (2 + 2 / 1 * (0 + 0)) * Rpower e (2 / 1)) / (1 - Rpower e (2 / 1))) <= 8 * D). { unfold Rdiv at 1. rewrite Q in *. fold D. nra. }
  assert (W : well v v (ws [60; 40]) none c_0_ex). { unfold c_0_ex, v. check. nra. }
  pose proof (modelled_exact d _ _ _ _ _ I W) as M. pose proof (computed_inv _ _ _ _ d I _ W) as N.
  apply (inv_weaken _ _ (120 * D) 162) in N; [|unfold v, c_0_ex; check|unfold v, c_0_ex; check].
  exists (exact v c_0_ex). split; [|exact N].
  rewrite <- M. unfold c_0, c_0_ex, v. cbn [modelled args nth Z.eqb Pos.eqb]. rewrite (ndiv_fin 121 304) by lra. reflexivity.
Qed.
(** Merger times of nearly circular and of nearly parabolic binaries. *)
Lemma t_small_accurate a beta e : within 60 a -> within 160 beta -> within 40 e -> ecc_box e ->
  exists c x, c_0 (Fin a) (Fin e) = Fin c /\ t_small (Fin c) (Fin beta) (Fin e) = Fin x /\ 0 < x /\
    accurate (/ 10 ^ 12 / (1 - e ^ 2)) x (computed d (args [computed d (args [a; e]) c_0_ex; beta; e]) t_small_ex).
Proof.
  intros A Bt E4 B. destruct (c_0_known a e A E4 B) as (c & C & N). destruct (ecc_square e B) as (Q & E0 & E1 & D12 & L). rewrite Q in D12. destruct B as (B & _). pose proof eps_pos. pose proof eps_small. pose proof ln_2.
  unfold Rdiv. set (D := / (1 - e ^ 2)) in *. destruct D12 as (D1 & D2). exists c. set (c' := computed d (args [a; e]) c_0_ex) in *.
  assert (W : well (args [c; beta; e]) (args [c'; beta; e]) (ws [162; 160; 40]) (ws [120 * D; 0; 0]) t_small_ex). { unfold t_small_ex. check. }
  destruct (conclude d I _ _ _ _ _ (/ 10 ^ 12 * D) (900 * D) W) as (P & M & K); [unfold t_small_ex; check|rewrite eps_pow; nra|lra|].
  exists (exact (args [c; beta; e]) t_small_ex). split; [exact C|]. split; [|now split].
  rewrite <- M. unfold t_small, t_small_ex. cbn [modelled args nth Z.eqb Pos.eqb]. reflexivity.
Qed.
Lemma t_large_accurate a beta e : within 60 a -> within 160 beta -> within 20 e -> ecc_box e ->
  exists c x, c_0 (Fin a) (Fin e) = Fin c /\ t_large (Fin c) (Fin beta) (Fin e) = Fin x /\ 0 < x /\
    accurate (/ 10 ^ 12 / (1 - e ^ 2)) x (computed d (args [computed d (args [a; e]) c_0_ex; beta; e]) t_large_ex).
Proof.
  intros A Bt E2 B. destruct (c_0_known a e A (within_more 20 40 e E2 ltac:(lra)) B) as (c & C & N). destruct (ecc_square e B) as (Q & E0 & E1 & D12 & L). rewrite Q in D12. destruct B as (B & _). pose proof eps_pos. pose proof eps_small. pose proof ln_2.
  unfold Rdiv. set (D := / (1 - e ^ 2)) in *. destruct D12 as (D1 & D2). exists c. set (c' := computed d (args [a; e]) c_0_ex) in *.
  assert (S : 4 * ((0 * 1 + (2 + 2 / 1 * (0 + 0)) * Rpower e (2 / 1)) / (1 - Rpower e (2 / 1))) <= 8 * D). { unfold Rdiv at 1. rewrite Q in *. fold D. nra. }
  assert (W : well (args [c; beta; e]) (args [c'; beta; e]) (ws [162; 160; 20]) (ws [120 * D; 0; 0]) t_large_ex). { unfold t_large_ex. check. nra. }
  destruct (conclude d I _ _ _ _ _ (/ 10 ^ 12 * D) (900 * D) W) as (P & M & K); [unfold t_large_ex; check|rewrite eps_pow; nra|lra|].
  exists (exact (args [c; beta; e]) t_large_ex). split; [exact C|]. split; [|now split].
  rewrite <- M. unfold t_large, t_large_ex. cbn [modelled args nth Z.eqb Pos.eqb]. rewrite (ndiv_fin 121 304), (ndiv_fin 768 425) by lra. reflexivity.
Qed.
End Merger.
Lemma merger_small d : ieee d -> forall quad a beta e small large ex, within 60 a -> within 160 beta -> within 40 e -> ecc_box e -> e < small ->
  exists x, get_t_merge_ecc_sc quad (Fin e) (Some (Fin a)) None (Some (Fin beta)) None None (Fin small) large ex = Ok (Fin x) /\ 0 < x /\
    accurate (/ 10 ^ 12 / (1 - e ^ 2)) x (computed d (args [computed d (args [a; e]) c_0_ex; beta; e]) t_small_ex).
Proof.
  intros I quad a beta e small large ex A Bt E B L. destruct (t_small_accurate d I a beta e A Bt E B) as (c & x & C & T & P & K). exists x. split; [|now split].
  destruct (ln_within _ _ E) as (E0 & _). unfold get_t_merge_ecc_sc, get_t_merge_ecc_sc_core. cbn [check_sc check_mass_freq_input rbind fst snd].
  rewrite (neqb_f e 0) by lra. rewrite nlt_t by lra. now rewrite C, T.
Qed.
Lemma merger_large d : ieee d -> forall quad a beta e small large ex, within 60 a -> within 160 beta -> within 20 e -> ecc_box e -> small <= e -> large < e ->
  exists x, get_t_merge_ecc_sc quad (Fin e) (Some (Fin a)) None (Some (Fin beta)) None None (Fin small) (Fin large) ex = Ok (Fin x) /\ 0 < x /\
    accurate (/ 10 ^ 12 / (1 - e ^ 2)) x (computed d (args [computed d (args [a; e]) c_0_ex; beta; e]) t_large_ex).
Proof.
  intros I quad a beta e small large ex A Bt E B S L. destruct (t_large_accurate d I a beta e A Bt E B) as (c & x & C & T & P & K). exists x. split; [|now split].
  destruct (ln_within _ _ E) as (E0 & _). unfold get_t_merge_ecc_sc, get_t_merge_ecc_sc_core. cbn [check_sc check_mass_freq_input rbind fst snd].
  rewrite (neqb_f e 0) by lra. rewrite nlt_f by lra. unfold ngt. rewrite nlt_t by lra. now rewrite C, T.
Qed.

(** *** The powers of a circular binary in the harmonics, with the values of the Bessel functions at 0. *)
Lemma peters_g_nothing d : ieee d -> forall n x, computed d (args [0; 0; x; 0; 0; 0]) (peters_g_ex n) = 0.
Proof.
  intros (_ & R & _ & P & O & _ & _ & _ & _ & H) n x. cbn [computed peters_g_ex args nth]. rewrite !Rdiv_1_r.
  assert (R0 : rnd d 0 = 0) by (apply (R 0%Z); reflexivity). assert (R2 : rnd d 2 = 2) by (apply (R 2%Z); reflexivity). rewrite R2.
  repeat (rewrite ?Rmult_0_r, ?Rmult_0_l, ?R0, ?Rplus_0_r, ?Rminus_0_r, ?(P 2) by lra). reflexivity.
Qed.
Lemma circular_powers d : ieee d -> forall n, (1 <= n)%Z -> let J k := if (k =? 0)%Z then 1 else 0 in
  computed d (args [0; J (n - 2)%Z; J (n - 1)%Z; J n; J (n + 1)%Z; J (n + 2)%Z]) (peters_g_ex n) = if (n =? 2)%Z then 1 else 0.
Proof.
  intros I n L J. unfold J. assert (Z0 : forall k, (k <> 0)%Z -> (k =? 0)%Z = false) by (intros k K; now apply Z.eqb_neq). destruct (Z.eqb_spec n 2) as [->|K].
  - exact (peters_g_circular d I).
  - rewrite (Z0 (n - 2)%Z), (Z0 n), (Z0 (n + 1)%Z), (Z0 (n + 2)%Z) by lia. apply (peters_g_nothing d I).
Qed.
