(** FloatThms.v -- accuracy of the closed formulae in double precision. *)
From Coq Require Import Reals ZArith List Lra Lia Bool.
From Verif Require Import Num NumFacts Np Utils Strain Float FloatSpec FloatFacts.
Import ListNotations.
Open Scope R_scope.

(** *** The expressions are the functions of the model *)
Lemma modelled_exact d v v' w k e : ieee d -> well v v' w k e -> modelled (fun i => Fin (v i)) e = Fin (exact v e).
Proof.
  intros I. assert (P : forall e, well v v' w k e -> 0 < exact v e) by (intros a A; apply (computed_inv v v' w k d I) in A; apply A).
  induction e; cbn [well modelled exact]; intros W; try reflexivity.
  - rewrite IHe1, IHe2 by apply W. apply nadd_fin.
  - rewrite IHe1, IHe2 by apply W. apply nsub_fin.
  - rewrite IHe1, IHe2 by apply W. apply nmul_fin.
  - rewrite IHe1, IHe2 by apply W. apply ndiv_fin. apply Rgt_not_eq, P, W.
  - rewrite IHe by apply W. assert (X : 0 < exact v e) by apply P, W. destruct (q =? 1)%Z eqn:Q; [|now apply npowr_fin].
    apply Z.eqb_eq in Q. subst q. rewrite Rdiv_1_r. destruct (Z_le_gt_dec 0 p) as [G|G].
    + rewrite npowi_fin by exact G. f_equal. rewrite <- (Z2Nat.id p G) at 2. rewrite <- INR_IZR_INZ. now rewrite Rpower_pow.
    + rewrite npowi_neg_fin by (lia || lra). f_equal. replace (IZR p) with (- IZR (- p)) by (rewrite opp_IZR; ring). rewrite Rpower_Ropp. f_equal.
      rewrite <- (Z2Nat.id (- p)) at 2 by lia. rewrite <- INR_IZR_INZ. now rewrite Rpower_pow.
  - destruct W.
Qed.

(** *** Tactics *)
Ltac numerals :=
  repeat match goal with
  | |- context [IZR (Z.log2_up (Z.pos ?z))] => let r := eval vm_compute in (Z.log2_up (Z.pos z)) in change (Z.log2_up (Z.pos z)) with r
  | |- context [Rabs (IZR ?a / IZR ?b)] => (rewrite (Rabs_right (IZR a / IZR b)) by lra) || (rewrite (Rabs_left (IZR a / IZR b)) by lra)
  | |- context [Z.eqb ?a ?b] => let r := eval vm_compute in (Z.eqb a b) in change (Z.eqb a b) with r; cbv iota
  | |- context [Rmax ?a ?b] => lazymatch a with context [Rmax _ _] => fail | _ => lazymatch b with context [Rmax _ _] => fail | _ => (rewrite (Rmax_left a b) by lra) || (rewrite (Rmax_right a b) by lra) end end
  end.
Lemma pow20 : Rpower 2 20 = 1048576 /\ Rpower 2 (- 20) = / 1048576.
Proof.
  replace (- 20) with (- (20)) by lra. rewrite Rpower_Ropp. replace 20 with (INR 20) by (cbn; lra). rewrite Rpower_pow by lra. split; lra.
Qed.
Lemma well_input k w x : 0 < x -> 0 <= k -> within w x -> inv k w x x.
Proof.
  intros X K W. apply ln_within in W. split; [|apply W]. split; [exact X|]. split; [exact X|]. rewrite Rminus_diag_eq by reflexivity. rewrite Rabs_R0. pose proof eps_pos. nra.
Qed.
Lemma exact_input w x : within w x -> inv 0 w x x.
Proof. intros W. apply well_input; [now apply ln_within in W|lra|exact W]. Qed.
Definition none (i : nat) : R := 0.
Definition ws (l : list R) (i : nat) : R := nth i l 0.
Ltac unfolds := cbn [well cost size exact const_size args nth ws]; unfold none.
Ltac check := unfolds; rewrite ?(proj1 pow20), ?(proj2 pow20); repeat (match goal with |- _ /\ _ => split end); try exact Logic.I; try lia; try (apply exact_input; assumption); try assumption; numerals; try lra.

Section Formulae.
Variable d : doubles.
Hypothesis I : ieee d.
Lemma conclude v v' w k e t c : well v v' w k e -> cost v w k e <= c -> 2 * c * eps <= t -> c <= 1000000000000 -> 
  0 < exact v e /\ modelled (fun i => Fin (v i)) e = Fin (exact v e) /\ accurate t (exact v e) (computed d v' e).
Proof.
  intros W C T B. split; [exact (proj1 (proj1 (computed_inv _ _ _ _ d I e W)))|]. split; [exact (modelled_exact d _ _ _ _ e I W)|].
  pose proof eps_pos. pose proof eps_small. apply (computed_accurate v v' w k d I e t W); nra.
Qed.
Lemma chirp_mass_accurate m1 m2 : within 140 m1 -> within 140 m2 ->
  exists x, chirp_mass (Fin m1) (Fin m2) = Fin x /\ 0 < x /\ accurate (/ 10 ^ 13) x (computed d (args [m1; m2]) chirp_mass_ex).
Proof.
  intros A B. exists (exact (args [m1; m2]) chirp_mass_ex). pose proof eps_small as S. pose proof eps_pos.
  assert (W : well (args [m1; m2]) (args [m1; m2]) (ws [140; 140]) none chirp_mass_ex) by (unfold chirp_mass_ex; check).
  destruct (conclude _ _ _ _ _ (/ 10 ^ 13) 225 W) as (P & M & C); [unfold chirp_mass_ex; check|rewrite eps_pow; lra|lra|].
  split; [exact M|]. now split.
Qed.
Lemma get_a_inv f m1 m2 : within 60 f -> within 140 m1 -> within 140 m2 ->
  inv 70 106 (exact (args [f; m1; m2]) get_a_ex) (computed d (args [f; m1; m2]) get_a_ex) /\
  get_a_from_f_orb (Fin f) (Fin m1) (Fin m2) = Fin (exact (args [f; m1; m2]) get_a_ex).
Proof.
  intros F A B.
  assert (W : well (args [f; m1; m2]) (args [f; m1; m2]) (ws [60; 140; 140]) none get_a_ex) by (unfold get_a_ex; check).
  pose proof (computed_inv _ _ _ _ d I _ W) as N. split; [|exact (modelled_exact d _ _ _ _ _ I W)].
  destruct N as (N & L). pose proof ln_2. pose proof eps_pos.
  assert (C : cost (args [f; m1; m2]) (ws [60; 140; 140]) none get_a_ex <= 70) by (unfold get_a_ex; check).
  assert (D : size (args [f; m1; m2]) (ws [60; 140; 140]) get_a_ex <= 106) by (unfold get_a_ex; check).
  split; [|nra]. destruct N as (P & Q & N). split; [exact P|]. split; [exact Q|nra].
Qed.
Lemma inv_weaken k l k' l' x y : inv k l x y -> k <= k' -> l <= l' -> inv k' l' x y.
Proof.
  intros ((P & Q & N) & L) K M. pose proof eps_pos. pose proof ln_2. split; [|nra]. split; [exact P|]. split; [exact Q|nra].
Qed.
Lemma get_f_inv a a' k m1 m2 : inv k 106 a a' -> k <= 100 -> within 140 m1 -> within 140 m2 ->
  inv (200 + 3 / 2 * k) 260 (exact (args [a; m1; m2]) get_f_ex) (computed d (args [a'; m1; m2]) get_f_ex) /\
  get_f_orb_from_a (Fin a) (Fin m1) (Fin m2) = Fin (exact (args [a; m1; m2]) get_f_ex).
Proof.
  intros F K A B. destruct (inv_pos _ _ _ _ F) as (K0 & _ & _).
  assert (W : well (args [a; m1; m2]) (args [a'; m1; m2]) (ws [106; 140; 140]) (ws [k; 0; 0]) get_f_ex) by (unfold get_f_ex; check).
  split; [|exact (modelled_exact d _ _ _ _ _ I W)].
  apply (inv_weaken _ _ _ _ _ _ (computed_inv _ _ _ _ d I _ W)); unfold get_f_ex; check.
Qed.
Lemma beta_accurate m1 m2 : within 140 m1 -> within 140 m2 ->
  exists x, beta (Fin m1) (Fin m2) = Fin x /\ 0 < x /\ accurate (/ 10 ^ 13) x (computed d (args [m1; m2]) beta_ex).
Proof.
  intros A B. exists (exact (args [m1; m2]) beta_ex).
  assert (W : well (args [m1; m2]) (args [m1; m2]) (ws [140; 140]) none beta_ex) by (unfold beta_ex; check).
  destruct (conclude _ _ _ _ _ (/ 10 ^ 13) 225 W) as (P & M & C); [unfold beta_ex; check|rewrite eps_pow; lra|lra|].
  split; [|now split]. rewrite <- M. unfold beta, beta_ex. cbn [modelled args nth Z.eqb Pos.eqb]. rewrite ndiv_fin by lra. reflexivity.
Qed.
Lemma ecc_square e : ecc_box e -> let E := Rpower e (2 / 1) in E = e ^ 2 /\ 0 < E /\ E < 1 /\ 1 <= / (1 - E) <= 2 ^ 30 /\ Rabs (ln (1 - E)) / ln 2 <= 30.
Proof.
  intros (W & D) E. assert (X : 0 < e) by now apply ln_within in W. pose proof ln_2.
  assert (Q : E = e ^ 2). { unfold E. rewrite Rdiv_1_r. replace 2 with (INR 2) by (cbn; lra). now rewrite Rpower_pow. }
  assert (P : 0 < Rpower 2 (-30)) by apply exp_pos. split; [exact Q|]. split; [apply exp_pos|]. split; [lra|]. rewrite Q.
  assert (Z : Rpower 2 (-30) = / 2 ^ 30). { replace (-30) with (- (30)) by lra. rewrite Rpower_Ropp. f_equal. replace 30 with (INR 30) by (cbn; lra). now rewrite Rpower_pow by lra. }
  assert (E1 : 0 < e ^ 2) by (apply pow_lt; exact X). split; [split|].
  - rewrite <- Rinv_1 at 1. apply Rinv_le_contravar; lra.
  - rewrite <- (Rinv_inv (2 ^ 30)). apply Rinv_le_contravar; lra.
  - apply Rmult_le_reg_r with (ln 2); [lra|]. unfold Rdiv. rewrite Rmult_assoc, Rinv_l, Rmult_1_r by lra. apply ln_within. split; [exact D|].
    apply Rle_trans with 1; [lra|]. replace 30 with (INR 30) by (cbn; lra). rewrite Rpower_pow by lra. lra.
Qed.
Lemma peters_f_inv e : ecc_box e -> let v := args [e] in
  inv (100 / (1 - e ^ 2)) 110 (exact v peters_f_ex) (computed d v peters_f_ex) /\ peters_f (Fin e) = Fin (exact v peters_f_ex).
Proof.
  intros B v. destruct (ecc_square e B) as (Q & E0 & E1 & D12 & L). rewrite Q in D12. destruct B as (B & _). pose proof eps_pos. pose proof eps_small. pose proof ln_2.
  set (D := / (1 - e ^ 2)) in *. destruct D12 as (D1 & D2).
  assert (S : 4 * ((0 * 1 + (2 + 2 / 1 * (0 + 0)) * Rpower e (2 / 1)) / (1 - Rpower e (2 / 1))) <= 8 * D).
  { unfold Rdiv at 1. rewrite Q in *. fold D. nra. }
  assert (W : well v v (ws [100]) none peters_f_ex).
  { unfold peters_f_ex, peters_f_of, v. check. nra. }
  split.
  - destruct (computed_inv _ _ _ _ d I _ W) as (N & _).
    assert (C : cost v (ws [100]) none peters_f_ex <= 100 * D).
    { unfold peters_f_ex, peters_f_of, v. check. }
    assert (M : forall a b, 0 < a -> a <= b -> ln a <= ln b). { intros a b Z [U| ->]; [left; now apply ln_increasing|right; reflexivity]. }
    assert (Y : 0 <= ln (exact v peters_f_ex) <= 108 * ln 2).
    { assert (DE : exact v peters_f_ex = (1 + 73 / 24 * Rpower e (2 / 1) + 37 / 96 * Rpower e (4 / 1)) / Rpower (1 - Rpower e (2 / 1)) (7 / 2)) by reflexivity.
      assert (Q4 : Rpower e (4 / 1) = Rpower e (2 / 1) ^ 2).
      { rewrite Q. rewrite Rdiv_1_r. replace 4 with (INR 4) by (cbn; lra). rewrite Rpower_pow by (now apply ln_within in B). ring. }
      rewrite DE, Q4. set (E := Rpower e (2 / 1)) in *. set (num := 1 + 73 / 24 * E + 37 / 96 * E ^ 2).
      assert (N1 : 1 <= num <= 2 ^ 3) by (unfold num; nra).
      unfold Rdiv at 1 3. rewrite ln_mult, ln_Rinv by (try apply Rinv_0_lt_compat; try apply exp_pos; lra). unfold Rpower. rewrite ln_exp.
      assert (A1 : ln 1 <= ln num) by (apply M; lra). assert (A2 : ln num <= ln (2 ^ 3)) by (apply M; lra). rewrite ln_1 in A1.
      replace (ln (2 ^ 3)) with (3 * ln 2) in A2 by (rewrite <- Rpower_pow by lra; unfold Rpower; rewrite ln_exp; cbn; ring).
      assert (A3 : ln (1 - E) <= ln 1) by (apply M; lra). rewrite ln_1 in A3. rewrite Rabs_left1 in L by exact A3.
      assert (A4 : - ln (1 - E) <= 30 * ln 2). { replace (- ln (1 - E)) with (- ln (1 - E) / ln 2 * ln 2) by (field; lra). apply Rmult_le_compat_r; lra. }
      lra. }
    split; [destruct N as (P1 & P2 & N); split; [exact P1|split; [exact P2|]]|].
    + eapply Rle_trans; [exact N|]. unfold Rdiv. fold D. apply Rmult_le_compat_r; lra.
    + destruct N as (_ & _ & N). set (y := computed d v peters_f_ex) in *. set (x := exact v peters_f_ex) in *. replace (ln y) with ((ln y - ln x) + ln x) by ring.
      eapply Rle_trans; [apply Rabs_triang|]. rewrite (Rabs_right (ln x)) by lra. assert (cost v (ws [100]) none peters_f_ex * eps <= 1) by nra. lra.
  - assert (M := modelled_exact d _ _ _ _ _ I W). rewrite <- M. unfold peters_f, peters_f_ex, peters_f_of, v. cbn [modelled args nth Z.eqb Pos.eqb].
    rewrite (ndiv_fin 73 24), (ndiv_fin 37 96) by lra. reflexivity.
Qed.
Lemma rnd_int z : (Z.abs z < 2 ^ 53)%Z -> rnd d (IZR z) = IZR z.
Proof. apply I. Qed.
Lemma peters_f_0 v e : exact v e = 0 -> computed d v e = 0 -> computed d v (peters_f_of e) = 1.
Proof.
  intros _ E. unfold peters_f_of. cbn [computed]. rewrite E. destruct I as (_ & R & _ & P & O & _).
  assert (R0 : rnd d 0 = 0) by (apply (R 0%Z); reflexivity). assert (R1 : rnd d 1 = 1) by (apply (R 1%Z); reflexivity).
  rewrite !Rdiv_1_r. rewrite (R 2%Z), (R 4%Z) by reflexivity. rewrite !P by lra. rewrite !Rmult_0_r, R0, !Rplus_0_r, Rminus_0_r, !R1, O, Rdiv_1_r. exact R1.
Qed.
Lemma peters_f_float e : eccentricity e -> exists p, peters_f (Fin e) = Fin p /\ 0 < p /\ inv (100 / (1 - e ^ 2)) 110 p (computed d (args [e]) peters_f_ex).
Proof.
  intros [->|B].
  - exists 1. split; [|split; [lra|]].
    + unfold peters_f. rewrite !npowi_fin by lia. change (Z.to_nat 2) with 2%nat. change (Z.to_nat 4) with 4%nat. rewrite !nmul_fin, !nadd_fin, nsub_fin.
      replace (1 - 0 ^ 2) with 1 by ring. rewrite npowr_fin by lra. rewrite ndiv_fin by (apply Rgt_not_eq, exp_pos). f_equal.
      unfold Rpower. rewrite ln_1, Rmult_0_r, exp_0. field.
    + unfold peters_f_ex. rewrite peters_f_0 by reflexivity. pose proof ln_2. pose proof eps_pos. replace (100 / (1 - 0 ^ 2)) with 100 by field.
      apply (inv_weaken 0 0); [|lra|lra]. split; [split; [lra|split; [lra|]]|]; rewrite ?ln_1, ?Rminus_0_r, Rabs_R0; lra.
  - destruct (peters_f_inv e B) as (N & M). exists (exact (args [e]) peters_f_ex). split; [exact M|]. split; [apply N|exact N].
Qed.
Lemma ecc_factor e : eccentricity e -> 1 <= / (1 - e ^ 2) <= 2 ^ 30.
Proof.
  intros [->|B]; [replace (1 - 0 ^ 2) with 1 by ring; lra|]. destruct (ecc_square e B) as (Q & _ & _ & D & _). now rewrite Q in D.
Qed.
Lemma peters_f_accurate e : eccentricity e ->
  exists x, peters_f (Fin e) = Fin x /\ 0 < x /\ accurate (/ 10 ^ 13 / (1 - e ^ 2)) x (computed d (args [e]) peters_f_ex).
Proof.
  intros B. destruct (peters_f_float e B) as (x & M & P & (N & _)). exists x. split; [exact M|]. split; [exact P|]. destruct (ecc_factor e B).
  unfold Rdiv in *. set (D := / (1 - e ^ 2)) in *. apply (near_relative _ _ _ _ N); rewrite eps_pow; lra.
Qed.
(** [fn_dot] and [h_c_n] with the enhancement factor given. *)
Definition fn_dot_given (n : Z) : ex := (
  let m_c := Inp 0 in let f_orb := Inp 1 in
  (Int 48 * Int n) / (Int 5 * Con CPi) * Pow (Con CG * m_c) 5 3 / Pow (Con CC) 5 1 * Pow (Int 2 * Con CPi * f_orb) 11 3 * Inp 3)%ex.
Definition h_c_given (n : Z) : ex := (
  let m_c := Inp 0 in let f_orb := Inp 1 in let dist := Inp 2 in let g := Inp 3 in
  (Pow (Pow (Int 2) 5 3 / (Int 3 * Pow (Con CPi) 4 3)) 1 2 * Pow (Con CG) 5 6 / Pow (Con CC) 3 2 * Pow m_c 5 6 / dist * Pow f_orb (-1) 6
   / Pow (Inp 5) 1 2) * Pow (g / Int n) 1 2)%ex.
Lemma harmonic_size n : (1 <= n <= 2 ^ 40)%Z -> 0 <= IZR (Z.log2_up n) <= 40.
Proof.
  intros H. split; [apply IZR_le, Z.log2_up_nonneg|]. apply IZR_le. change 40%Z with (Z.log2_up (2 ^ 40)). now apply Z.log2_up_le_mono.
Qed.
Lemma fn_dot_accurate n mc f e : (1 <= n <= 2 ^ 40)%Z -> within 140 mc -> within 60 f -> eccentricity e ->
  exists x, fn_dot_elem (Fin mc) (Fin f) (Fin e) n = Fin x /\ 0 < x /\ accurate (/ 10 ^ 12 / (1 - e ^ 2)) x (computed d (args [mc; f; e]) (fn_dot_ex n)).
Proof.
  intros N A B E. destruct (peters_f_float e E) as (p & MP & P & NP). destruct (ecc_factor e E) as (D1 & D2). pose proof (harmonic_size n N).
  set (q := computed d (args [e]) peters_f_ex) in *. unfold Rdiv in NP. unfold Rdiv. set (D := / (1 - e ^ 2)) in *.
  assert (W : well (args [mc; f; 0; p]) (args [mc; f; e; q]) (ws [140; 60; 0; 110]) (ws [0; 0; 0; 100 * D]) (fn_dot_given n)) by (unfold fn_dot_given; check).
  exists (exact (args [mc; f; 0; p]) (fn_dot_given n)).
  destruct (conclude _ _ _ _ _ (/ 10 ^ 12 * D) (600 * D) W) as (X & M & C); [unfold fn_dot_given; check|rewrite eps_pow; lra|lra|].
  split; [|split; [exact X|exact C]]. rewrite <- M. unfold fn_dot_elem. rewrite MP. reflexivity.
Qed.
Lemma nsqrt_pow x : 0 < x -> nsqrt (Fin x) = npowr (Fin x) (1 / 2).
Proof. intros X. rewrite nsqrt_fin by lra. rewrite npowr_fin by exact X. f_equal. replace (1 / 2) with (/ 2) by lra. symmetry. now apply Rpower_sqrt. Qed.
Lemma h_0_value jv gi n mc f dist e g : (1 <= n <= 2 ^ 40)%Z -> within 140 mc -> within 60 f -> within 110 dist -> within 200 g -> g_value jv gi n e = Fin g ->
  let v := args [mc; f; dist; g] in let x := exact v (h_0_ex n) in
  h0_elem jv gi (Fin mc) (Fin f) e n (Fin dist) None = Fin x /\ 0 < x /\ accurate (/ 10 ^ 12) x (computed d v (h_0_ex n)).
Proof.
  intros N A B C G V v x. pose proof (harmonic_size n N).
  assert (W : well v v (ws [140; 60; 110; 200]) none (h_0_ex n)) by (unfold v, h_0_ex; check).
  destruct (conclude _ _ _ _ _ (/ 10 ^ 12) 2000 W) as (X & M & E); [unfold v, h_0_ex; check|rewrite eps_pow; lra|lra|].
  split; [|split; [exact X|exact E]]. unfold x. rewrite <- M. unfold h0_elem, mod_elem, h0_indep, h0_dep, h0_prefac. rewrite V.
  rewrite (nsqrt_pow (Rpower 2 (28 / 3) / 5)) by (apply Rdiv_lt_0_compat; [apply exp_pos|lra]). rewrite (nsqrt_pow g) by (now apply ln_within in G).
  rewrite <- (ndiv_fin (Rpower 2 (28 / 3)) 5) by lra. rewrite <- (npowr_fin 2 (28 / 3)) by lra. reflexivity.
Qed.
Lemma h_0_accurate jv gi n mc f dist e g : (1 <= n <= 2 ^ 40)%Z -> within 140 mc -> within 60 f -> within 110 dist -> within 200 g -> g_value jv gi n e = Fin g ->
  exists x, h0_elem jv gi (Fin mc) (Fin f) e n (Fin dist) None = Fin x /\ 0 < x /\ accurate (/ 10 ^ 12) x (computed d (args [mc; f; dist; g]) (h_0_ex n)).
Proof. intros N A B C G V. eexists. exact (h_0_value jv gi n mc f dist e g N A B C G V). Qed.
Lemma h_c_accurate jv gi n mc f dist e g : (1 <= n <= 2 ^ 40)%Z -> within 140 mc -> within 60 f -> within 110 dist -> eccentricity e -> within 200 g ->
  g_value jv gi n (Fin e) = Fin g ->
  exists x, hc_elem jv gi (Fin mc) (Fin f) (Fin e) n (Fin dist) None = Fin x /\ 0 < x /\
    accurate (/ 10 ^ 12 / (1 - e ^ 2)) x (computed d (args [mc; f; dist; g; e]) (h_c_ex n)).
Proof.
  intros N A B C E G V. destruct (peters_f_float e E) as (p & MP & P & NP). destruct (ecc_factor e E) as (D1 & D2). pose proof (harmonic_size n N).
  set (q := computed d (args [e]) peters_f_ex) in *. unfold Rdiv in NP. unfold Rdiv. set (D := / (1 - e ^ 2)) in *.
  assert (W : well (args [mc; f; dist; g; 0; p]) (args [mc; f; dist; g; e; q]) (ws [140; 60; 110; 200; 0; 110]) (ws [0; 0; 0; 0; 0; 100 * D]) (h_c_given n)) by (unfold h_c_given; check).
  exists (exact (args [mc; f; dist; g; 0; p]) (h_c_given n)).
  destruct (conclude _ _ _ _ _ (/ 10 ^ 12 * D) (600 * D) W) as (X & M & Z); [unfold h_c_given; check|rewrite eps_pow; lra|lra|].
  split; [|split; [exact X|exact Z]]. rewrite <- M. unfold hc_elem, mod_elem, hc_indep, hc_dep, hc_prefac. rewrite V, MP.
  assert (PI0 := PI_RGT_0). assert (G0 : 0 < g) by now apply ln_within in G. assert (N0 : 0 < IZR n) by (apply IZR_lt; lia).
  unfold nZ. rewrite (nsqrt_pow p) by exact P.
  rewrite (nsqrt_pow (Rpower 2 (5 / 3) / (3 * Rpower PI (4 / 3)))) by (apply Rdiv_lt_0_compat; [apply exp_pos|apply Rmult_lt_0_compat; [lra|apply exp_pos]]).
  rewrite <- (ndiv_fin (Rpower 2 (5 / 3))) by (apply Rgt_not_eq, Rmult_lt_0_compat; [lra|apply exp_pos]). rewrite <- (nmul_fin 3), <- (npowr_fin 2), <- (npowr_fin PI) by lra.
  rewrite (ndiv_fin g) by lra. rewrite (nsqrt_pow (g / IZR n)) by (now apply Rdiv_lt_0_compat). rewrite <- (ndiv_fin g) by lra. reflexivity.
Qed.
Lemma get_a_accurate f m1 m2 : within 60 f -> within 140 m1 -> within 140 m2 ->
  exists x, get_a_from_f_orb (Fin f) (Fin m1) (Fin m2) = Fin x /\ 0 < x /\ accurate (/ 10 ^ 13) x (computed d (args [f; m1; m2]) get_a_ex).
Proof.
  intros F A B. destruct (get_a_inv f m1 m2 F A B) as (N & M). eexists. split; [exact M|]. split; [apply N|]. apply (near_relative 70); [apply N| |]; rewrite eps_pow; lra.
Qed.
Lemma get_f_accurate a m1 m2 : within 106 a -> within 140 m1 -> within 140 m2 ->
  exists x, get_f_orb_from_a (Fin a) (Fin m1) (Fin m2) = Fin x /\ 0 < x /\ accurate (/ 10 ^ 13) x (computed d (args [a; m1; m2]) get_f_ex).
Proof.
  intros F A B. destruct (get_f_inv a a 0 m1 m2) as (N & M); [now apply exact_input|lra|exact A|exact B|]. eexists. split; [exact M|]. split; [apply N|].
  apply (near_relative (200 + 3 / 2 * 0)); [apply N| |]; rewrite eps_pow; lra.
Qed.
(** There and back in double precision. *)
Lemma round_trip_accurate f m1 m2 : within 60 f -> within 140 m1 -> within 140 m2 ->
  accurate (/ 10 ^ 12) f (computed d (args [computed d (args [f; m1; m2]) get_a_ex; m1; m2]) get_f_ex).
Proof.
  intros F A B. destruct (get_a_inv f m1 m2 F A B) as (N & M). destruct (get_f_inv _ _ _ m1 m2 N) as (N' & M'); [lra|exact A|exact B|].
  assert (E : exact (args [exact (args [f; m1; m2]) get_a_ex; m1; m2]) get_f_ex = f).
  { apply ln_within in A, B, F. cbn [exact get_f_ex get_a_ex args nth value]. destruct A as (A & _), B as (B & _), F as (F & _).
    assert (PI0 := PI_RGT_0). assert (G0 := Ggrav_pos). set (K := Ggrav * (m1 + m2)). assert (K0 : 0 < K) by (apply Rmult_lt_0_compat; lra).
    set (w := 2 * PI * f). assert (W0 : 0 < w) by (unfold w; apply Rmult_lt_0_compat; lra).
    rewrite !Rdiv_1_r. rewrite Rpower_mult. replace (1 / 3 * 3) with 1 by lra.
    assert (V0 : 0 < K / Rpower w 2) by (apply Rdiv_lt_0_compat; [exact K0|apply exp_pos]). rewrite Rpower_1 by exact V0.
    replace (K / (K / Rpower w 2)) with (Rpower w 2) by (field; repeat split; try lra; apply Rgt_not_eq, exp_pos). rewrite Rpower_mult. replace (2 * (1 / 2)) with 1 by lra.
    rewrite Rpower_1 by exact W0. unfold w. field. lra. }
  rewrite E in N'. apply (near_relative (200 + 3 / 2 * 70)); [apply N'| |]; rewrite eps_pow; lra.
Qed.
(** The chirp mass is symmetric bit for bit. *)
Lemma chirp_mass_symmetric m1 m2 : computed d (args [m1; m2]) chirp_mass_ex = computed d (args [m2; m1]) chirp_mass_ex.
Proof. cbn [computed chirp_mass_ex args nth]. now rewrite (Rmult_comm m1), (Rplus_comm m1). Qed.
(** The constant of Peters (1964) and the separation along his track. *)
Lemma c_0_accurate a e : within 110 a -> ecc_box e ->
  exists x, c_0 (Fin a) (Fin e) = Fin x /\ 0 < x /\ accurate (/ 10 ^ 13 / (1 - e ^ 2)) x (computed d (args [a; e]) c_0_ex).
Proof.
  intros A B. destruct (ecc_square e B) as (Q & E0 & E1 & D12 & L). rewrite Q in D12. destruct B as (B & _). pose proof eps_pos. pose proof eps_small. pose proof ln_2.
  unfold Rdiv. set (D := / (1 - e ^ 2)) in *. destruct D12 as (D1 & D2). set (v := args [a; e]).
  assert (S : 4 * ((0 * 1 + (2 + 2 / 1 * (0 + 0)) * Rpower e (2 / 1)) / (1 - Rpower e (2 / 1))) <= 8 * D). { unfold Rdiv at 1. rewrite Q in *. fold D. nra. }
  assert (W : well v v (ws [110; 100]) none c_0_ex). { unfold c_0_ex, v. check. nra. }
  destruct (conclude _ _ _ _ _ (/ 10 ^ 13 * D) (225 * D) W) as (X & M & Z); [unfold v, c_0_ex; check|rewrite eps_pow; lra|lra|].
  exists (exact v c_0_ex). split; [|split; [exact X|exact Z]]. rewrite <- M. unfold c_0, c_0_ex, v. cbn [modelled args nth Z.eqb Pos.eqb]. rewrite (ndiv_fin 121 304) by lra. reflexivity.
Qed.
Lemma get_a_from_ecc_accurate e c : ecc_box e -> within 200 c ->
  exists x, get_a_from_ecc (Fin e) (Fin c) = Fin x /\ 0 < x /\ accurate (/ 10 ^ 13 / (1 - e ^ 2)) x (computed d (args [e; c]) get_a_from_ecc_ex).
Proof.
  intros B A. destruct (ecc_square e B) as (Q & E0 & E1 & D12 & L). rewrite Q in D12. destruct B as (B & _). pose proof eps_pos. pose proof eps_small. pose proof ln_2.
  unfold Rdiv. set (D := / (1 - e ^ 2)) in *. destruct D12 as (D1 & D2). set (v := args [e; c]).
  assert (S : 4 * ((0 * 1 + (2 + 2 / 1 * (0 + 0)) * Rpower e (2 / 1)) / (1 - Rpower e (2 / 1))) <= 8 * D). { unfold Rdiv at 1. rewrite Q in *. fold D. nra. }
  assert (W : well v v (ws [100; 200]) none get_a_from_ecc_ex). { unfold get_a_from_ecc_ex, v. check. nra. }
  destruct (conclude _ _ _ _ _ (/ 10 ^ 13 * D) (225 * D) W) as (X & M & Z); [unfold v, get_a_from_ecc_ex; check|rewrite eps_pow; lra|lra|].
  exists (exact v get_a_from_ecc_ex). split; [|split; [exact X|exact Z]]. rewrite <- M. unfold get_a_from_ecc, get_a_from_ecc_ex, v. cbn [modelled args nth Z.eqb Pos.eqb].
  rewrite (ndiv_fin 121 304) by lra. reflexivity.
Qed.
End Formulae.
