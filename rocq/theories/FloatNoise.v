(** FloatNoise.v -- accuracy of the noise curves, of the SNR of circular binaries, and of circular evolution in double precision. *)
From Coq Require Import Reals ZArith List Lra Lia Bool.
From Verif Require Import Num NumFacts Np NpFacts Utils Psd PsdFacts Strain Snr Evol EvolFacts Float FloatSpec FloatFacts FloatThms.
Import ListNotations.
Open Scope R_scope.

Ltac numerals ::=
  repeat match goal with
  | |- context [IZR (Z.log2_up (Z.pos ?z))] => let r := eval vm_compute in (Z.log2_up (Z.pos z)) in change (Z.log2_up (Z.pos z)) with r
  | |- context [IZR (Z.max ?a ?b)] => let r := eval vm_compute in (Z.max a b) in change (Z.max a b) with r
  | |- context [Rabs (IZR ?a / IZR ?b)] => (rewrite (Rabs_right (IZR a / IZR b)) by lra) || (rewrite (Rabs_left (IZR a / IZR b)) by lra)
  | |- context [Z.eqb ?a ?b] => let r := eval vm_compute in (Z.eqb a b) in change (Z.eqb a b) with r; cbv iota
  | |- context [Rmax ?a ?b] => lazymatch a with context [Rmax _ _] => fail | _ => lazymatch b with context [Rmax _ _] => fail | _ => (rewrite (Rmax_left a b) by lra) || (rewrite (Rmax_right a b) by lra) end end
  end.
Ltac dec := repeat match goal with |- context [(10 ^ ?k)%Z] => let r := eval vm_compute in (10 ^ k)%Z in change (10 ^ k)%Z with r end; lra.
Ltac smallz := match goal with |- (_ <= _)%Z => vm_compute; discriminate end.
Ltac checks := unfolds; rewrite ?(proj1 pow20), ?(proj2 pow20); repeat (match goal with |- _ /\ _ => split end); try exact Logic.I; try smallz; try (apply exact_input; assumption); try assumption; numerals; try lra.

Section Noise.
Variable d : doubles.
Hypothesis I : ieee d.
(** Adding a confusion noise that is given. *)
Lemma add_given k l x y c t : inv k l x y -> 0 <= c <= 2 ^ 900 -> l <= 900 -> k <= 1000000 -> 4 * (k + 1) * eps <= t -> accurate t (x + c) (rnd d (y + c)).
Proof.
  intros N C L K T. destruct (inv_pos _ _ _ _ N) as (K0 & L0 & X). pose proof eps_small. pose proof eps_pos as E0. pose proof ln_2 as L2.
  assert (A : accurate (2 * k * eps) x y) by (apply (near_relative k); [apply N|nra|lra]). unfold accurate in A. rewrite (Rabs_right x) in A by lra.
  destruct N as ((_ & Y & _) & S). assert (W : within l y) by (now apply within_ln).
  assert (W' : within 1022 (Rabs (y + c))).
  { rewrite Rabs_right by lra. destruct W as (W1 & W2). split.
    - apply Rle_trans with y; [|lra]. apply Rle_trans with (2 := W1). apply Rle_Rpower; lra.
    - assert (Y2 : y <= Rpower 2 900) by (apply Rle_trans with (1 := W2); apply Rle_Rpower; lra).
      assert (P : Rpower 2 900 = 2 ^ 900) by (rewrite <- Rpower_pow by lra; f_equal; rewrite INR_IZR_INZ; reflexivity).
      apply Rle_trans with (2 * Rpower 2 900); [rewrite P in *; lra|]. replace (2 * Rpower 2 900) with (Rpower 2 (1 + 900)) by (rewrite Rpower_plus, Rpower_1 by lra; reflexivity). apply Rle_Rpower; lra. }
  apply (proj1 I) in W'. rewrite half_eps, (Rabs_right (y + c)) in W' by lra. unfold accurate. rewrite (Rabs_right (x + c)) by lra.
  replace (rnd d (y + c) - (x + c)) with ((rnd d (y + c) - (y + c)) + (y - x)) by ring. eapply Rle_trans; [apply Rabs_triang|].
  assert (Z : y + c <= 2 * (x + c)) by (apply Rabs_le_inv in A; assert (KE : 2 * k * eps <= 1) by nra; assert (2 * k * eps * x <= 1 * x) by (apply Rmult_le_compat_r; lra); lra).
  assert (U1 : eps / 2 * (y + c) <= eps * (x + c)) by nra. assert (U2 : 2 * k * eps * x <= 2 * k * eps * (x + c)) by (apply Rmult_le_compat_l; nra).
  apply Rle_trans with (4 * (k + 1) * eps * (x + c)); [|apply Rmult_le_compat_r; lra].
  assert (U3 : 0 <= k * eps * (x + c)) by (apply Rmult_le_pos; nra). assert (U4 : 0 <= eps * (x + c)) by nra. lra.
Qed.
(** *** TianQin *)
Lemma tianqin_accurate f L t conf c : within 30 f -> within 40 L -> confusion_of Quantity [Fin f] t conf = Ok [Fin c] -> 0 <= c <= 2 ^ 900 ->
  exists x, tianqin_psd [Fin f] t (Fin L) conf = Ok [Fin x] /\ 0 < x /\ accurate (/ 10 ^ 12) x (rnd d (computed d (args [f; L]) tianqin_ex + c)).
Proof.
  intros F A C C0. set (v := args [f; L]).
  assert (W : well v v (ws [30; 40]) none tianqin_ex) by (unfold v, tianqin_ex, fstar_ex; checks).
  assert (N : inv 100 900 (exact v tianqin_ex) (computed d v tianqin_ex)).
  { apply (inv_weaken _ _ _ _ _ _ (computed_inv _ _ _ _ d I _ W)); unfold v, tianqin_ex, fstar_ex; checks. }
  exists (exact v tianqin_ex + c). split; [|split; [destruct N as ((P & _) & _); lra|apply (add_given 100 900); [exact N|exact C0|lra|lra|rewrite eps_pow; lra]]].
  unfold tianqin_psd. rewrite C. cbn [rbind map]. rewrite bzip_single_l. cbn [map]. unfold in_place. cbn [rbind length Nat.eqb].
  assert (M : tianqin_noise (Fin L) (Fin f) = Fin (exact v tianqin_ex)); [|now rewrite M, nadd_fin].
  rewrite <- (modelled_exact d _ _ _ _ _ I W). unfold tianqin_noise, tianqin_ex, fstar_ex, v. cbn [modelled args nth Z.eqb Pos.eqb value].
  replace (1 / IZR (10 ^ 30)) with 1e-30 by dec. replace (1 / IZR (10 ^ 24)) with 1e-24 by dec. replace (1 / IZR (10 ^ 4)) with 1e-4 by dec. replace (6 / 10) with 0.6 by lra.
  reflexivity.
Qed.
(** *** DECIGO *)
Lemma decigo_accurate f t conf c : 1e-3 <= f <= 1e2 -> confusion_of Bare [Fin f] t conf = Ok [Fin c] -> 0 <= c <= 2 ^ 900 ->
  exists x, decigo_psd [Fin f] t conf decigo_f_low decigo_f_high = Ok [Fin x] /\ 0 < x /\ accurate (/ 10 ^ 12) x (rnd d (computed d (args [f]) decigo_ex + c)).
Proof.
  intros B C C0. set (v := args [f]). assert (F : within 10 f). { unfold within. replace 10 with (INR 10) by (cbn; lra). rewrite Rpower_Ropp, Rpower_pow by lra. lra. }
  assert (W : well v v (ws [10]) none decigo_ex) by (unfold v, decigo_ex; checks).
  assert (N : inv 100 900 (exact v decigo_ex) (computed d v decigo_ex)).
  { apply (inv_weaken _ _ _ _ _ _ (computed_inv _ _ _ _ d I _ W)); unfold v, decigo_ex; checks. }
  exists (exact v decigo_ex + c). split; [|split; [destruct N as ((P & _) & _); lra|apply (add_given 100 900); [exact N|exact C0|lra|lra|rewrite eps_pow; lra]]].
  assert (IB : in_band decigo_f_low decigo_f_high (Fin f) = true) by (now apply in_band_fin).
  unfold decigo_psd. cbn [map]. unfold band at 1 2. rewrite IB, C. cbn [rbind map]. rewrite bzip_single_l. cbn [rbind map]. rewrite bzip_single_l. cbn [map]. unfold band. rewrite IB.
  assert (M : decigo_noise (Fin f) = Fin (exact v decigo_ex)); [|now rewrite M, nadd_fin, IB].
  rewrite <- (modelled_exact d _ _ _ _ _ I W). unfold decigo_noise, decigo_ex, v. cbn [modelled args nth Z.eqb Pos.eqb value].
  replace (653 / IZR (10 ^ 50)) with 6.53e-48 by dec. replace (48 / IZR (10 ^ 52)) with 4.8e-51 by dec. replace (533 / IZR (10 ^ 54)) with 5.33e-52 by dec.
  replace (736 / 100) with 7.36 by lra. reflexivity.
Qed.
(** *** LISA *)
Lemma cos_lipschitz a b : Rabs (cos a - cos b) <= Rabs (a - b).
Proof.
  assert (S : forall u, Rabs (sin u) <= Rabs u).
  { assert (P : forall u, 0 <= u -> Rabs (sin u) <= u).
    { intros u [U|<-]; [|rewrite sin_0, Rabs_R0; lra]. pose proof (SIN_bound u). apply Rabs_le. split; [|left; now apply sin_lt_x].
      destruct (Rle_dec 1 u); [lra|]. pose proof PI2_1. unfold PI2 in *. assert (0 < sin u) by (apply sin_gt_0; lra). lra. }
    intros u. destruct (Rle_dec 0 u) as [U|U]; [rewrite (Rabs_right u) by lra; now apply P|]. rewrite <- (Rabs_Ropp (sin u)), <- sin_neg, <- (Rabs_Ropp u). rewrite (Rabs_right (- u)) by lra. apply P. lra. }
  rewrite form2. rewrite !Rabs_mult. replace (Rabs (-2)) with 2 by (rewrite Rabs_left; lra). pose proof (S ((a - b) / 2)) as Q. pose proof (SIN_bound ((a + b) / 2)) as B.
  assert (B' : Rabs (sin ((a + b) / 2)) <= 1) by (apply Rabs_le; lra). replace (Rabs ((a - b) / 2)) with (Rabs (a - b) / 2) in Q.
  - pose proof (Rabs_pos (sin ((a - b) / 2))). pose proof (Rabs_pos (sin ((a + b) / 2))). nra.
  - unfold Rdiv. rewrite Rabs_mult, (Rabs_right (/ 2)) by lra. reflexivity.
Qed.
Definition modulation_ex : ex := (Int 1 + Pow (Cos (Inp 0 / fstar_ex (Inp 1))) 2 1)%ex.
Lemma lisa_modulation f L : within 24 f -> f <= 2 -> within 34 L ->
  inv 90000 5 (1 + cos (f / (clight / (2 * PI * L))) ^ 2) (computed d (args [f; L]) modulation_ex).
Proof.
  intros F F2 A. set (v := args [f; L]). set (X := (Inp 0 / fstar_ex (Inp 1))%ex). pose proof eps_pos as E0. pose proof eps_small as E1. pose proof ln_2.
  assert (F0 : 0 < f) by (now apply ln_within in F). assert (A0 : 0 < L) by (now apply ln_within in A).
  assert (W : well v v (ws [24; 34]) none X) by (unfold X, v, fstar_ex; checks).
  assert (N : near 10 (exact v X) (computed d v X)).
  { apply (inv_weaken _ _ 10 200 _ _ (computed_inv _ _ _ _ d I _ W)); unfold X, v, fstar_ex; checks. }
  assert (V : exact v X = f / (clight / (2 * PI * L))) by reflexivity.
  assert (B : 0 < exact v X <= 1000).
  { split; [apply N|]. rewrite V. Transparent clight. unfold clight. Opaque clight. pose proof PI_4. pose proof PI_RGT_0.
    assert (A1 : L <= 2 ^ 34). { destruct A as (_ & A). replace 34 with (INR 34) in A by (cbn; lra). now rewrite Rpower_pow in A by lra. }
    replace (f / (299792458 / (2 * PI * L))) with (f * PI * L * (2 / 299792458)) by (field; split; lra).
    assert (f * PI <= 2 * 4) by (apply Rmult_le_compat; lra). assert (f * PI * L <= 2 * 4 * 2 ^ 34) by (apply Rmult_le_compat; try lra; apply Rmult_le_pos; lra). lra. }
  apply (near_relative _ _ _ (20 * eps)) in N; [|lra|lra]. unfold accurate in N. rewrite (Rabs_right (exact v X)) in N by lra.
  assert (G : computed d v modulation_ex = rnd d (1 + pow_ d (cos_ d (computed d v X)) (rnd d (2 / 1)))) by reflexivity.
  rewrite G, Rdiv_1_r. replace (rnd d 2) with 2 by (symmetry; apply (rnd_int d I 2); reflexivity). rewrite <- V. set (x := exact v X) in *. set (y := computed d v X) in *. clearbody x y.
  pose proof I as I'. destruct I as (_ & _ & _ & _ & _ & SQ & CS & _).
  assert (N' : Rabs (y - x) <= 20000 * eps) by (eapply Rle_trans; [exact N|]; nra).
  assert (CY : Rabs (cos_ d y - cos y) <= eps). { apply CS. rewrite (proj1 pow20). apply Rabs_le_inv in N'. apply Rabs_le. lra. }
  assert (CX : Rabs (cos_ d y - cos x) <= 20001 * eps).
  { replace (cos_ d y - cos x) with ((cos_ d y - cos y) + (cos y - cos x)) by ring. eapply Rle_trans; [apply Rabs_triang|]. pose proof (cos_lipschitz y x). lra. }
  set (u := cos_ d y) in *. set (k := cos x) in *. assert (K : -1 <= k <= 1) by (apply COS_bound). clearbody u k.
  assert (U : Rabs u <= 2) by (apply Rabs_le_inv in CX; apply Rabs_le; lra). apply SQ in U.
  assert (FE : Rpower 2 (- 50) = 4 * eps).
  { rewrite <- eps_def. replace (- 50) with (2 + - 52) by lra. rewrite Rpower_plus. f_equal. replace (Rpower 2 2) with (2 ^ 2) by (rewrite <- Rpower_pow by lra; reflexivity). ring. }
  rewrite FE in U. set (s := pow_ d u 2) in *. clearbody s.
  assert (UK : Rabs (u ^ 2 - k ^ 2) <= 20001 * eps * (201 / 100)).
  { replace (u ^ 2 - k ^ 2) with ((u - k) * (u + k)) by ring. rewrite Rabs_mult. apply Rmult_le_compat; try apply Rabs_pos; [exact CX|]. apply Rabs_le_inv in CX. apply Rabs_le. lra. }
  assert (D : Rabs ((1 + s) - (1 + k ^ 2)) <= (41000 * eps) * (1 + k ^ 2)).
  { replace ((1 + s) - (1 + k ^ 2)) with ((s - u ^ 2) + (u ^ 2 - k ^ 2)) by ring. eapply Rle_trans; [apply Rabs_triang|]. pose proof (pow2_ge_0 k). nra. }
  pose proof (pow2_ge_0 k). assert (K2 : k ^ 2 <= 1) by nra.
  apply relative_near in D; [|lra|lra]. destruct D as (D0 & D). replace 90000 with (89999 + 1) by lra. replace 5 with (4 + 1) by lra. apply round_inv; [exact I'| |lra].
  split; [split; [lra|split; [exact D0|lra]]|].
  assert (LK : 0 <= ln (1 + k ^ 2) <= ln 2). { rewrite <- ln_1 at 1. split; [destruct (Rle_lt_or_eq_dec 1 (1 + k ^ 2)) as [q|q]; [lra|left; apply ln_increasing; lra|rewrite <- q; lra]|].
    destruct (Rle_lt_or_eq_dec (1 + k ^ 2) 2) as [q|q]; [lra|left; apply ln_increasing; lra|rewrite q; lra]. }
  apply Rabs_le_inv in D. apply Rabs_le. lra.
Qed.
Definition lisa_given : ex :=
  (let f := Inp 0 in let L := Inp 1 in let R := Inp 2 in
  Int 1 / Pow L 2 1 * (lisa_oms_ex f + Int 2 * Inp 3 * lisa_acc_ex f / Pow (Int 2 * Con CPi * f) 4 1) / R)%ex.
Lemma lisa_noise_inv f L R R' kR : within 24 f -> f <= 2 -> within 34 L -> inv kR 300 R R' -> kR <= 100000 ->
  exists x, lisa_noise (Fin L) (Fin (clight / (2 * PI * L))) (Fin f) (Fin R) = Fin x /\ inv (91000 + kR) 900 x (computed d (args [f; L; R']) lisa_ex).
Proof.
  intros F F2 A N K. set (q := 1 + cos (f / (clight / (2 * PI * L))) ^ 2). pose proof (lisa_modulation f L F F2 A) as Q. fold q in Q.
  set (q' := computed d (args [f; L]) modulation_ex) in *. set (v := args [f; L; R; q]). set (v' := args [f; L; R'; q']). destruct (inv_pos _ _ _ _ N) as (K0 & _ & R0).
  assert (W : well v v' (ws [24; 34; 300; 5]) (ws [0; 0; kR; 90000]) lisa_given) by (unfold v, v', lisa_given, lisa_oms_ex, lisa_acc_ex; checks).
  exists (exact v lisa_given). split; [|apply (inv_weaken _ _ _ _ _ _ (computed_inv _ _ _ _ d I _ W)); unfold v, lisa_given, lisa_oms_ex, lisa_acc_ex; checks].
  rewrite <- (modelled_exact d _ _ _ _ _ I W). unfold lisa_noise, lisa_given, lisa_oms_ex, lisa_acc_ex, lisa_oms, lisa_acc, v. cbn [modelled args nth Z.eqb Pos.eqb value].
  replace (15 / IZR (10 ^ 12)) with 1.5e-11 by dec. replace (2 / IZR (10 ^ 3)) with 2e-3 by dec. replace (3 / IZR (10 ^ 15)) with 3e-15 by dec. replace (4 / IZR (10 ^ 4)) with 0.4e-3 by dec.
  replace (8 / IZR (10 ^ 3)) with 8e-3 by dec.
  assert (C0 : 0 < clight / (2 * PI * L)). { pose proof PI_RGT_0. pose proof clight_pos. assert (0 < L) by (now apply ln_within in A). apply Rdiv_lt_0_compat; [assumption|apply Rmult_lt_0_compat; lra]. }
  rewrite (ndiv_fin f) by lra. change (ncos (Fin (f / (clight / (2 * PI * L))))) with (Fin (cos (f / (clight / (2 * PI * L))))).
  rewrite (npowi_fin (cos _)) by lia. change (Z.to_nat 2) with 2%nat. rewrite (nadd_fin 1 (cos _ ^ 2)). reflexivity.
Qed.
(** With the response the user's file or the spline gives. *)
Lemma lisa_accurate f L R : within 24 f -> f <= 2 -> within 34 L -> within 100 R ->
  exists x, lisa_noise (Fin L) (Fin (clight / (2 * PI * L))) (Fin f) (Fin R) = Fin x /\ 0 < x /\ accurate (/ 10 ^ 10) x (computed d (args [f; L; R]) lisa_ex).
Proof.
  intros F F2 A N. destruct (lisa_noise_inv f L R R 0 F F2 A) as (x & M & V); [apply (inv_weaken 0 100); [now apply exact_input|lra|lra]|lra|].
  exists x. split; [exact M|]. split; [apply V|]. apply (near_relative (91000 + 0)); [apply V| |]; rewrite eps_pow; lra.
Qed.
Lemma approximate_R_inv f L : within 24 f -> within 34 L ->
  exists R, approximate_response (Fin (clight / (2 * PI * L))) (Fin f) = Fin R /\ inv 100 300 R (computed d (args [f; L]) approximate_R_ex).
Proof.
  intros F A. set (v := args [f; L]).
  assert (W : well v v (ws [24; 34]) none approximate_R_ex) by (unfold v, approximate_R_ex, fstar_ex; checks).
  exists (exact v approximate_R_ex). split; [|apply (inv_weaken _ _ _ _ _ _ (computed_inv _ _ _ _ d I _ W)); unfold v, approximate_R_ex, fstar_ex; checks].
  rewrite <- (modelled_exact d _ _ _ _ _ I W). unfold approximate_response, approximate_R_ex, fstar_ex, v. cbn [modelled args nth Z.eqb Pos.eqb value].
  assert (C0 : 0 < 2 * PI * L). { pose proof PI_RGT_0. assert (0 < L) by (now apply ln_within in A). apply Rmult_lt_0_compat; lra. }
  replace (6 / 10) with 0.6 by lra. rewrite (ndiv_fin 3 10) by lra. rewrite (nmul_fin 2 PI), (nmul_fin (2 * PI) L), (ndiv_fin clight) by lra. reflexivity.
Qed.
Lemma lisa_psd_accurate w f L t conf c : 1e-7 <= f <= 2 -> within 34 L -> confusion_of Bare [Fin f] t conf = Ok [Fin c] -> 0 <= c <= 2 ^ 900 ->
  exists x, lisa_psd w [Fin f] t (Fin L) true conf = Ok [Fin x] /\ 0 < x /\
    accurate (/ 10 ^ 9) x (rnd d (computed d (args [f; L; computed d (args [f; L]) approximate_R_ex]) lisa_ex + c)).
Proof.
  intros B A C C0. assert (F : within 24 f). { unfold within. replace 24 with (INR 24) by (cbn; lra). rewrite Rpower_Ropp, Rpower_pow by lra. lra. }
  destruct (approximate_R_inv f L F A) as (R & MR & VR). destruct (lisa_noise_inv f L R _ 100 F (proj2 B) A VR) as (x & M & V); [lra|].
  exists (x + c). split; [|split; [destruct V as ((P & _) & _); lra|apply (add_given (91000 + 100) 900); [exact V|exact C0|lra|lra|rewrite eps_pow; lra]]].
  assert (IB : in_band (Fin 1e-7) (Fin 2) (Fin f) = true) by (now apply in_band_fin).
  assert (FS : ndiv (Fin clight) (nmul (nmul (Fin 2) (Fin PI)) (Fin L)) = Fin (clight / (2 * PI * L))).
  { assert (D0 : 0 < 2 * PI * L). { pose proof PI_RGT_0. assert (0 < L) by (now apply ln_within in A). apply Rmult_lt_0_compat; lra. } now rewrite !nmul_fin, ndiv_fin by lra. }
  unfold lisa_psd. cbn [map]. unfold band at 1 2 3 4. rewrite FS, IB, C. unfold approximate_response_function. cbn [map]. rewrite MR. cbn [rbind]. rewrite bzip_single_l. cbn [rbind map].
  rewrite M, bzip_single_l. cbn [rbind map]. rewrite nadd_fin, bzip_single_l. cbn [map]. unfold band. rewrite !IB. reflexivity.
Qed.
(** *** The SNR of a circular binary *)
Lemma peters_g_circular : computed d (args [0; 1; 0; 0; 0; 0]) (peters_g_ex 2) = 1.
Proof.
  destruct I as (_ & R & _ & P & O & _ & _ & _ & _ & H). cbn [computed peters_g_ex args nth]. rewrite !Rdiv_1_r.
  assert (R0 : rnd d 0 = 0) by (apply (R 0%Z); reflexivity). assert (R1 : rnd d 1 = 1) by (apply (R 1%Z); reflexivity). assert (R2 : rnd d 2 = 2) by (apply (R 2%Z); reflexivity).
  assert (RH : rnd d (IZR (2 ^ 4) / 32) = / 2). { replace (IZR (2 ^ 4) / 32) with (IZR 1 / 2 ^ 1) by (change (2 ^ 4)%Z with 16%Z; lra). rewrite (H 1%Z 1%nat); [lra|reflexivity|lia]. }
  rewrite RH, R2, (P 2) by lra.
  repeat (rewrite ?Rmult_0_r, ?Rmult_0_l, ?R0, ?Rplus_0_r, ?Rminus_0_r, ?R1, ?Rmult_1_l, ?Rmult_1_r, ?O, ?(P 2) by lra).
  replace (1 + 1) with 2 by lra. rewrite !R2. replace (/ 2 * 2) with 1 by lra. exact R1.
Qed.
Lemma g_circular jv : jv 0%Z (Fin 0) = Fin 1 -> (forall k, (1 <= k <= 4)%Z -> jv k (Fin 0) = Fin 0) -> g_value jv None 2 (Fin 0) = Fin 1.
Proof.
  intros J0 J. unfold g_value, peters_g. unfold nZ. rewrite (nmul_fin 2 0). replace (2 * 0) with 0 by ring. change (2 - 2)%Z with 0%Z. change (2 - 1)%Z with 1%Z. change (2 + 1)%Z with 3%Z. change (2 + 2)%Z with 4%Z.
  rewrite J0, !J by lia. rewrite (ndiv_fin 2 2), (npowi_fin 0) by (lra || lia). change (2 ^ 4)%Z with 16%Z. change (2 ^ 2)%Z with 4%Z. rewrite (ndiv_fin 16 32) by lra. rewrite (nmul_fin 3 4), (ndiv_fin 4) by lra.
  repeat first [rewrite nmul_fin|rewrite nsub_fin|rewrite nadd_fin|rewrite npowi_fin by lia]. change (Z.to_nat 2) with 2%nat. f_equal. field.
Qed.
Lemma input_near t x y l : 0 < x -> t <= / 8 -> accurate t x y -> within l x -> inv (2 * t / eps) (l + 1) x y.
Proof.
  intros X T A W. pose proof eps_pos. pose proof ln_2. unfold accurate in A. rewrite (Rabs_right x) in A by lra. apply relative_near in A; [|exact X|lra]. destruct A as (Y & A).
  apply ln_within in W. destruct W as (_ & W). split; [split; [exact X|split; [exact Y|]]|].
  - replace (2 * t / eps * eps) with (2 * t) by (field; lra). exact A.
  - apply Rabs_le_inv in A. apply Rabs_le_inv in W. apply Rabs_le. lra.
Qed.
Lemma snr_circ_accurate w jv kw sc mc f dist t h N N' tN :
  within 140 mc -> within 60 f -> within 110 dist -> within 60 t -> jv 0%Z (Fin 0) = Fin 1 -> (forall k, (1 <= k <= 4)%Z -> jv k (Fin 0) = Fin 0) ->
  h0_elem jv None (Fin mc) (Fin f) (Fin 0) 2 (Fin dist) None = Fin h -> within 300 h ->
  noise w kw sc (Fin t) [Fin (2 * f)] = Ok [Fin N] -> within 300 N -> 0 <= tN <= / 8 -> accurate tN N N' ->
  exists s, snr_circ_stationary w jv None [Fin mc] [Fin f] [Fin dist] (Fin t) no_sky sc kw = Ok [Fin s] /\ 0 < s /\
    let g' := computed d (args [0; 1; 0; 0; 0; 0]) (peters_g_ex 2) in
    let h' := computed d (args [mc; f; dist; g']) (h_0_ex 2) in
    accurate (/ 10 ^ 11 + 2 * tN) s (computed d (args [h'; t; N']) snr_circ_ex).
Proof.
  intros A F D T J0 J H0 HW NO NW TN NA. cbv zeta. rewrite peters_g_circular. pose proof eps_pos as E0. pose proof eps_small as E1.
  destruct (h_0_accurate d I jv None 2 mc f dist (Fin 0) 1) as (h1 & M & P & AH); try assumption; [lia|apply (within_ln 200); [lra|rewrite ln_1, Rabs_R0; pose proof ln_2; lra]|now apply g_circular|].
  rewrite H0 in M. injection M as <-. set (h' := computed d (args [mc; f; dist; 1]) (h_0_ex 2)) in *.
  assert (N0 : 0 < N) by (now apply ln_within in NW).
  pose proof (input_near (/ 10 ^ 12) _ _ 300 P ltac:(lra) AH HW) as IH. pose proof (input_near _ _ _ 300 N0 (proj2 TN) NA NW) as IN.
  set (v := args [h; t; N]). set (v' := args [h'; t; N']).
  assert (KH : 0 <= 2 * / 10 ^ 12 / eps) by (apply Rmult_le_pos; [lra|left; now apply Rinv_0_lt_compat]). assert (KN : 0 <= 2 * tN / eps) by (apply Rmult_le_pos; [lra|left; now apply Rinv_0_lt_compat]).
  assert (W : well v v' (ws [301; 60; 301]) (ws [2 * / 10 ^ 12 / eps; 0; 2 * tN / eps]) snr_circ_ex).
  { unfold v, v', snr_circ_ex. replace (300 + 1) with 301 in * by lra. checks. }
  exists (exact v snr_circ_ex). split; [|].
  - set (s := exact v snr_circ_ex). assert (MS : modelled (fun i => Fin (v i)) snr_circ_ex = Fin s) by exact (modelled_exact d _ _ _ _ _ I W).
    assert (HN : h_0_n jv None [Fin mc] (newaxis [Fin f]) (newaxis (map (fun _ => Fin 0) [Fin f])) [2%Z] [Fin dist] no_sky = Ok [[[Fin h]]]).
    { rewrite <- H0. unfold h0_elem, mod_elem. cbv -[h0_indep h0_dep nmul IZR]. reflexivity. }
    unfold snr_circ_stationary. rewrite HN. cbn [rbind map concat app]. rewrite nmul_fin, NO. cbn [rbind]. rewrite bzip_single_l. cbn [map]. rewrite <- MS. unfold snr_circ_ex, v. cbn [modelled args nth Z.eqb Pos.eqb]. 
    assert (T0 : 0 < t) by (now apply ln_within in T). rewrite npowi_fin by lia. change (Z.to_nat 2) with 2%nat. rewrite nmul_fin, ndiv_fin by lra. rewrite nsqrt_pow; [reflexivity|].
    apply Rdiv_lt_0_compat; [apply Rmult_lt_0_compat; [now apply pow_lt|exact T0]|exact N0].
  - assert (C : cost v (ws [301; 60; 301]) (ws [2 * / 10 ^ 12 / eps; 0; 2 * tN / eps]) snr_circ_ex <= 500 + 2 * / 10 ^ 12 / eps + tN / eps).
    { unfold v, snr_circ_ex. checks. }
    assert (C' : cost v (ws [301; 60; 301]) (ws [2 * / 10 ^ 12 / eps; 0; 2 * tN / eps]) snr_circ_ex * eps <= 500 * eps + 2 * / 10 ^ 12 + tN).
    { eapply Rle_trans; [apply Rmult_le_compat_r; [lra|exact C]|]. right. field. lra. }
    destruct (computed_accurate v v' _ _ d I snr_circ_ex (/ 10 ^ 11 + 2 * tN) W) as (_ & Q); [lra| |].
    + rewrite eps_pow in *. lra.
    + split; [|exact Q]. apply (computed_inv _ _ _ _ d I _ W).
Qed.
End Noise.

(** A double white dwarf with a chirp mass of half a solar mass at 1 mHz and 10 kpc. *)
Definition bessel_at_0 (k : Z) (x : num) : num := if (k =? 0)%Z then Fin 1 else Fin 0.
Lemma ln_between (a b : nat) x : / 2 ^ a <= x <= 2 ^ b -> - (INR a * ln 2) <= ln x <= INR b * ln 2.
Proof.
  intros (A & B). assert (P : 0 < / 2 ^ a) by (apply Rinv_0_lt_compat, pow_lt; lra).
  assert (M : forall a b, 0 < a -> a <= b -> ln a <= ln b). { intros u w Z [L| ->]; [left; now apply ln_increasing|right; reflexivity]. }
  apply M in B; [|lra]. apply M in A; [|exact P]. rewrite ln_Rinv in A by (apply pow_lt; lra). rewrite <- !Rpower_pow in * by lra. unfold Rpower in *. rewrite ln_exp in *. lra.
Qed.
Lemma ln_above (a b : nat) x : 2 ^ a <= x <= 2 ^ b -> INR a * ln 2 <= ln x <= INR b * ln 2.
Proof.
  intros (A & B). assert (P : 0 < 2 ^ a) by (apply pow_lt; lra).
  assert (M : forall a b, 0 < a -> a <= b -> ln a <= ln b). { intros u w Z [L| ->]; [left; now apply ln_increasing|right; reflexivity]. }
  apply M in B; [|lra]. apply M in A; [|exact P]. rewrite <- !Rpower_pow in * by lra. unfold Rpower in *. rewrite ln_exp in *. lra.
Qed.
Lemma snr_circ_example d : ieee d -> exists h, within 300 h /\ h0_elem bessel_at_0 None (Fin (10 ^ 30)) (Fin (/ 10 ^ 3)) (Fin 0) 2 (Fin (3 * 10 ^ 20)) None = Fin h.
Proof.
  intros I. assert (WP : forall n m x, m = INR n -> / 2 ^ n <= x <= 2 ^ n -> within m x) by (intros n m x -> H; unfold within; now rewrite Rpower_Ropp, Rpower_pow by lra).
  destruct (h_0_value d I bessel_at_0 None 2 (10 ^ 30) (/ 10 ^ 3) (3 * 10 ^ 20) (Fin 0) 1) as (M & P & _).
  1: lia. 1: apply (WP 140%nat); [cbn; lra|lra]. 1: apply (WP 60%nat); [cbn; lra|lra]. 1: apply (WP 110%nat); [cbn; lra|lra]. 1: apply (WP 200%nat); [cbn; lra|lra].
  1: apply g_circular; [reflexivity|]; intros k K; unfold bessel_at_0; destruct (Z.eqb_spec k 0); [lia|reflexivity].
  eexists. split; [|exact M]. clear M. apply within_ln; [exact P|]. clear P. cbn [exact h_0_ex args nth value]. pose proof PI_RGT_0 as P0. pose proof PI_4 as P4. pose proof PI2_1 as P1. unfold PI2 in P1.
  pose proof Ggrav_pos as G0. pose proof clight_pos as C0. set (K := PI * / 10 ^ 3). assert (K0 : 0 < K) by (unfold K; lra).
  assert (R0 : forall x y, 0 < Rpower x y) by (intros; apply exp_pos). unfold Rdiv at 1 2 4 6.
  assert (L : forall x y, ln (Rpower x y) = y * ln x) by (intros; unfold Rpower; apply ln_exp).
  repeat first [rewrite ln_mult by (repeat first [apply Rmult_lt_0_compat|apply Rinv_0_lt_compat|apply R0|lra])|rewrite L|rewrite ln_Rinv by (try apply R0; lra)].
  assert (D : forall x y, 0 < x -> 0 < y -> ln (x / y) = ln x - ln y) by (intros; unfold Rdiv; rewrite ln_mult, ln_Rinv by (try apply Rinv_0_lt_compat; lra); lra).
  rewrite !D, !L, ln_1 by (try apply R0; lra).
  assert (LG : - (INR 34 * ln 2) <= ln Ggrav <= INR 0 * ln 2). { apply ln_between. Transparent Ggrav. unfold Ggrav. Opaque Ggrav. lra. }
  assert (LC : INR 28 * ln 2 <= ln clight <= INR 29 * ln 2). { apply ln_above. Transparent clight. unfold clight. Opaque clight. lra. }
  assert (LM : INR 99 * ln 2 <= ln (10 ^ 30) <= INR 100 * ln 2) by (apply ln_above; lra).
  assert (LK : - (INR 10 * ln 2) <= ln K <= INR 0 * ln 2) by (apply ln_between; unfold K; lra).
  assert (L5 : INR 2 * ln 2 <= ln 5 <= INR 3 * ln 2) by (apply ln_above; lra).
  assert (L3 : INR 1 * ln 2 <= ln 3 <= INR 2 * ln 2) by (apply ln_above; lra).
  assert (LD : INR 66 * ln 2 <= ln (10 ^ 20) <= INR 67 * ln 2) by (apply ln_above; lra).
  rewrite !INR_IZR_INZ in *. pose proof ln_2. apply Rabs_le. cbn [Z.of_nat Pos.of_succ_nat Pos.succ] in *. split; lra.
Qed.
