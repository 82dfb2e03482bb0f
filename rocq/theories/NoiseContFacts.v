(** NoiseContFacts.v -- continuity of the built-in noise curves. *)
From Coq Require Import String Reals List Lra Lia.
From Coquelicot Require Import Coquelicot.
From Verif Require Import Num NumFacts Np Psd PsdSpec PsdFacts PsdThms ConvSpec ConvFacts.
Import ListNotations.
Open Scope R_scope.

Ltac by_derive F := apply (ex_derive_continuous (K := R_AbsRing) (V := R_NormedModule) F).

Lemma cont_tanh y : continuous tanh y.
Proof.
  by_derive tanh. unfold tanh, sinh, cosh. pose proof (exp_pos y). pose proof (exp_pos (- y)). auto_derive.
  match goal with |- ?e <> 0 => assert (0 < e); [|lra] end. apply Rmult_lt_0_compat; lra.
Qed.
Lemma cont_plus (u v : R -> R) s : continuous u s -> continuous v s -> continuous (fun x => u x + v x) s.
Proof. intros A B. exact (continuous_plus (K := R_AbsRing) (V := R_NormedModule) u v s A B). Qed.
Lemma cont_inv (u : R -> R) s : continuous u s -> u s <> 0 -> continuous (fun x => / u x) s.
Proof. intros A B. apply (continuous_comp u Rinv); auto. by_derive Rinv. apply (ex_derive_ext (fun x => / x)); [reflexivity|]. auto_derive. auto. Qed.
Lemma cont_robson r f : 0 < f -> continuous (robson_fit r) f.
Proof.
  intros Hf. unfold robson_fit. apply cont_mult.
  - by_derive (fun f => 9e-45 * Rpower f (-7/3) * exp (- Rpower f (r_alpha r) + r_beta r * f * sin (r_kappa r * f))).
    unfold Rpower. auto_derive. auto.
  - apply cont_plus; [apply cont_const|]. apply (continuous_comp (fun f => r_gamma r * (r_fk r - f)) tanh); [|apply cont_tanh].
    by_derive (fun f => r_gamma r * (r_fk r - f)). auto_derive. auto.
Qed.
Lemma cont_huang r f : 0 < f -> continuous (huang_fit r) f.
Proof.
  intros Hf. by_derive (huang_fit r). unfold huang_fit, log10, Rpower. auto_derive.
  assert (0 < f * / 1e-3) by (apply Rmult_lt_0_compat; lra). repeat split; auto.
Qed.
Lemma cont_thiele f : 0 < f -> continuous thiele_fit f.
Proof. intros Hf. by_derive thiele_fit. unfold thiele_fit, log10, Rpower. auto_derive. repeat split; auto. Qed.
Lemma cont_karnesis T f : 0 < f -> continuous (karnesis_fit T) f.
Proof.
  intros Hf. unfold karnesis_fit. set (f1 := Rpower 10 (-0.15 * log10 T - 2.72)). set (fk := Rpower 10 _). 
  assert (0 < f1) by apply exp_pos. cbv zeta. apply cont_mult.
  - by_derive (fun f => 1.15e-44 / 2 * Rpower f (-7/3) * exp (- Rpower (f / f1) 1.56)). unfold Rpower. auto_derive.
    split; auto. split; auto. apply Rmult_lt_0_compat; auto. now apply Rinv_0_lt_compat.
  - apply cont_plus; [apply cont_const|]. apply (continuous_comp (fun f => (fk - f) / 0.00067) tanh); [|apply cont_tanh].
    by_derive (fun f => (fk - f) / 0.00067). auto_derive. auto.
Qed.
Lemma fstar_pos L : 0 < L -> 0 < 299792458 / (2 * PI * L).
Proof. intros HL. pose proof PI_RGT_0. apply Rdiv_lt_0_compat; [lra|]. apply Rmult_lt_0_compat; lra. Qed.
Lemma cont_lisa L (r : R -> R) f : 0 < L -> 0 < f -> 0 < r f -> continuous r f -> continuous (fun x => lisa_curve L (r x) x) f.
Proof.
  intros HL Hf Hr Cr. pose proof (fstar_pos L HL) as HF. pose proof PI_RGT_0. unfold lisa_curve, Rdiv. set (fs := 299792458 * / (2 * PI * L)) in *.
  cbv zeta. apply cont_mult.
  - set (u := fun x => 1.5e-11 ^ 2 * (1 + (2e-3 * / x) ^ 4) + 2 * (1 + cos (x * / fs) ^ 2) * (3e-15 ^ 2 * (1 + (4e-4 * / x) ^ 2) * (1 + (x * / 8e-3) ^ 4)) * / (2 * PI * x) ^ 4).
    by_derive u. unfold u. auto_derive. assert (2 * PI * f <> 0) by nra. repeat split; try lra. now apply (pow_nonzero _ 4).
  - apply (cont_inv (fun x => L ^ 2 * r x)).
    + apply cont_mult; auto. apply cont_const.
    + assert (0 < L ^ 2) by (apply pow_lt; auto). nra.
Qed.
Lemma cont_response L f : 0 < L -> continuous (robson_response L) f.
Proof.
  intros HL. pose proof (fstar_pos L HL). by_derive (robson_response L). unfold robson_response. set (fs := 299792458 / (2 * PI * L)) in *. clearbody fs. auto_derive.
  pose proof (pow2_ge_0 (f * / fs)). first [lra|split; auto; lra].
Qed.
Lemma cont_tianqin L f : 0 < L -> 0 < f -> continuous (tianqin_curve L) f.
Proof.
  intros HL Hf. pose proof (fstar_pos L HL). pose proof PI_RGT_0. by_derive (tianqin_curve L). unfold tianqin_curve. set (fs := 299792458 / (2 * PI * L)) in *. clearbody fs.
  assert (2 * PI * f <> 0) by nra. auto_derive. repeat split; try lra. now apply (pow_nonzero _ 4).
Qed.
Lemma cont_decigo f : 0 < f -> continuous decigo_curve f.
Proof.
  intros Hf. by_derive decigo_curve. unfold decigo_curve. cbv zeta. assert (0 < f ^ 4) by (apply pow_lt; auto). pose proof (pow2_ge_0 (f * / 7.36)). auto_derive.
  repeat split; try (apply (pow_nonzero _ 4); lra). apply Rmult_integral_contrapositive_currified; [apply (pow_nonzero _ 4); lra|lra].
Qed.

(** ** Confusion noise *)
Lemma cut_confusion c t lo hi (g : R -> R) : (forall f, lo <= f <= hi -> published_confusion c t f (g f)) -> builtin c t -> 0 < lo -> no_cut c lo hi ->
  exists h : R -> R, forall f, lo <= f <= hi -> g f = h f /\ continuous h f.
Proof.
  intros Hg Hc Hlo Hn. destruct (Rle_dec lo hi) as [L|L]; [|exists g; intros; lra].
  pose proof (Hg lo ltac:(lra)) as H0.
  destruct Hc as [-> | [-> | [-> | [[-> Et] | -> ]]]].
  - exists (fun _ => 0). intros f Hf. split; [|apply cont_const]. pose proof (Hg f Hf) as H. now inversion H.
  - inversion H0 as [ |? ? r Hr | | | | ]; subst. exists (robson_fit r). intros f Hf. split; [|apply cont_robson; lra].
    apply (published_unique (CName "robson19") t f); [auto|now constructor].
  - destruct (Hn eq_refl) as [C|[C|C]].
    + exists (fun _ => 0). intros f Hf. split; [|apply cont_const]. apply (published_unique (CName "huang20") t f); [auto|]. constructor. lra.
    + inversion H0 as [ | |? ? r Hr | | | ]; subst; [|lra]. exists (huang_fit r). intros f Hf. split; [|apply cont_huang; lra].
      apply (published_unique (CName "huang20") t f); [auto|]. constructor; auto. lra.
    + exists (fun _ => 0). intros f Hf. split; [|apply cont_const]. apply (published_unique (CName "huang20") t f); [auto|]. constructor. lra.
  - subst t. exists thiele_fit. intros f Hf. split; [|apply cont_thiele; lra]. apply (published_unique (CName "thiele21") (4 * year) f); [auto|constructor].
  - exists (karnesis_fit (t / year)). intros f Hf. split; [|apply cont_karnesis; lra]. apply (published_unique (CName "karnesis21") t f); [auto|constructor].
Qed.
(** A curve that is a continuous part plus the confusion noise. *)
Lemma sum_continuous c t lo hi (p : num -> num) (base : R -> R) : builtin c t -> 0 < lo -> no_cut c lo hi ->
  (forall f, lo <= f <= hi -> 0 < base f /\ continuous base f /\ exists v, published_confusion c t f v /\ 0 <= v /\ p (Fin f) = Fin (base f + v)) ->
  continuous_noise p lo hi.
Proof.
  intros Hc Hlo Hn H. set (g := fun f => match p (Fin f) with Fin y => y - base f | _ => 0 end).
  assert (Hg : forall f, lo <= f <= hi -> published_confusion c t f (g f) /\ 0 <= g f /\ p (Fin f) = Fin (base f + g f)).
  { intros f Hf. destruct (H f Hf) as [_ [_ [v [A [B C]]]]]. assert (E : g f = v) by (unfold g; rewrite C; lra). rewrite E. auto. }
  destruct (cut_confusion c t lo hi g (fun f Hf => proj1 (Hg f Hf)) Hc Hlo Hn) as [h Hh].
  exists (fun f => base f + h f). intros f Hf. destruct (Hh f Hf) as [E C]. destruct (Hg f Hf) as [_ [P Q]]. destruct (H f Hf) as [B [D _]].
  rewrite <- E. split; auto. split; [lra|]. now apply cont_plus.
Qed.

Lemma lisa_continuous w c t L ap (r : R -> R) lo hi : builtin c t -> 0 < t -> 0 < L -> 1e-7 <= lo -> hi <= 2 -> no_cut c lo hi ->
  (forall f, 1e-7 <= f <= 2 -> response w L ap f (r f) /\ 0 < r f /\ continuous r f) ->
  exists p, (forall fs, lisa_psd w fs (Fin t) (Fin L) ap c = Ok (map p fs)) /\ continuous_noise p lo hi.
Proof.
  intros Hc Ht HL Hlo Hhi Hn Hr. 
  assert (RO : response_ok w L ap) by (right; intros f Hf; exists (r f); split; apply (Hr f Hf)).
  destruct (lisa_map w c t L ap Hc Ht HL RO) as [p [P1 [_ P3]]]. exists p. split; auto.
  apply (sum_continuous c t lo hi p (fun f => lisa_curve L (r f) f)); auto; [lra|].
  intros f Hf. destruct (Hr f ltac:(lra)) as [A [B C]]. split; [apply lisa_noise_fin; auto; lra|]. split; [apply cont_lisa; auto; lra|].
  destruct (P3 f ltac:(lra)) as [v [r' [D1 [D2 [D3 [D4 D5]]]]]]. exists v. split; auto. split; auto.
  assert (E : r' = r f) by (destruct ap; cbn [response] in *; congruence). now rewrite E in D5.
Qed.
Lemma response_continuous w L f : 0 < L -> response w L true f (robson_response L f) /\ 0 < robson_response L f /\ continuous (robson_response L) f.
Proof. intros HL. split; [reflexivity|]. split; [now apply robson_response_fin|now apply cont_response]. Qed.
Lemma tianqin_continuous c t L lo hi : builtin c t -> 0 < t -> 0 < L -> 0 < lo -> no_cut c lo hi ->
  exists p, (forall fs, tianqin_psd fs (Fin t) (Fin L) c = Ok (map p fs)) /\ continuous_noise p lo hi.
Proof.
  intros Hc Ht HL Hlo Hn. destruct (tianqin_map c t L Hc Ht HL) as [p [P1 P2]]. exists p. split; auto.
  apply (sum_continuous c t lo hi p (tianqin_curve L)); auto. intros f Hf. split; [apply tianqin_noise_fin; auto; lra|].
  split; [apply cont_tianqin; auto; lra|]. apply P2. lra.
Qed.
Lemma decigo_continuous c t a b lo hi : builtin c t -> 0 < t -> 1e-8 < a -> a <= lo -> hi <= b -> no_cut c lo hi ->
  exists p, (forall fs, decigo_psd fs (Fin t) c (Fin a) (Fin b) = Ok (map p fs)) /\ continuous_noise p lo hi.
Proof.
  intros Hc Ht Ha Hlo Hhi Hn. destruct (decigo_map c t a b Hc Ht Ha) as [p [P1 [_ P3]]]. exists p. split; auto.
  apply (sum_continuous c t lo hi p decigo_curve); auto; [lra|]. intros f Hf. split; [apply decigo_noise_fin; lra|].
  split; [apply cont_decigo; lra|]. apply P3. lra.
Qed.

(** ** The cuts of huang20 *)
Lemma jump (S : R -> R) x (base : R -> R) j (side : R) : side = 1 \/ side = -1 -> continuous base x -> 0 < j -> S x = base x + j ->
  (exists d, 0 < d /\ forall y, 0 < side * (y - x) < d -> S y = base y) -> ~ continuous S x.
Proof.
  intros Hs Cb Hj Hx [d [Hd Hy]] CS.
  assert (CD : continuous (fun y => S y - base y) x). { exact (continuous_minus (K := R_AbsRing) (V := R_NormedModule) S base x CS Cb). }
  apply continuity_pt_filterlim in CD. destruct (CD j Hj) as [a [Ha K]]. set (m := Rmin a d / 2).
  assert (Hm : 0 < m /\ m < a /\ m < d) by (unfold m, Rmin; destruct (Rle_dec a d); lra).
  specialize (K (x + side * m)). unfold D_x, no_cond, dist in K. cbn in K. unfold R_dist in K.
  assert (Q : S (x + side * m) = base (x + side * m)) by (apply Hy; destruct Hs; subst side; lra).
  assert (Rabs (S (x + side * m) - base (x + side * m) - (S x - base x)) < j).
  { apply K. split; [split; [exact Logic.I|destruct Hs; subst side; lra]|]. replace (x + side * m - x) with (side * m) by lra.
    rewrite Rabs_mult. rewrite (Rabs_pos_eq m) by lra. destruct Hs; subst side; [rewrite Rabs_R1|rewrite Rabs_left by lra]; lra. }
  rewrite Q, Hx in H. replace (base (x + side * m) - base (x + side * m) - (base x + j - base x)) with (- j) in H by lra.
  rewrite Rabs_Ropp, Rabs_pos_eq in H by lra. lra.
Qed.
Lemma tianqin_jumps t L x (S : R -> R) : 0 < t -> 0 < L -> x = 1e-4 \/ x = 1 ->
  (forall f, 0 < f -> tianqin_psd [Fin f] (Fin t) (Fin L) (CName "huang20") = Ok [Fin (S f)]) -> ~ continuous S x.
Proof.
  intros Ht HL Hx HS. assert (Hc : builtin (CName "huang20") t) by (unfold builtin; auto).
  destruct (tianqin_map _ t L Hc Ht HL) as [p [P1 P2]].
  assert (E : forall f, 0 < f -> exists v, published_confusion (CName "huang20") t f v /\ S f = tianqin_curve L f + v).
  { intros f Hf. specialize (HS f Hf). rewrite P1 in HS. cbn [map] in HS. destruct (P2 f Hf) as [v [A [_ B]]]. exists v. split; auto. rewrite B in HS. congruence. }
  destruct (E x ltac:(lra)) as [v [V1 V2]]. inversion V1 as [ | |? ? r Hr Ri |? ? Ro | | ]; subst; [|lra].
  apply (jump S x (tianqin_curve L) (huang_fit r x) (if Rlt_dec x (1/2) then -1 else 1)); auto.
  - destruct (Rlt_dec x (1/2)); auto.
  - apply cont_tianqin; auto; lra.
  - apply huang_pos.
  - exists 1e-5. split; [lra|]. intros y Hy. destruct (E y) as [u [U1 U2]]; [destruct (Rlt_dec x (1/2)); lra|].
    inversion U1 as [ | |? ? r' Hr' Ri' |? ? Ro' | | ]; subst; [|lra]. exfalso. destruct (Rlt_dec x (1/2)); lra.
Qed.

Lemma log10_pow10 k x : x = powerRZ 10 k -> log10 x = IZR k.
Proof.
  intros ->. unfold log10. assert (0 < ln 10) by (rewrite <- ln_1; apply ln_increasing; lra).
  assert (E : ln (powerRZ 10 k) = IZR k * ln 10). { rewrite powerRZ_Rpower by lra. unfold Rpower. now rewrite ln_exp. }
  rewrite E. field. lra.
Qed.
Lemma huang_bound y : y <= -19 -> Rpower 10 y ^ 2 <= 1e-38.
Proof.
  intros Hy. assert (A : Rpower 10 y <= 1e-19).
  { replace 1e-19 with (Rpower 10 (-19)) by (change (-19) with (IZR (-19)); rewrite <- powerRZ_Rpower by lra; cbn [powerRZ]; change (Pos.to_nat 19) with 19%nat; lra).
    unfold Rpower. destruct (Req_dec y (-19)) as [->|N]; [lra|]. apply Rlt_le, exp_increasing. apply Rmult_lt_compat_r; [rewrite <- ln_1; apply ln_increasing; lra|lra]. }
  pose proof (exp_pos (y * ln 10)) as P. fold (Rpower 10 y) in P. assert (Rpower 10 y * Rpower 10 y <= 1e-19 * 1e-19) by (apply Rmult_le_compat; lra).
  cbn [pow]. lra.
Qed.
Lemma huang_bound_high y : y <= -24 -> Rpower 10 y ^ 2 <= 1e-48.
Proof.
  intros Hy. assert (A : Rpower 10 y <= 1e-24).
  { replace 1e-24 with (Rpower 10 (-24)) by (change (-24) with (IZR (-24)); rewrite <- powerRZ_Rpower by lra; cbn [powerRZ]; change (Pos.to_nat 24) with 24%nat; lra).
    unfold Rpower. destruct (Req_dec y (-24)) as [->|N]; [lra|]. apply Rlt_le, exp_increasing. apply Rmult_lt_compat_r; [rewrite <- ln_1; apply ln_increasing; lra|lra]. }
  pose proof (exp_pos (y * ln 10)) as P. fold (Rpower 10 y) in P. assert (Rpower 10 y * Rpower 10 y <= 1e-24 * 1e-24) by (apply Rmult_le_compat; lra).
  cbn [pow]. lra.
Qed.
Lemma huang_at_low r : In r huang_table -> h_len r <> 1 -> huang_fit r 1e-4 <= 1e-38.
Proof.
  intros H N. unfold huang_fit. rewrite (log10_pow10 (-1)) by (cbn [powerRZ]; change (Pos.to_nat 1) with 1%nat; lra). cbv zeta. apply huang_bound.
  cbn in H. repeat (destruct H as [<- | H]; [cbn [h_len h_a0 h_a1 h_a2 h_a3 h_a4 h_a5 h_a6] in *; lra|]). destruct H.
Qed.
(** The row of a one-year mission. *)
Lemma huang_one_year r : In r huang_table -> h_len r = 1 -> 1e-20 <= Rpower 10 (-9.345) ^ 2 /\ huang_fit r 1e-4 = Rpower 10 (-9.345) ^ 2.
Proof.
  intros H N. split.
  - assert (A : 1e-10 <= Rpower 10 (-9.345)).
    { replace 1e-10 with (Rpower 10 (-10)) by (change (-10) with (IZR (-10)); rewrite <- powerRZ_Rpower by lra; cbn [powerRZ]; change (Pos.to_nat 10) with 10%nat; lra).
      apply Rle_Rpower; lra. }
    cbn [pow]. assert (1e-10 * 1e-10 <= Rpower 10 (-9.345) * Rpower 10 (-9.345)) by (apply Rmult_le_compat; lra). lra.
  - unfold huang_fit. rewrite (log10_pow10 (-1)) by (cbn [powerRZ]; change (Pos.to_nat 1) with 1%nat; lra). cbv zeta. f_equal. f_equal.
    cbn in H. repeat (destruct H as [<- | H]; [cbn [h_len h_a0 h_a1 h_a2 h_a3 h_a4 h_a5 h_a6] in *; lra|]). destruct H.
Qed.
Lemma one_year_row T r : nearest h_len huang_table T r -> (3/4 < T <= 3/2 <-> h_len r = 1).
Proof.
  intros [H K]. pose proof (K (Build_huang_row (1/2) (-18.6) (-1.22) 0.009 (-1.87) 0.65 3.6 (-4.6)) ltac:(cbn; auto)) as K1.
  pose proof (K (Build_huang_row 1 (-18.6) (-1.13) (-0.945) (-1.02) 4.05 (-4.5) (-0.5)) ltac:(cbn; auto)) as K2.
  pose proof (K (Build_huang_row 2 (-18.6) (-1.45) 0.315 (-1.19) (-4.48) 10.8 (-9.4)) ltac:(cbn; auto)) as K3.
  cbn [h_len] in K1, K2, K3. clear K. unfold Rabs in *. cbn in H.
  repeat (destruct H as [<- | H]; [cbn [h_len] in *; repeat destruct Rcase_abs; lra|]). destruct H.
Qed.
Lemma huang_at_high r : In r huang_table -> huang_fit r 1 <= 1e-48.
Proof.
  intros H. unfold huang_fit. rewrite (log10_pow10 3) by (cbn [powerRZ]; change (Pos.to_nat 3) with 3%nat; lra). cbv zeta. apply huang_bound_high.
  cbn in H. repeat (destruct H as [<- | H]; [cbn [h_a0 h_a1 h_a2 h_a3 h_a4 h_a5 h_a6]; lra|]); try destruct H.
Qed.
Lemma tianqin_floor L f : 0 < L <= sqrt 3 * 1e8 -> 0 < f -> 1e-16 * (4e-30 / (2 * PI * f) ^ 4 * (1 + 1e-4 / f) + 1e-24) <= tianqin_curve L f.
Proof.
  intros HL Hf. unfold tianqin_curve. cbv zeta. pose proof PI_RGT_0.
  set (A := 4 * 1e-30 / (2 * PI * f) ^ 4 * (1 + 1e-4 / f) + 1e-24).
  replace (4e-30 / (2 * PI * f) ^ 4 * (1 + 1e-4 / f) + 1e-24) with A by (unfold A; replace (4 * 1e-30) with 4e-30 by lra; reflexivity).
  assert (0 < 2 * PI * f) by nra. assert (0 < (2 * PI * f) ^ 4) by (now apply pow_lt). assert (0 < 1e-4 / f) by (apply Rdiv_lt_0_compat; lra).
  assert (HA : 0 < A). { unfold A. assert (0 < 4 * 1e-30 / (2 * PI * f) ^ 4) by (apply Rdiv_lt_0_compat; lra). nra. }
  set (x := f / (299792458 / (2 * PI * L))). pose proof (pow2_ge_0 x).
  assert (L2 : L ^ 2 <= 3e16).
  { replace 3e16 with ((sqrt 3 * 1e8) ^ 2). - apply pow_incr. lra. - rewrite Rpow_mult_distr. rewrite pow2_sqrt by lra. lra. }
  assert (0 < L ^ 2) by (apply pow_lt; lra).
  assert (B : 1e-16 <= 10 / (3 * L ^ 2)). { apply (Rmult_le_reg_r (3 * L ^ 2)); [lra|]. replace (10 / (3 * L ^ 2) * (3 * L ^ 2)) with 10 by (field; lra). lra. }
  rewrite <- (Rmult_1_r (1e-16 * A)). apply Rmult_le_compat; [apply Rlt_le, Rmult_lt_0_compat; lra|lra| |lra]. apply Rmult_le_compat_r; lra.
Qed.
Lemma jumps_small t L x v : 0 < t -> 0 < L <= sqrt 3 * 1e8 -> (x = 1e-4 /\ ~ (3/4 < t / year <= 3/2)) \/ x = 1 -> published_confusion (CName "huang20") t x v ->
  v <= 1e-5 * tianqin_curve L x.
Proof.
  intros Ht HL Hx Hv. inversion Hv as [ | |? ? r Hr Ri |? ? Ro | | ]; subst; [|lra].
  pose proof (tianqin_floor L x HL ltac:(lra)) as F. pose proof PI_RGT_0. pose proof PI_4.
  assert (0 < 2 * PI * x) by nra. assert (P4 : 0 < (2 * PI * x) ^ 4) by (now apply pow_lt).
  destruct Hx as [[-> Hy] | ->].
  - assert (N : h_len r <> 1) by (intros E; apply Hy; now apply (one_year_row _ r)).
    pose proof (huang_at_low r (proj1 Hr) N). assert (Q : (2 * PI * 1e-4) ^ 4 <= (8e-4) ^ 4) by (apply pow_incr; lra).
    assert (G : 9e-18 <= 4e-30 / (2 * PI * 1e-4) ^ 4).
    { set (z := (2 * PI * 1e-4) ^ 4) in *. clearbody z. apply (Rmult_le_reg_r z); auto. replace (4e-30 / z * z) with 4e-30 by (field; lra). lra. }
    assert (E : 1e-4 / 1e-4 = 1) by field. rewrite E in F. lra.
  - pose proof (huang_at_high r (proj1 Hr)). assert (D : 0 < 4e-30 / (2 * PI * 1) ^ 4) by (apply Rdiv_lt_0_compat; lra).
    assert (E : 1e-4 / 1 = 1e-4) by field. rewrite E in F. lra.
Qed.
Lemma one_year_jump t v : 3/4 < t / year <= 3/2 -> published_confusion (CName "huang20") t 1e-4 v -> 1e12 * tianqin_curve (sqrt 3 * 1e8) 1e-4 <= v.
Proof.
  intros Ht Hv. inversion Hv as [ | |? ? r Hr Ri |? ? Ro | | ]; subst; [|lra].
  apply (one_year_row _ r Hr) in Ht. destruct (huang_one_year r (proj1 Hr) Ht) as [A ->]. refine (Rle_trans _ _ _ _ A).
  assert (S3 : 0 < sqrt 3) by (apply sqrt_lt_R0; lra). assert (S4 : sqrt 3 <= 2) by (rewrite <- (sqrt_Rsqr 2) by lra; apply sqrt_le_1; unfold Rsqr; lra).
  assert (L2 : (sqrt 3 * 1e8) ^ 2 = 3e16) by (rewrite Rpow_mult_distr; rewrite pow2_sqrt by lra; lra).
  pose proof PI_RGT_0. pose proof PI_4. pose proof PI2_3_2 as P3. 
  unfold tianqin_curve. rewrite L2. cbv zeta. assert (E : 1e-4 / 1e-4 = 1) by field. rewrite E.
  assert (Q : (6e-4) ^ 4 <= (2 * PI * 1e-4) ^ 4) by (apply pow_incr; lra). 
  assert (G : 4 * 1e-30 / (2 * PI * 1e-4) ^ 4 <= 3.1e-17).
  { set (z := (2 * PI * 1e-4) ^ 4) in *. clearbody z. apply (Rmult_le_reg_r z); [lra|]. replace (4 * 1e-30 / z * z) with 4e-30 by (field; lra). lra. }
  assert (G0 : 0 < 4 * 1e-30 / (2 * PI * 1e-4) ^ 4) by (apply Rdiv_lt_0_compat; lra).
  set (x := 1e-4 / (299792458 / (2 * PI * (sqrt 3 * 1e8)))).
  assert (X : 0 <= x <= 0.01).
  { unfold x. replace (1e-4 / (299792458 / (2 * PI * (sqrt 3 * 1e8)))) with (1e-4 * (2 * PI * (sqrt 3 * 1e8)) / 299792458) by (field; lra).
    assert (0 < PI * sqrt 3 <= 8) by nra. split; [apply Rlt_le, Rdiv_lt_0_compat; nra|]. apply (Rmult_le_reg_r 299792458); [lra|]. replace (1e-4 * (2 * PI * (sqrt 3 * 1e8)) / 299792458 * 299792458) with (1e-4 * (2 * PI * (sqrt 3 * 1e8))) by field. nra. }
  assert (X2 : 0 <= x ^ 2 <= 0.01) by (cbn [pow]; nra).
  set (y := 4 * 1e-30 / (2 * PI * 1e-4) ^ 4) in *. clearbody x y.
  assert (M : (y * (1 + 1) + 1e-24) * (1 + 6 / 10 * x ^ 2) <= 6.3e-17 * 1.1) by (apply Rmult_le_compat; lra).
  rewrite Rmult_assoc. replace (10 / (3 * 3e16)) with (/ 9e15) by field. lra.
Qed.
Lemma reciprocal_continuous p lo hi : continuous_noise p lo hi -> exists q : R -> R, forall x, lo <= x <= hi -> inverse_noise p x (q x) /\ continuous q x.
Proof.
  intros [S HS]. exists (fun x => / S x). intros x Hx. destruct (HS x Hx) as [A [B C]]. split; [right; eauto|]. apply cont_inv; auto. lra.
Qed.
(** The default TianQin curve. *)
Lemma default_tianqin w cust ap t : 0 < t -> exists S : R -> R,
  (forall f, 0 < f -> power_spectral_density w [Fin f] "TianQin" cust (Given (Fin t)) Auto ap (CName "auto") = Ok [Fin (S f)]) /\
  (forall f, 0 < f -> exists v, published_confusion (CName "huang20") t f v /\ S f = tianqin_curve (sqrt 3 * 1e8) f + v) /\
  (forall x, x = 1e-4 \/ x = 1 -> ~ continuous S x).
Proof.
  intros Ht. assert (HL : 0 < sqrt 3 * 1e8) by (apply Rmult_lt_0_compat; [apply sqrt_lt_R0|]; lra).
  assert (Hc : builtin (CName "huang20") t) by (unfold builtin; auto).
  destruct (tianqin_map _ t _ Hc Ht HL) as [p [P1 P2]].
  assert (E : forall f, power_spectral_density w f "TianQin" cust (Given (Fin t)) Auto ap (CName "auto") = tianqin_psd f (Fin t) (Fin (sqrt 3 * 1e8)) (CName "huang20")).
  { intros f. apply psd_tianqin; [now left|right; auto|left; auto]. }
  exists (fun f => match p (Fin f) with Fin y => y | _ => 0 end).
  assert (A : forall f, 0 < f -> tianqin_psd [Fin f] (Fin t) (Fin (sqrt 3 * 1e8)) (CName "huang20") = Ok [Fin (match p (Fin f) with Fin y => y | _ => 0 end)]).
  { intros f Hf. rewrite P1. cbn [map]. destruct (P2 f Hf) as [v [_ [_ ->]]]. reflexivity. }
  split; [intros f Hf; rewrite E; now apply A|]. split.
  - intros f Hf. destruct (P2 f Hf) as [v [V [_ ->]]]. eauto.
  - intros x Hx. exact (tianqin_jumps t _ x _ Ht HL Hx A).
Qed.
Lemma default_tianqin_jumps w cust ap t : 0 < t -> exists S : R -> R,
  (forall f, 0 < f -> power_spectral_density w [Fin f] "TianQin" cust (Given (Fin t)) Auto ap (CName "auto") = Ok [Fin (S f)]) /\
  ~ continuous S 1e-4 /\ ~ continuous S 1.
Proof. intros Ht. destruct (default_tianqin w cust ap t Ht) as [S [A [_ C]]]. exists S. split; auto. Qed.
Lemma default_tianqin_one_year w cust ap t : 3/4 < t / year <= 3/2 -> exists S : R -> R,
  (forall f, 0 < f -> power_spectral_density w [Fin f] "TianQin" cust (Given (Fin t)) Auto ap (CName "auto") = Ok [Fin (S f)]) /\
  (forall f, 0 < f < 1e-4 -> S f = tianqin_curve (sqrt 3 * 1e8) f) /\ 1e12 * tianqin_curve (sqrt 3 * 1e8) 1e-4 <= S 1e-4.
Proof.
  intros Ht. assert (HY : 0 < year) by (unfold year; lra).
  assert (H0 : 0 < t). { replace t with (t / year * year) by (field; lra). apply Rmult_lt_0_compat; lra. }
  destruct (default_tianqin w cust ap t H0) as [S [A [B _]]]. exists S. split; auto. split.
  - intros f Hf. destruct (B f ltac:(lra)) as [v [V ->]]. inversion V; subst; lra.
  - destruct (B 1e-4 ltac:(lra)) as [v [V ->]]. pose proof (one_year_jump t v Ht V).
    pose proof (proj2 (tianqin_noise_fin (sqrt 3 * 1e8) 1e-4 ltac:(apply Rmult_lt_0_compat; [apply sqrt_lt_R0|]; lra) ltac:(lra))). lra.
Qed.
Lemma default_tianqin_small w cust ap t : 0 < t -> exists S : R -> R,
  (forall f, 0 < f -> power_spectral_density w [Fin f] "TianQin" cust (Given (Fin t)) Auto ap (CName "auto") = Ok [Fin (S f)]) /\
  (~ (3/4 < t / year <= 3/2) -> Rabs (S 1e-4 - tianqin_curve (sqrt 3 * 1e8) 1e-4) <= 1e-5 * tianqin_curve (sqrt 3 * 1e8) 1e-4) /\
  Rabs (S 1 - tianqin_curve (sqrt 3 * 1e8) 1) <= 1e-5 * tianqin_curve (sqrt 3 * 1e8) 1.
Proof.
  intros Ht. assert (HL : 0 < sqrt 3 * 1e8) by (apply Rmult_lt_0_compat; [apply sqrt_lt_R0|]; lra).
  destruct (default_tianqin w cust ap t Ht) as [S [A [B _]]]. exists S. split; auto. split; [intros N|].
  - destruct (B 1e-4 ltac:(lra)) as [v [V ->]]. pose proof (jumps_small t _ 1e-4 v Ht (conj HL (Rle_refl _)) ltac:(auto) V).
    assert (0 <= v) by (inversion V; subst; [apply Rlt_le, huang_pos|lra]). rewrite Rabs_pos_eq; lra.
  - destruct (B 1 ltac:(lra)) as [v [V ->]]. pose proof (jumps_small t _ 1 v Ht (conj HL (Rle_refl _)) ltac:(auto) V).
    assert (0 <= v) by (inversion V; subst; [apply Rlt_le, huang_pos|lra]). rewrite Rabs_pos_eq; lra.
Qed.
