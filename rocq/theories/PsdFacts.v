(** PsdFacts.v -- the noise curves of Psd.v evaluated on real frequencies. *)
From Coq Require Import String Reals ZArith List Bool Lra Lia.
From Verif Require Import Num NumFacts Np NpFacts ArgFacts Psd PsdSpec.
Import ListNotations.
Open Scope R_scope.

(** Positivity with decimal literals: try linear arithmetic before taking products apart. *)
Ltac posl :=
  repeat first
  [ assumption
  | apply Rpower_pos
  | apply exp_pos
  | apply PI_RGT_0
  | lra
  | apply Rmult_lt_0_compat
  | apply Rdiv_lt_0_compat
  | apply pow_lt
  | apply Rinv_0_lt_compat
  | apply Rplus_lt_0_compat ].
Ltac nzl := apply Rgt_not_eq; posl.

Lemma year_yr : year = yr.
Proof. Transparent yr. unfold year, yr. lra. Opaque yr. Qed.
Lemma light : 299792458 = clight.
Proof. Transparent clight. reflexivity. Opaque clight. Qed.

(** ** Nearest mission length *)
Lemma nearest_index {A} (len : A -> R) (table : list A) lengths t k :
  table <> [] -> lengths = map (fun r => Fin (len r * yr)) table ->
  (forall i j r s, (i < j)%nat -> nth_error table i = Some r -> nth_error table j = Some s -> len r < len s) ->
  nearest_length (Fin t) lengths = k ->
  exists row, nth_error table k = Some row /\ nearest len table (t / year) row.
Proof.
  intros Hne -> Hs Hk. unfold nearest_length in Hk. rewrite map_map in Hk.
  replace (map (fun x => nabs (nsub (Fin t) (Fin (len x * yr)))) table)
    with (map Fin (map (fun x => Rabs (t - len x * yr)) table)) in Hk by now rewrite map_map.
  set (ds := map (fun x => Rabs (t - len x * yr)) table) in Hk.
  destruct (argmin_spec ds) as [v [Hv Hmin]].
  { destruct table; [congruence|discriminate]. }
  rewrite Hk in Hv, Hmin. unfold ds in Hv. rewrite nth_error_map in Hv.
  destruct (nth_error table k) as [row|] eqn:E; [|discriminate]. exists row. split; auto.
  inversion Hv as [Hv']. clear Hv. split; [eapply nth_error_In; eauto|].
  intros r Hr. apply In_nth_error in Hr. destruct Hr as [j Hj].
  destruct (Hmin j (Rabs (t - len r * yr))) as [A1 A2]. { unfold ds. now rewrite nth_error_map, Hj. }
  assert (K : forall l, Rabs (t / year - l) = Rabs (t - l * yr) / yr).
  { intros l. rewrite year_yr. pose proof yr_pos. replace (t / yr - l) with ((t - l * yr) * / yr) by (field; lra).
    rewrite Rabs_mult. rewrite (Rabs_right (/ yr)); [reflexivity|]. left. now apply Rinv_0_lt_compat. }
  rewrite !K. pose proof yr_pos as Y.
  destruct A1 as [A1|A1].
  - left. rewrite <- Hv' in A1. apply Rmult_lt_compat_r; [now apply Rinv_0_lt_compat|auto].
  - right. rewrite Hv', A1. split; auto. destruct (Nat.lt_trichotomy j k) as [L|[-> |L]].
    + specialize (A2 L). lra.
    + rewrite E in Hj. inversion Hj. lra.
    + left. eauto.
Qed.
Lemma nearest_unique {A} (len : A -> R) (table : list A) T r s :
  (forall r s, In r table -> In s table -> len r = len s -> r = s) ->
  nearest len table T r -> nearest len table T s -> r = s.
Proof.
  intros U [Ir Hr] [Is Hs]. apply U; auto. destruct (Hr s Is) as [H|[H1 H2]], (Hs r Ir) as [K|[K1 K2]]; lra.
Qed.

Ltac table_cases := repeat match goal with
  | H : nth_error _ ?i = Some _ |- _ => is_var i; destruct i; cbn in H; try discriminate H
  | H : Some _ = Some _ |- _ => inversion H; clear H; subst
  end.
Lemma robson_sorted i j r s : (i < j)%nat -> nth_error robson_table i = Some r -> nth_error robson_table j = Some s -> r_len r < r_len s.
Proof.
  intros L H K. do 4 (destruct j as [|j]; [do 4 (destruct i as [|i]; [cbn in H, K; inversion H; inversion K; subst; cbn; try lra; lia|]); lia|]).
  destruct j; discriminate.
Qed.
Lemma huang_sorted i j r s : (i < j)%nat -> nth_error huang_table i = Some r -> nth_error huang_table j = Some s -> h_len r < h_len s.
Proof.
  intros L H K. do 5 (destruct j as [|j]; [do 5 (destruct i as [|i]; [cbn in H, K; inversion H; inversion K; subst; cbn; try lra; lia|]); lia|]).
  destruct j; discriminate.
Qed.
Lemma table_unique {A} (len : A -> R) table :
  (forall i j r s, (i < j)%nat -> nth_error table i = Some r -> nth_error table j = Some s -> len r < len s) ->
  forall r s, In r table -> In s table -> len r = len s -> r = s.
Proof.
  intros S r s Hr Hs E. apply In_nth_error in Hr. apply In_nth_error in Hs. destruct Hr as [i Hi], Hs as [j Hj].
  destruct (Nat.lt_trichotomy i j) as [L|[-> |L]].
  - specialize (S _ _ _ _ L Hi Hj). lra.
  - congruence.
  - specialize (S _ _ _ _ L Hj Hi). lra.
Qed.
Lemma robson_lengths_eq : robson_lengths = map (fun r => Fin (r_len r * yr)) robson_table.
Proof. unfold robson_lengths, robson_table. cbn [map r_len]. repeat f_equal; lra. Qed.
Lemma huang_lengths_eq : huang_lengths = map (fun r => Fin (h_len r * yr)) huang_table.
Proof. unfold huang_lengths, huang_table. cbn [map h_len]. repeat f_equal; lra. Qed.

(** ** The fits *)
Lemma tanh_gt x : -1 < tanh x.
Proof.
  unfold tanh, sinh, cosh. pose proof (exp_pos x). pose proof (exp_pos (-x)).
  apply (Rmult_lt_reg_r ((exp x + exp (- x)) / 2)); [lra|]. 
  replace ((exp x - exp (- x)) / 2 / ((exp x + exp (- x)) / 2) * ((exp x + exp (- x)) / 2)) with ((exp x - exp (- x)) / 2) by (field; lra). lra.
Qed.
Lemma robson_fin t f : 0 < f -> exists r, nearest r_len robson_table (t / year) r /\
  robson19_elem (Fin t) (Fin f) = Fin (robson_fit r f).
Proof.
  intros Hf. destruct (nearest_index r_len robson_table robson_lengths t _ ltac:(discriminate) robson_lengths_eq robson_sorted eq_refl) as [r [Hr N]].
  exists r. split; auto. unfold robson19_elem, robson19_at. cbv zeta. set (k := nearest_length _ _) in *. clearbody k.
  assert (P : nth k robson_alpha 0 = r_alpha r /\ nth k robson_beta 0 = r_beta r /\ nth k robson_kappa 0 = r_kappa r /\
              nth k robson_gamma 0 = r_gamma r /\ nth k robson_fk 0 = r_fk r).
  { do 4 (destruct k as [|k]; [cbn in Hr; inversion Hr; cbn; repeat split; lra|]). destruct k; discriminate. }
  destruct P as [-> [-> [-> [-> ->]]]]. rewrite !npowr_fin by auto. reflexivity.
Qed.
Lemma robson_pos r f : 0 < f -> 0 < robson_fit r f.
Proof. intros Hf. unfold robson_fit. pose proof (tanh_gt (r_gamma r * (r_fk r - f))). posl. Qed.

Lemma nlog10_fin x : 0 < x -> nlog10 (Fin x) = Fin (log10 x).
Proof. intros H. cbn. apply Rltb_true in H. now rewrite H. Qed.
Lemma huang_fin t f : 0 < f -> exists r, nearest h_len huang_table (t / year) r /\
  (1e-4 <= f <= 1 -> huang20_elem (Fin t) (Fin f) = Fin (huang_fit r f)) /\
  (~ (1e-4 <= f <= 1) -> huang20_elem (Fin t) (Fin f) = Fin 0).
Proof.
  intros Hf. destruct (nearest_index h_len huang_table huang_lengths t _ ltac:(discriminate) huang_lengths_eq huang_sorted eq_refl) as [r [Hr N]].
  exists r. split; auto. unfold huang20_elem, huang20_root. cbv zeta. set (k := nearest_length _ _) in *. clearbody k.
  rewrite ndiv_fin by lra. rewrite nlog10_fin by (apply Rdiv_lt_0_compat; lra). set (x := log10 (f / 1e-3)).
  assert (E : huang_sum k (Fin x) 0 huang_coefficients (Fin 0) =
    Fin (h_a0 r + h_a1 r * x + h_a2 r * x ^ 2 + h_a3 r * x ^ 3 + h_a4 r * x ^ 4 + h_a5 r * x ^ 5 + h_a6 r * x ^ 6)).
  { unfold huang_coefficients. cbn [huang_sum].
    do 5 (destruct k as [|k]; [cbn [nth_error huang_table] in Hr; inversion Hr; subst r; cbn [nth h_a0 h_a1 h_a2 h_a3 h_a4 h_a5 h_a6];
      cbn [Z.add Pos.add Pos.succ Pos.add_carry npowi Z.leb Z.compare Pos.compare Pos.compare_cont Z.to_nat Pos.to_nat Pos.iter_op Init.Nat.add nmul nadd]; change (Pos.to_nat 1) with 1%nat; change (Pos.to_nat 2) with 2%nat; change (Pos.to_nat 3) with 3%nat;
      change (Pos.to_nat 4) with 4%nat; change (Pos.to_nat 5) with 5%nat; change (Pos.to_nat 6) with 6%nat; f_equal; ring|]).
    destruct k; discriminate. }
  rewrite E. cbn [n10pow]. split; intros B.
  - rewrite nlt_f by lra. unfold ngt. rewrite nlt_f by lra. reflexivity.
  - destruct (Rlt_le_dec f 1e-4).
    + rewrite nlt_t by auto. cbn [orb]. rewrite npowi2. f_equal. ring.
    + rewrite (nlt_f f 1e-4) by auto. unfold ngt. rewrite nlt_t by lra. cbn [orb]. rewrite npowi2. f_equal. ring.
Qed.
Lemma huang_pos r f : 0 < huang_fit r f.
Proof. unfold huang_fit. posl. Qed.

Lemma thiele_fin f : 0 < f -> thiele21_elem (Fin f) = Fin (thiele_fit f).
Proof.
  intros Hf. unfold thiele21_elem. rewrite nlog10_fin by auto. unfold thiele_coefficients, horner.
  cbn -[Rpower]. unfold thiele_fit. rewrite year_yr. do 2 f_equal. f_equal. lra.
Qed.
Lemma thiele_pos f : 0 < thiele_fit f.
Proof. unfold thiele_fit. rewrite year_yr. pose proof yr_pos. posl. Qed.

Lemma Rpower_10_log T a b : 0 < T -> Rpower T a * Rpower 10 b = Rpower 10 (a * log10 T + b).
Proof.
  intros HT. rewrite Rpower_plus. f_equal. unfold Rpower, log10. f_equal.
  assert (0 < ln 10) by (rewrite <- ln_1; apply ln_increasing; lra). field. lra.
Qed.
Lemma karnesis_fin t f : 0 < t -> 0 < f -> karnesis21_elem (Fin t) (Fin f) = Fin (karnesis_fit (t / year) f).
Proof.
  intros Ht Hf. pose proof yr_pos as Y. unfold karnesis21_elem, karnesis21_at. cbv zeta. rewrite (ndiv_fin t yr) by lra.
  assert (0 < t / yr) by posl.
  rewrite !(npowr_fin (t / yr)) by auto. cbn [n10pow]. rewrite !nmul_fin, !Rpower_10_log by auto.
  rewrite !nsub_fin. rewrite (ndiv_fin 1.15e-44 2) by lra. rewrite (ndiv_fin f) by auto. rewrite ndiv_fin by lra.
  rewrite npowr_fin by auto. rewrite npowr_fin by (apply Rdiv_lt_0_compat; auto). cbn [nneg nexp ntanh].
  rewrite nadd_fin, !nmul_fin. unfold karnesis_fit. rewrite year_yr.
  replace (-0.15 * log10 (t / yr) - 2.72) with (-0.15 * log10 (t / yr) + -2.72) by lra.
  replace (-0.37 * log10 (t / yr) - 2.49) with (-0.37 * log10 (t / yr) + -2.49) by lra. reflexivity.
Qed.
Lemma karnesis_pos T f : 0 < karnesis_fit T f.
Proof.
  unfold karnesis_fit. cbv zeta. match goal with |- context [tanh ?x] => pose proof (tanh_gt x) end. posl.
Qed.

(** ** Confusion noise, whole arrays *)
Lemma published_unique c t f v w : published_confusion c t f v -> published_confusion c t f w -> v = w.
Proof.
  intros H K. inversion H; subst; inversion K; subst; auto; try tauto.
  - f_equal. eapply nearest_unique; eauto. apply table_unique, robson_sorted.
  - f_equal. eapply nearest_unique; eauto. apply table_unique, huang_sorted.
Qed.
Lemma confusion_map c t : builtin c t -> 0 < t ->
  exists g : num -> num, (forall arg fs, confusion_of arg fs (Fin t) c = Ok (map g fs)) /\
    forall f, 0 < f -> exists v, g (Fin f) = Fin v /\ 0 <= v /\ published_confusion c t f v.
Proof.
  intros [-> |[-> |[-> |[[-> Ht]| ->]]]] Hp.
  - exists (fun _ => Fin 0). split; [reflexivity|]. intros f Hf. exists 0. repeat split; try lra. constructor.
  - exists (robson19_elem (Fin t)). split; [reflexivity|]. intros f Hf. destruct (robson_fin t f Hf) as [r [N E]].
    exists (robson_fit r f). split; auto. split; [left; now apply robson_pos|now constructor].
  - exists (huang20_elem (Fin t)). split; [reflexivity|]. intros f Hf. destruct (huang_fin t f Hf) as [r [N [E1 E2]]].
    destruct (Rle_lt_dec 1e-4 f) as [A|A]; [destruct (Rle_lt_dec f 1) as [B|B]|].
    + exists (huang_fit r f). split; [apply E1; lra|]. split; [left; apply huang_pos|]. constructor; auto; lra.
    + exists 0. split; [apply E2; lra|]. split; [lra|]. apply pub_huang_out. lra.
    + exists 0. split; [apply E2; lra|]. split; [lra|]. apply pub_huang_out. lra.
  - exists thiele21_elem. split.
    + intros arg fs. cbn. rewrite Ht, year_yr. rewrite (proj2 (Reqb_true (4 * yr) (4 * yr))) by reflexivity. reflexivity.
    + intros f Hf. exists (thiele_fit f). split; [now apply thiele_fin|]. split; [left; apply thiele_pos|]. rewrite Ht. constructor.
  - exists (karnesis21_elem (Fin t)). split; [reflexivity|]. intros f Hf. exists (karnesis_fit (t / year) f).
    split; [now apply karnesis_fin|]. split; [left; apply karnesis_pos|constructor].
Qed.

(** ** Bands *)
Lemma in_band_fin lo hi f : in_band (Fin lo) (Fin hi) (Fin f) = true <-> lo <= f <= hi.
Proof. unfold in_band, nge. rewrite andb_true_iff, !nle_fin. tauto. Qed.
Lemma in_band_outside lo hi x : in_band (Fin lo) (Fin hi) x = false <-> outside lo hi x.
Proof.
  unfold outside. split.
  - intros H f -> B. apply in_band_fin in B. congruence.
  - intros H. destruct x as [f| | |]; auto. destruct (in_band (Fin lo) (Fin hi) (Fin f)) eqn:E; auto.
    apply in_band_fin in E. now apply H in E.
Qed.
Lemma outside_dec lo hi x : outside lo hi x \/ exists f, x = Fin f /\ lo <= f <= hi.
Proof.
  destruct (in_band (Fin lo) (Fin hi) x) eqn:E.
  - right. destruct x as [f| | |]; try discriminate E. exists f. split; auto. now apply in_band_fin.
  - left. now apply in_band_outside.
Qed.

(** ** LISA *)
Lemma fstar_fin L : 0 < L -> ndiv (Fin clight) (nmul (nmul (Fin 2) (Fin PI)) (Fin L)) = Fin (299792458 / (2 * PI * L)).
Proof. intros HL. pose proof PI_RGT_0. rewrite !nmul_fin, ndiv_fin, light by nzl. reflexivity. Qed.
Lemma robson_response_fin L f : 0 < L ->
  approximate_response (Fin (299792458 / (2 * PI * L))) (Fin f) = Fin (robson_response L f) /\ 0 < robson_response L f.
Proof.
  intros HL. pose proof PI_RGT_0. assert (0 < 299792458 / (2 * PI * L)) by posl. set (fs := 299792458 / (2 * PI * L)) in *.
  unfold approximate_response, robson_response. fold fs. rewrite ndiv_fin by lra. rewrite npowi2, nmul_fin, nadd_fin.
  assert (0 <= (f / fs) ^ 2) by (apply pow2_ge_0). rewrite ndiv_fin by lra. split; [|apply Rdiv_lt_0_compat; lra].
  reflexivity.
Qed.
Lemma lisa_noise_fin L r f : 0 < L -> 0 < r -> 0 < f ->
  lisa_noise (Fin L) (Fin (299792458 / (2 * PI * L))) (Fin f) (Fin r) = Fin (lisa_curve L r f) /\ 0 < lisa_curve L r f.
Proof.
  intros HL Hr Hf. pose proof PI_RGT_0. assert (0 < 299792458 / (2 * PI * L)) by posl.
  unfold lisa_curve. set (fs := 299792458 / (2 * PI * L)) in *. cbv zeta.
  set (P := 1.5e-11 ^ 2 * (1 + (2e-3 / f) ^ 4)). set (Q := 3e-15 ^ 2 * (1 + (4e-4 / f) ^ 2) * (1 + (f / 8e-3) ^ 4)).
  assert (HP : 0 < P). { unfold P. assert (0 < 2e-3 / f) by posl. assert (0 < (2e-3 / f) ^ 4) by posl. posl. }
  assert (HQ : 0 < Q). { unfold Q. assert (0 < 4e-4 / f) by posl. assert (0 < (4e-4 / f) ^ 2) by posl.
    assert (0 < f / 8e-3) by posl. assert (0 < (f / 8e-3) ^ 4) by posl. posl. }
  assert (E1 : lisa_oms (Fin f) = Fin P).
  { unfold lisa_oms. rewrite ndiv_fin by lra. rewrite npowi4, npowi2, nadd_fin, nmul_fin. reflexivity. }
  assert (E2 : lisa_acc (Fin f) = Fin Q).
  { unfold lisa_acc. rewrite !ndiv_fin by lra. rewrite !npowi4, !npowi2, !nadd_fin, !nmul_fin. f_equal. unfold Q.
    replace 0.4e-3 with 4e-4 by lra. reflexivity. }
  unfold lisa_noise. rewrite E1, E2. rewrite (ndiv_fin f) by lra. cbn [ncos].
  rewrite !npowi2, !nadd_fin, !nmul_fin. rewrite npowi4. rewrite (ndiv_fin 1) by nzl. rewrite ndiv_fin by nzl. rewrite nadd_fin, nmul_fin.
  rewrite ndiv_fin by lra. pose proof (pow2_ge_0 (cos (f / fs))) as C. assert (0 < (2 * PI * f) ^ 4) by posl.
  assert (0 < 2 * (1 + cos (f / fs) ^ 2) * Q / (2 * PI * f) ^ 4). { apply Rdiv_lt_0_compat; auto. apply Rmult_lt_0_compat; auto. lra. }
  split.
  - f_equal. field. repeat split; try lra. 
  - apply Rdiv_lt_0_compat; [lra|posl].
Qed.

Lemma load_fails w f fs e : load_response_function w f fs = Err e -> r_file w = None.
Proof. unfold load_response_function, np_load_R. destruct (r_file w) as [[a b]|]; auto. discriminate. Qed.
Lemma load_map w fs : r_file w <> None -> exists R, forall f, load_response_function w f fs = Ok (map R f).
Proof.
  intros H. unfold load_response_function, np_load_R. destruct (r_file w) as [[a b]|]; [|congruence]. eexists. intros f. reflexivity.
Qed.

Lemma lisa_map w c t L ap : builtin c t -> 0 < t -> 0 < L -> response_ok w L ap ->
  exists p : num -> num,
    (forall fs, lisa_psd w fs (Fin t) (Fin L) ap c = Ok (map p fs)) /\
    (forall x, outside 1e-7 2 x -> p x = PInf) /\
    (forall f, 1e-7 <= f <= 2 -> exists v r, published_confusion c t f v /\ 0 <= v /\ response w L ap f r /\ 0 < r /\
       p (Fin f) = Fin (lisa_curve L r f + v)).
Proof.
  intros Hc Ht HL HR. destruct (confusion_map c t Hc Ht) as [g [Eg Hg]].
  set (fs := 299792458 / (2 * PI * L)).
  assert (HRm : exists R : num -> num, (forall f, (if ap then Ok (approximate_response_function f (Fin fs)) else load_response_function w f (Fin fs)) = Ok (map R f)) /\
     forall f, 1e-7 <= f <= 2 -> exists r, R (Fin f) = Fin r /\ response w L ap f r /\ 0 < r).
  { destruct ap.
    - exists (approximate_response (Fin fs)). split; [reflexivity|]. intros f Hf. exists (robson_response L f).
      destruct (robson_response_fin L f HL) as [A B]. split; auto. split; [reflexivity|auto].
    - destruct HR as [HR|HR]; [discriminate|].
      assert (N : r_file w <> None).
      { destruct (HR 1 ltac:(lra)) as [r [A _]]. unfold response, load_response_function, np_load_R in A. destruct (r_file w); congruence. }
      destruct (load_map w (Fin fs) N) as [R ER]. exists R. split; auto. intros f Hf. destruct (HR f Hf) as [r [A B]].
      exists r. split; auto. cbn [response] in A. fold fs in A. rewrite ER in A. cbn in A. congruence. }
  destruct HRm as [R [ER HR']].
  set (cut := fun x => band (Fin 1e-7) (Fin 2) x x (Fin 1e-8)).
  exists (fun x => band (Fin 1e-7) (Fin 2) (cut x) (nadd (lisa_noise (Fin L) (Fin fs) (cut x) (R (cut x))) (g (cut x))) PInf).
  split; [|split].
  - intros l. unfold lisa_psd. cbv zeta. fold cut. rewrite fstar_fin by auto. fold fs. rewrite ER. cbn [rbind].
    rewrite Eg. cbn [rbind]. rewrite !map_map. rewrite bzip_map. cbn [rbind]. rewrite bzip_map. cbn [rbind]. rewrite bzip_map. reflexivity.
  - intros x Hx. apply in_band_outside in Hx. unfold cut, band. rewrite Hx.
    rewrite (proj2 (in_band_outside 1e-7 2 (Fin 1e-8))); auto. intros f E. inversion E. lra.
  - intros f Hf. pose proof (proj2 (in_band_fin 1e-7 2 f) Hf) as B. assert (C : cut (Fin f) = Fin f) by (unfold cut, band; now rewrite B).
    rewrite C. unfold band. rewrite B. destruct (HR' f Hf) as [r [E1 [E2 E3]]]. destruct (Hg f ltac:(lra)) as [v [E4 [E5 E6]]].
    exists v, r. repeat split; auto. rewrite E1, E4. destruct (lisa_noise_fin L r f HL E3 ltac:(lra)) as [Q _]. fold fs in Q. rewrite Q. reflexivity.
Qed.

(** ** TianQin *)
Lemma tianqin_noise_fin L f : 0 < L -> 0 < f -> tianqin_noise (Fin L) (Fin f) = Fin (tianqin_curve L f) /\ 0 < tianqin_curve L f.
Proof.
  intros HL Hf. pose proof PI_RGT_0. assert (0 < 299792458 / (2 * PI * L)) by posl.
  unfold tianqin_noise, tianqin_curve. rewrite fstar_fin by auto. set (fs := 299792458 / (2 * PI * L)) in *. cbv zeta.
  assert (0 < 2 * PI * f) by posl. assert (0 < (2 * PI * f) ^ 4) by posl. assert (0 < L ^ 2) by posl.
  rewrite (ndiv_fin f), (ndiv_fin 1e-4) by lra. rewrite !npowi2. rewrite !nmul_fin, npowi4. rewrite !ndiv_fin by lra.
  rewrite !nadd_fin, !nmul_fin, !nadd_fin, !nmul_fin. 
  assert (0 <= (f / fs) ^ 2) by apply pow2_ge_0. assert (0 < 1e-4 / f) by posl.
  assert (0 < 4 * 1e-30 / (2 * PI * f) ^ 4 * (1 + 1e-4 / f)) by (apply Rmult_lt_0_compat; [posl|lra]).
  split.
  - reflexivity.
  - apply Rmult_lt_0_compat; [apply Rmult_lt_0_compat; [posl|lra]|lra].
Qed.
Lemma in_place_map {X A} (g : X -> A) xs : in_place (length xs) (Ok (map g xs)) = Ok (map g xs).
Proof. unfold in_place. cbn [rbind]. now rewrite map_length, Nat.eqb_refl. Qed.
Lemma tianqin_map c t L : builtin c t -> 0 < t -> 0 < L ->
  exists p : num -> num,
    (forall fs, tianqin_psd fs (Fin t) (Fin L) c = Ok (map p fs)) /\
    (forall f, 0 < f -> exists v, published_confusion c t f v /\ 0 <= v /\ p (Fin f) = Fin (tianqin_curve L f + v)).
Proof.
  intros Hc Ht HL. destruct (confusion_map c t Hc Ht) as [g [Eg Hg]].
  exists (fun x => nadd (tianqin_noise (Fin L) x) (g x)). split.
  - intros fs. unfold tianqin_psd. rewrite Eg. cbn [rbind]. rewrite bzip_map. apply in_place_map.
  - intros f Hf. destruct (Hg f Hf) as [v [E [A B]]]. exists v. repeat split; auto. rewrite E.
    destruct (tianqin_noise_fin L f HL Hf) as [-> _]. reflexivity.
Qed.

(** ** DECIGO *)
Lemma decigo_noise_fin f : 0 < f -> decigo_noise (Fin f) = Fin (decigo_curve f) /\ 0 < decigo_curve f.
Proof.
  intros Hf. unfold decigo_noise, decigo_curve. cbv zeta. rewrite !ndiv_fin by lra. rewrite !npowi2, !nadd_fin.
  assert (0 <= (f / 7.36) ^ 2) by apply pow2_ge_0. set (x2 := (f / 7.36) ^ 2) in *.
  rewrite (npowi_neg_fin f (-4)) by (try lia; lra). rewrite (npowi_neg_fin (1 + x2) (-1)) by (try lia; lra).
  change (Z.to_nat (- -4)) with 4%nat. change (Z.to_nat (- -1)) with 1%nat. rewrite !nmul_fin, !nadd_fin.
  assert (0 < f ^ 4) by posl. assert (0 < f ^ 4 * (1 + x2)) by (apply Rmult_lt_0_compat; lra). split.
  - f_equal. field. lra.
  - assert (0 < 4.8e-51 / (f ^ 4 * (1 + x2))) by posl. assert (0 < 5.33e-52 / f ^ 4) by posl. lra.
Qed.
Lemma decigo_map c t lo hi : builtin c t -> 0 < t -> 1e-8 < lo ->
  exists p : num -> num,
    (forall fs, decigo_psd fs (Fin t) c (Fin lo) (Fin hi) = Ok (map p fs)) /\
    (forall x, outside lo hi x -> p x = PInf) /\
    (forall f, lo <= f <= hi -> exists v, published_confusion c t f v /\ 0 <= v /\ p (Fin f) = Fin (decigo_curve f + v)).
Proof.
  intros Hc Ht Hlo. destruct (confusion_map c t Hc Ht) as [g [Eg Hg]].
  set (cut := fun x => band (Fin lo) (Fin hi) x x (Fin 1e-8)).
  exists (fun x => band (Fin lo) (Fin hi) (cut x) (nadd (decigo_noise (cut x)) (g (cut x))) PInf).
  split; [|split].
  - intros l. unfold decigo_psd. cbv zeta. fold cut. rewrite Eg. cbn [rbind].
    rewrite !map_map. rewrite bzip_map. cbn [rbind]. rewrite bzip_map. reflexivity.
  - intros x Hx. apply in_band_outside in Hx. unfold cut, band. rewrite Hx.
    rewrite (proj2 (in_band_outside lo hi (Fin 1e-8))); auto. intros f E. inversion E. lra.
  - intros f Hf. pose proof (proj2 (in_band_fin lo hi f) Hf) as B. assert (C : cut (Fin f) = Fin f) by (unfold cut, band; now rewrite B).
    rewrite C. unfold band. rewrite B. destruct (Hg f ltac:(lra)) as [v [E4 [E5 E6]]].
    exists v. repeat split; auto. rewrite E4. destruct (decigo_noise_fin f ltac:(lra)) as [-> _]. reflexivity.
Qed.
(** With a lower limit of at most 1e-8 Hz the placeholder frequency is itself in band. *)
Lemma decigo_tiny_low c t lo hi x : builtin c t -> 0 < t -> 0 < lo <= 1e-8 -> 1e-8 <= hi -> outside lo hi x ->
  exists v, decigo_psd [x] (Fin t) c (Fin lo) (Fin hi) = Ok [Fin v].
Proof.
  intros Hc Ht Hlo Hhi Hx. destruct (confusion_map c t Hc Ht) as [g [Eg Hg]]. apply in_band_outside in Hx.
  assert (C : band (Fin lo) (Fin hi) x x (Fin 1e-8) = Fin 1e-8) by (unfold band; now rewrite Hx).
  unfold decigo_psd. cbv zeta. cbn [map]. rewrite C. rewrite Eg. cbn [rbind map].
  destruct (Hg 1e-8 ltac:(lra)) as [v [E _]]. rewrite E. destruct (decigo_noise_fin 1e-8 ltac:(lra)) as [Q _]. rewrite Q.
  unfold bzip at 1, bzipM. cbn [length Nat.eqb map2M rbind]. rewrite nadd_fin. unfold bzip, bzipM. cbn [length Nat.eqb map2M rbind].
  unfold band. rewrite (proj2 (in_band_fin lo hi 1e-8)) by lra. eexists. reflexivity.
Qed.
