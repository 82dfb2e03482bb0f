(** OrbitFacts.v -- averaging the response of a LISA-like interferometer over its orbit. *)
From Coq Require Import Reals ZArith List Bool Lra Lia.
From Coquelicot Require Import Coquelicot.
From Verif Require Import Num NumFacts Np Utils Strain DetectorFacts OrbitSpec.
Import ListNotations.
Open Scope R_scope.

(** ** Averages of sums of cosines *)
Definition is_avg (f : R -> R) (v : R) : Prop := is_RInt (V:=R_NormedModule) f 0 (2 * PI) (2 * PI * v).
Lemma is_avg_ext f g v : (forall x, f x = g x) -> is_avg f v -> is_avg g v.
Proof. intros H. unfold is_avg. apply is_RInt_ext. intros x _. apply H. Qed.
Lemma is_avg_plus f g u v : is_avg f u -> is_avg g v -> is_avg (fun x => f x + g x) (u + v).
Proof.
  intros H1 H2. unfold is_avg in *. replace (2 * PI * (u + v)) with (plus (2 * PI * u) (2 * PI * v)) by (unfold plus; simpl; ring).
  now apply (is_RInt_plus (V:=R_NormedModule)).
Qed.
Lemma is_avg_scal c f u : is_avg f u -> is_avg (fun x => c * f x) (c * u).
Proof.
  intros H. unfold is_avg in *. replace (2 * PI * (c * u)) with (scal c (2 * PI * u)) by (unfold scal; simpl; unfold mult; simpl; ring).
  now apply (is_RInt_scal (V:=R_NormedModule)).
Qed.
Lemma avg3 a b c f g h u v w : is_avg f u -> is_avg g v -> is_avg h w ->
  is_avg (fun x => a * f x + b * g x + c * h x) (a * u + b * v + c * w).
Proof.
  intros H1 H2 H3. apply (is_avg_plus (fun x => a * f x + b * g x) (fun x => c * h x)); [|now apply is_avg_scal].
  apply (is_avg_plus (fun x => a * f x) (fun x => b * g x)); now apply is_avg_scal.
Qed.
Lemma is_avg_0 : is_avg (fun _ => 0) 0.
Proof.
  unfold is_avg. replace (2 * PI * 0) with (scal (2 * PI - 0) (0 : R)) by (unfold scal; simpl; unfold mult; simpl; ring).
  apply (is_RInt_const (V:=R_NormedModule)).
Qed.
Lemma cos_period_Z x (k : Z) : cos (x + 2 * PI * IZR k) = cos x /\ sin (x + 2 * PI * IZR k) = sin x.
Proof.
  destruct (Z_le_gt_dec 0 k) as [H|H].
  - rewrite <- (Z2Nat.id k H), <- INR_IZR_INZ. replace (x + 2 * PI * INR (Z.to_nat k)) with (x + 2 * INR (Z.to_nat k) * PI) by ring.
    split; [apply cos_period|apply sin_period].
  - set (n := Z.to_nat (- k)). assert (E : IZR k = - INR n) by (unfold n; rewrite INR_IZR_INZ, Z2Nat.id, opp_IZR by lia; ring).
    rewrite E. rewrite <- (cos_period (x + 2 * PI * - INR n) n), <- (sin_period (x + 2 * PI * - INR n) n).
    split; f_equal; ring.
Qed.
Definition zdelta (k : Z) : R := if (k =? 0)%Z then 1 else 0.
Lemma avg_cos k w : is_avg (fun x => cos (IZR k * x + w)) (zdelta k * cos w).
Proof.
  unfold zdelta. destruct (Z.eqb_spec k 0) as [->|N].
  - apply (is_avg_ext (fun _ => cos w)); [intros x; f_equal; ring|]. unfold is_avg.
    replace (2 * PI * (1 * cos w)) with (scal (2 * PI - 0) (cos w)) by (unfold scal; simpl; unfold mult; simpl; ring).
    apply (is_RInt_const (V:=R_NormedModule)).
  - assert (K : IZR k <> 0) by now apply not_0_IZR. unfold is_avg.
    replace (2 * PI * (0 * cos w)) with (minus (/ IZR k * sin (IZR k * (2 * PI) + w)) (/ IZR k * sin (IZR k * 0 + w))).
    2: { replace (IZR k * (2 * PI) + w) with (w + 2 * PI * IZR k) by ring. rewrite (proj2 (cos_period_Z w k)).
         replace (IZR k * 0 + w) with w by ring. unfold minus, plus, opp; simpl. ring. }
    apply (is_RInt_derive (V:=R_CompleteNormedModule) (fun x => / IZR k * sin (IZR k * x + w))).
    + intros x _. auto_derive; auto. field. auto.
    + intros x _. apply (ex_derive_continuous (fun x => cos (IZR k * x + w))). auto_derive. auto.
Qed.
(** harmonics: amplitude, order, phase *)
Definition term := (R * Z * R)%type.
Definition tval (t : term) (x : R) : R := let '(A, k, w) := t in A * cos (IZR k * x + w).
Fixpoint hs (l : list term) (x : R) : R := match l with [] => 0 | t :: r => tval t x + hs r x end.
Definition tcorr (s t : term) : R :=
  let '(A, k, w) := s in let '(B, l, v) := t in A * B / 2 * (zdelta (k - l) * cos (w - v) + zdelta (k + l) * cos (w + v)).
Fixpoint tl (s : term) (l : list term) : R := match l with [] => 0 | t :: r => tcorr s t + tl s r end.
Fixpoint corr (l m : list term) : R := match l with [] => 0 | s :: r => tl s m + corr r m end.
Lemma avg_tcorr s t : is_avg (fun x => tval s x * tval t x) (tcorr s t).
Proof.
  destruct s as [[A k] w], t as [[B l] v]. unfold tval, tcorr.
  apply (is_avg_ext (fun x => A * B / 2 * (cos (IZR (k - l) * x + (w - v)) + cos (IZR (k + l) * x + (w + v))))).
  - intros x. rewrite minus_IZR, plus_IZR.
    replace ((IZR k - IZR l) * x + (w - v)) with ((IZR k * x + w) - (IZR l * x + v)) by ring.
    replace ((IZR k + IZR l) * x + (w + v)) with ((IZR k * x + w) + (IZR l * x + v)) by ring.
    rewrite (cos_minus (IZR k * x + w)), (cos_plus (IZR k * x + w)). field.
  - apply is_avg_scal, is_avg_plus; apply avg_cos.
Qed.
Lemma avg_hs l m : is_avg (fun x => hs l x * hs m x) (corr l m).
Proof.
  assert (T : forall s m, is_avg (fun x => tval s x * hs m x) (tl s m)).
  { intros s. induction m0 as [|t r IH]; cbn [hs tl].
    - apply (is_avg_ext (fun _ => 0)); [intros; ring|apply is_avg_0].
    - apply (is_avg_ext (fun x => tval s x * tval t x + tval s x * hs r x)); [intros; ring|]. apply is_avg_plus; auto using avg_tcorr. }
  induction l as [|s r IH]; cbn [hs corr].
  - apply (is_avg_ext (fun _ => 0)); [intros; ring|apply is_avg_0].
  - apply (is_avg_ext (fun x => tval s x * hs m x + hs r x * hs m x)); [intros; ring|]. apply is_avg_plus; auto.
Qed.
Lemma avg_unique f v : is_avg f v -> orbit_average f = v.
Proof.
  intros H. unfold orbit_average. rewrite (is_RInt_unique _ _ _ _ H). field. apply PI_neq0.
Qed.

(** ** The geometry *)
Lemma cos_2PI3 : cos (2 * PI / 3) = - / 2.
Proof. replace (2 * PI / 3) with (2 * (PI / 3)) by field. rewrite cos_2PI3. field. Qed.
Lemma sin_2PI3 : sin (2 * PI / 3) = sqrt 3 / 2.
Proof. replace (2 * PI / 3) with (2 * (PI / 3)) by field. apply sin_2PI3. Qed.
Lemma sqrt3_2 : sqrt 3 ^ 2 = 3.
Proof. simpl. rewrite Rmult_1_r. apply sqrt_def. lra. Qed.
Lemma inv_2sqrt3 : / (2 * sqrt 3) = sqrt 3 / 6.
Proof.
  assert (S3 : sqrt 3 <> 0) by (apply Rgt_not_eq, sqrt_lt_R0; lra). pose proof sqrt3_2 as H.
  apply (Rmult_eq_reg_r (2 * sqrt 3)); [|lra]. rewrite Rinv_l by lra. simpl in H. lra.
Qed.
Definition cP (x : R) : vec := mkVec (/ 4 * sin (2 * x)) (/ 4 * (- cos (2 * x) - 3)) (- (sqrt 3 / 2) * sin x).
Definition cQ (x : R) : vec := mkVec (/ 4 * (3 - cos (2 * x))) (/ 4 * (- sin (2 * x))) (sqrt 3 / 2 * cos x).
Lemma arm_gen lam x : arm lam 1 2 x = vlin (cos (lam + PI/3)) (cP x) (sin (lam + PI/3)) (cQ x) /\
                      arm lam 1 3 x = vlin (cos (lam + 2 * PI/3)) (cP x) (sin (lam + 2 * PI/3)) (cQ x).
Proof.
  unfold arm, vsub, craft. cbv zeta. rewrite inv_2sqrt3.
  replace (2 * PI * (INR 1 - 1) / 3 + lam) with lam by (simpl; field).
  replace (2 * PI * (INR 2 - 1) / 3 + lam) with (lam + 2 * PI / 3) by (simpl; field).
  replace (2 * PI * (INR 3 - 1) / 3 + lam) with (lam + 2 * PI / 3 + 2 * PI / 3) by (simpl; field).
  unfold vlin, cP, cQ. cbn [vx vy vz].
  repeat rewrite ?cos_minus, ?sin_minus, ?cos_plus, ?sin_plus. rewrite cos_2PI3, sin_2PI3, cos_PI3, sin_PI3.
  pose proof sqrt3_2 as R3. set (r := sqrt 3) in *. clearbody r.
  split; (apply f_equal3 with (f := mkVec)); field [R3].
Qed.
Lemma arm_unit lam i j x : (i, j) = (1%nat, 2%nat) \/ (i, j) = (1%nat, 3%nat) -> dot (arm lam i j x) (arm lam i j x) = 1.
Proof.
  assert (E : forall c s, c ^ 2 = 1 - s ^ 2 -> dot (vlin c (cP x) s (cQ x)) (vlin c (cP x) s (cQ x)) = 1).
  { intros c s H. unfold dot, vlin, cP, cQ. cbn [vx vy vz]. rewrite cos_2a_cos, sin_2a. pose proof sqrt3_2 as R3.
    pose proof (sin2_cos2' x) as S. set (r := sqrt 3) in *. set (a := cos x) in *. set (b := sin x) in *. clearbody r a b.
    field [R3 S H]. }
  assert (CS : forall y, cos y ^ 2 = 1 - sin y ^ 2) by (intros y; rewrite sin2_cos2'; ring).
  intros [H|H]; inversion H; subst i j; destruct (arm_gen lam x) as [A B]; [rewrite A|rewrite B]; apply E; apply CS.
Qed.
(** (u u - v v) applied to two vectors *)
Lemma tensor n m x : let u := arm (PI/4) 1 2 x in let v := arm (PI/4) 1 3 x in
  dot u n * dot u m - dot v n * dot v m = - (sqrt 3 / 2) * (dot (cP x) n * dot (cP x) m - dot (cQ x) n * dot (cQ x) m).
Proof.
  cbv zeta. destruct (arm_gen (PI/4) x) as [-> ->].
  assert (L : forall a b p q w, dot (vlin a p b q) w = a * dot p w + b * dot q w).
  { intros. unfold dot, vlin. cbn [vx vy vz]. ring. }
  rewrite !L. rewrite !cos_plus, !sin_plus, cos_2PI3, sin_2PI3, cos_PI3, sin_PI3, cos_PI4, sin_PI4.
  assert (K : sqrt 2 ^ 2 = 2) by (simpl; rewrite Rmult_1_r; apply sqrt_def; lra).
  assert (S2 : sqrt 2 <> 0) by (apply Rgt_not_eq, sqrt_lt_R0; lra).
  replace (1 / sqrt 2) with (sqrt 2 / 2) by (apply (Rmult_eq_reg_r (sqrt 2)); [unfold Rdiv at 2; rewrite Rmult_assoc, Rinv_l by auto; simpl in K; lra|auto]).
  pose proof sqrt3_2 as R3. set (r := sqrt 3) in *. set (k := sqrt 2) in *. clearbody r k. clear S2.
  generalize (dot (cP x) n) (dot (cP x) m) (dot (cQ x) n) (dot (cQ x) m). intros. field [R3 K].
Qed.
Section Source.
Variables th ph : R.
Definition lp : list term :=
  [(sqrt 3 / 64 * (2 + 2 * cos th ^ 2) * 9 * cos (2 * ph), 0%Z, 0); (- 9 / 8 * sin th * cos th, 1%Z, ph);
   (sqrt 3 / 64 * 36 * sin th ^ 2, 2%Z, 0); (3 / 8 * sin th * cos th, 3%Z, - ph); (sqrt 3 / 64 * (2 + 2 * cos th ^ 2), 4%Z, - (2 * ph))].
Definition lx : list term :=
  [(- (sqrt 3 / 16 * cos th * 9 * sin (2 * ph)), 0%Z, 0); (18 / 16 * sin th, 1%Z, ph - PI/2);
   (6 / 16 * sin th, 3%Z, - ph - PI/2); (sqrt 3 / 16 * cos th, 4%Z, - (2 * ph) - PI/2)].
Lemma plus_series x : let u := arm (PI/4) 1 2 x in let v := arm (PI/4) 1 3 x in let t := e_theta th ph in let f := e_phi ph in
  (dot u t * dot u t - dot v t * dot v t) - (dot u f * dot u f - dot v f * dot v f) = hs lp x.
Proof.
  cbv zeta. rewrite !tensor. unfold dot, cP, cQ, e_theta, e_phi, lp. cbn [vx vy vz hs tval].
  replace (4 * x) with (2 * (2 * x)) by ring. replace (3 * x) with (2 * x + x) by ring.
  repeat rewrite ?cos_plus, ?sin_plus. rewrite ?Rmult_0_l, ?Rmult_1_l, ?cos_neg, ?sin_neg, ?cos_0, ?sin_0.
  repeat rewrite ?(cos_2a_cos (2 * x)), ?(sin_2a (2 * x)). repeat rewrite ?(cos_2a_cos x), ?(sin_2a x), ?(cos_2a_cos ph), ?(sin_2a ph).
  pose proof (sin2_cos2' x) as Sx. pose proof (sin2_cos2' ph) as Sp. pose proof (sin2_cos2' th) as St. pose proof sqrt3_2 as R3.
  set (r := sqrt 3) in *. set (a := cos x) in *. set (b := sin x) in *. set (c := cos ph) in *. set (d := sin ph) in *.
  set (e := cos th) in *. set (f := sin th) in *. clearbody r a b c d e f. field [Sx Sp St R3].
Qed.
Lemma cross_series x : let u := arm (PI/4) 1 2 x in let v := arm (PI/4) 1 3 x in let t := e_theta th ph in let f := e_phi ph in
  2 * (dot u t * dot u f - dot v t * dot v f) = hs lx x.
Proof.
  cbv zeta. rewrite !tensor. unfold dot, cP, cQ, e_theta, e_phi, lx. cbn [vx vy vz hs tval].
  replace (4 * x) with (2 * (2 * x)) by ring. replace (3 * x) with (2 * x + x) by ring.
  repeat rewrite ?cos_minus, ?sin_minus, ?cos_plus, ?sin_plus. rewrite ?Rmult_0_l, ?Rmult_1_l, ?cos_neg, ?sin_neg, ?cos_0, ?sin_0.
  rewrite ?cos_PI2, ?sin_PI2.
  repeat rewrite ?(cos_2a_cos (2 * x)), ?(sin_2a (2 * x)). repeat rewrite ?(cos_2a_cos x), ?(sin_2a x), ?(cos_2a_cos ph), ?(sin_2a ph).
  pose proof (sin2_cos2' x) as Sx. pose proof (sin2_cos2' ph) as Sp. pose proof (sin2_cos2' th) as St. pose proof sqrt3_2 as R3.
  set (r := sqrt 3) in *. set (a := cos x) in *. set (b := sin x) in *. set (c := cos ph) in *. set (d := sin ph) in *.
  set (e := cos th) in *. set (f := sin th) in *. clearbody r a b c d e f. field [Sx Sp St R3].
Qed.
Ltac deltas := repeat match goal with |- context[zdelta ?z] => first [change (zdelta z) with 1 | change (zdelta z) with 0] end;
  rewrite ?Rmult_0_l, ?Rplus_0_l, ?Rplus_0_r, ?Rmult_0_r, ?Rplus_0_l, ?Rplus_0_r, ?Rminus_eq_0, ?cos_0.
Lemma corr_pp : corr lp lp = DpR th ph.
Proof.
  unfold lp, DpR. cbn [corr tl tcorr]. deltas.
  pose proof (sin2_cos2' (2 * ph)) as Sp. pose proof (sin2_cos2' th) as St. pose proof sqrt3_2 as R3.
  set (r := sqrt 3) in *. set (c := cos (2 * ph)) in *. set (d := sin (2 * ph)) in *.
  set (e := cos th) in *. set (f := sin th) in *. clearbody r c d e f. field [Sp St R3].
Qed.
Lemma corr_xx : corr lx lx = DcR th ph.
Proof.
  unfold lx, DcR. cbn [corr tl tcorr]. deltas.
  pose proof (sin2_cos2' (2 * ph)) as Sp. pose proof (sin2_cos2' th) as St. pose proof sqrt3_2 as R3.
  set (r := sqrt 3) in *. set (c := cos (2 * ph)) in *. set (d := sin (2 * ph)) in *.
  set (e := cos th) in *. set (f := sin th) in *. clearbody r c d e f. field [Sp St R3].
Qed.
Lemma corr_px : corr lp lx = - DpcR th ph.
Proof.
  unfold lp, lx, DpcR. cbn [corr tl tcorr]. deltas.
  replace (ph - (ph - PI/2)) with (PI/2) by ring. replace (- ph - (- ph - PI/2)) with (PI/2) by ring.
  replace (- (2 * ph) - (- (2 * ph) - PI/2)) with (PI/2) by ring. rewrite cos_PI2.
  replace (2 * cos ph ^ 2 - 1) with (cos (2 * ph)) by (rewrite cos_2a_cos; ring).
  pose proof sqrt3_2 as R3.
  set (r := sqrt 3) in *. set (c := cos (2 * ph)) in *. set (d := sin (2 * ph)) in *.
  set (e := cos th) in *. set (f := sin th) in *. clearbody r c d e f. field [R3].
Qed.
Lemma lisa_plus_series psi x : lisa_plus th ph psi x = / 2 * (cos (2 * psi) * hs lp x + sin (2 * psi) * hs lx x).
Proof.
  rewrite <- plus_series, <- cross_series. cbv zeta. unfold lisa_plus, michelson_plus, pol_p, pol_q.
  assert (L : forall a b p q w, dot w (vlin a p b q) = a * dot w p + b * dot w q).
  { intros. unfold dot, vlin. cbn [vx vy vz]. ring. }
  rewrite !L. rewrite cos_2a, sin_2a. ring.
Qed.
Lemma lisa_cross_series psi x : lisa_cross th ph psi x = / 2 * (cos (2 * psi) * hs lx x - sin (2 * psi) * hs lp x).
Proof.
  rewrite <- plus_series, <- cross_series. cbv zeta. unfold lisa_cross, michelson_cross, pol_p, pol_q.
  assert (L : forall a b p q w, dot w (vlin a p b q) = a * dot w p + b * dot w q).
  { intros. unfold dot, vlin. cbn [vx vy vz]. ring. }
  rewrite !L. rewrite cos_2a, sin_2a. ring.
Qed.
Lemma sin_4 psi : sin (4 * psi) = 2 * sin (2 * psi) * cos (2 * psi).
Proof. replace (4 * psi) with (2 * (2 * psi)) by ring. apply sin_2a. Qed.
Lemma avg_plus_2 psi : is_avg (fun x => lisa_plus th ph psi x ^ 2) (FpR th ph psi).
Proof.
  apply (is_avg_ext (fun x => (/4 * cos (2 * psi) ^ 2) * (hs lp x * hs lp x) + (/2 * cos (2 * psi) * sin (2 * psi)) * (hs lp x * hs lx x)
                              + (/4 * sin (2 * psi) ^ 2) * (hs lx x * hs lx x))).
  { intros x. rewrite lisa_plus_series. field. }
  replace (FpR th ph psi) with ((/4 * cos (2 * psi) ^ 2) * corr lp lp + (/2 * cos (2 * psi) * sin (2 * psi)) * corr lp lx
                              + (/4 * sin (2 * psi) ^ 2) * corr lx lx).
  { exact (avg3 _ _ _ _ _ _ _ _ _ (avg_hs lp lp) (avg_hs lp lx) (avg_hs lx lx)). }
  rewrite corr_pp, corr_px, corr_xx. unfold FpR. rewrite sin_4. field.
Qed.
Lemma avg_cross_2 psi : is_avg (fun x => lisa_cross th ph psi x ^ 2) (FcR th ph psi).
Proof.
  apply (is_avg_ext (fun x => (/4 * cos (2 * psi) ^ 2) * (hs lx x * hs lx x) + (- /2 * cos (2 * psi) * sin (2 * psi)) * (hs lp x * hs lx x)
                              + (/4 * sin (2 * psi) ^ 2) * (hs lp x * hs lp x))).
  { intros x. rewrite lisa_cross_series. field. }
  replace (FcR th ph psi) with ((/4 * cos (2 * psi) ^ 2) * corr lx lx + (- /2 * cos (2 * psi) * sin (2 * psi)) * corr lp lx
                              + (/4 * sin (2 * psi) ^ 2) * corr lp lp).
  { exact (avg3 _ _ _ _ _ _ _ _ _ (avg_hs lx lx) (avg_hs lp lx) (avg_hs lp lp)). }
  rewrite corr_pp, corr_px, corr_xx. unfold FcR. rewrite sin_4. field.
Qed.
Lemma avg_power psi inc : is_avg (detected_power th ph psi inc)
  (((1 + cos inc ^ 2) / 2) ^ 2 * FpR th ph psi + cos inc ^ 2 * FcR th ph psi).
Proof.
  apply (is_avg_ext (fun x => ((1 + cos inc ^ 2) / 2) ^ 2 * lisa_plus th ph psi x ^ 2 + cos inc ^ 2 * lisa_cross th ph psi x ^ 2)).
  { intros x. unfold detected_power. ring. }
  exact (is_avg_plus _ _ _ _ (is_avg_scal _ _ _ (avg_plus_2 psi)) (is_avg_scal _ _ _ (avg_cross_2 psi))).
Qed.
End Source.

Theorem response_is_average th ph psi :
  F_plus_squared (Fin th) (Fin ph) (Fin psi) = Fin (orbit_average (fun alpha => lisa_plus th ph psi alpha ^ 2)) /\
  F_cross_squared (Fin th) (Fin ph) (Fin psi) = Fin (orbit_average (fun alpha => lisa_cross th ph psi alpha ^ 2)).
Proof.
  rewrite Fp_fin, Fc_fin. now rewrite (avg_unique _ _ (avg_plus_2 th ph psi)), (avg_unique _ _ (avg_cross_2 th ph psi)).
Qed.
Theorem modulation_is_average lat lon psi inc :
  amplitude_modulation_elem (Fin lat) (Fin lon) (Fin psi) (Fin inc)
  = Fin (5/4 * orbit_average (detected_power (PI/2 - lat) lon psi inc)).
Proof. rewrite mod_fin. now rewrite (avg_unique _ _ (avg_power (PI/2 - lat) lon psi inc)). Qed.
