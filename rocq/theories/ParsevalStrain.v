(** ParsevalStrain.v -- strains of all harmonics together. *)
From Coq Require Import Reals ZArith List Lra Lia.
From Coquelicot Require Import Coquelicot.
From Verif Require Import Num NumFacts Utils Spec UtilsFacts EvolSpec Strain StrainSpec StrainFacts Bessel BesselFacts HarmFacts PropUtils ParsevalThms.
Import ListNotations.
Open Scope R_scope.

Lemma sum_scaled (f g : Z -> R) k N : (forall n, (1 <= n)%Z -> f n = k * g n) ->
  Rsum (map f (map Z.of_nat (seq 1 N))) = k * Rsum (map g (map Z.of_nat (seq 1 N))).
Proof.
  intros H. induction N as [|N IH]; [cbn; ring|]. rewrite seq_S, !map_app, !Rsum_app, IH. assert (S : forall x, Rsum [x] = x) by (intros x; unfold Rsum; cbn; ring). cbn [map]. rewrite !S, H by lia. ring.
Qed.
Lemma cv_scaled (f g : Z -> R) k l : (forall n, (1 <= n)%Z -> f n = k * g n) ->
  Un_cv (fun N => Rsum (map g (map Z.of_nat (seq 1 N)))) l -> Un_cv (fun N => Rsum (map f (map Z.of_nat (seq 1 N)))) (k * l).
Proof.
  intros H C. assert (C' : Un_cv (fun N => k * Rsum (map g (map Z.of_nat (seq 1 N)))) (k * l)).
  { apply (CV_mult (fun _ => k)); [|exact C]. intros eps He. exists 0%nat. intros n _. unfold R_dist. rewrite Rminus_eq_0, Rabs_R0. exact He. }
  intros eps He. destruct (C' eps He) as (N & HN). exists N. intros n Hn. rewrite (sum_scaled f g k n H). apply HN, Hn.
Qed.

Section Strains.
Variable jv : Z -> num -> num.
Hypothesis J : forall k x, jv k (Fin x) = Fin (besselJ k x).

Lemma circular_power : power_used jv None 2 0 1.
Proof.
  exact (C05_peters_g_circular jv besselJ 2 J besselJ_0 ltac:(lia)).
Qed.

Lemma strain_sum m f e d o : 0 < m -> 0 < f -> 0 < d -> 0 <= e < 1 -> exists (h : Z -> R) (hc F : R),
  (forall n, (1 <= n)%Z -> h_0_single jv None m f e n d o = Ok [[[Fin (h n)]]]) /\
  h_0_single jv None m f 0 2 d o = Ok [[[Fin hc]]] /\ peters_f (Fin e) = Fin F /\
  Un_cv (fun N => Rsum (map (fun n => (IZR n * h n) ^ 2) (map Z.of_nat (seq 1 N)))) ((2 * hc) ^ 2 * F).
Proof.
  intros Hm Hf Hd He. destruct (peters_sum jv e J He) as (g & F & G & HF & _ & C).
  assert (G0 : forall n, (1 <= n)%Z -> 0 <= g n).
  { intros n Hn. exact (proj2 (g_value_used jv None n e (g n) Hn ltac:(lra) (G n Hn))). }
  exists (fun n => sqrt (ampR o) * h0R m f d (g n) n), (sqrt (ampR o) * h0R m f d 1 2), F. split; [|split; [|split]].
  - intros n Hn. apply h_0_single_fin; auto; [lra|exact (G n Hn)].
  - apply h_0_single_fin; auto; try lra; try lia. exact circular_power.
  - exact HF.
  - apply (cv_scaled _ g); [|exact C]. intros n Hn. pose proof (IZR_pos n Hn) as P.
    rewrite !Rpow_mult_distr, h0R_sqr, h0R_sqr by (auto; lra || lia). pose proof clight_pos. field. lra.
Qed.
Lemma characteristic_sum m f e d o : 0 < m -> 0 < f -> 0 < d -> 0 <= e < 1 -> exists (h : Z -> R) (hc : R),
  (forall n, (1 <= n)%Z -> h_c_single jv None m f e n d o = Ok [[[Fin (h n)]]]) /\
  h_c_single jv None m f 0 2 d o = Ok [[[Fin hc]]] /\
  Un_cv (fun N => Rsum (map (fun n => IZR n * h n ^ 2) (map Z.of_nat (seq 1 N)))) (2 * hc ^ 2).
Proof.
  intros Hm Hf Hd He. destruct (peters_sum jv e J He) as (g & F & G & HF & _ & C).
  assert (G0 : forall n, (1 <= n)%Z -> 0 <= g n).
  { intros n Hn. exact (proj2 (g_value_used jv None n e (g n) Hn ltac:(lra) (G n Hn))). }
  rewrite (peters_f_fin e) in HF by lra. injection HF as HF.
  exists (fun n => sqrt (ampR o) * hcR m f e d (g n) n), (sqrt (ampR o) * hcR m f 0 d 1 2). split; [|split].
  - intros n Hn. apply h_c_single_fin; auto. exact (G n Hn).
  - apply h_c_single_fin; auto; try lra; try lia. exact circular_power.
  - pose proof (enhancement_pos e He) as EP. rewrite <- HF in C.
    replace (2 * (sqrt (ampR o) * hcR m f 0 d 1 2) ^ 2) with (2 * (sqrt (ampR o) * hcR m f 0 d 1 2) ^ 2 / enhancement e * enhancement e) by (field; lra).
    apply (cv_scaled _ g); [|exact C]. intros n Hn. pose proof (IZR_pos n Hn) as P.
    rewrite !Rpow_mult_distr, hcR_sqr, hcR_sqr by (auto; lra || lia).
    assert (E0 : enhancement 0 = 1) by (unfold enhancement; replace (1 - 0 ^ 2) with 1 by ring; rewrite sqrt_1, pow1; field).
    rewrite E0. pose proof clight_pos. pose proof (Rpower_neq0 PI (4/3)). field. repeat split; lra.
Qed.
End Strains.
