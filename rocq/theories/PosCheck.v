(** PosCheck.v -- a certified check that a polynomial with rational coefficients is non-negative on [0,1] (used only
    by the accuracy proofs; not a model of LEGWORK code). *)
From Coq Require Import Reals QArith Qreals List Bool Lra Qminmax.
Import ListNotations.
Open Scope R_scope.

Definition poly := list Q.
Fixpoint pev (p : poly) (x : R) : R := match p with [] => 0 | c :: q => Q2R c + x * pev q x end.
Fixpoint padd (p q : poly) : poly :=
  match p, q with [], _ => q | _, [] => p | a :: p', b :: q' => Qred (a + b)%Q :: padd p' q' end.
Definition pscale (c : Q) (p : poly) : poly := map (fun a => Qred (c * a)%Q) p.
Fixpoint pmul (p q : poly) : poly :=
  match p with [] => [] | a :: p' => padd (pscale a q) (0%Q :: pmul p' q) end.
Fixpoint ppow (p : poly) (n : nat) : poly := match n with O => [1%Q] | S k => pmul p (ppow p k) end.
(** p(a + b x) *)
Fixpoint pcomp (p : poly) (a b : Q) : poly :=
  match p with [] => [] | c :: q => let r := pcomp q a b in padd (c :: pscale b r) (pscale a r) end.
(** a lower bound on [0,1] *)
Definition tail_low (p : poly) : Q := fold_right (fun c acc => (Qred (Qmin c 0 + acc))%Q) 0%Q p.
Definition low (p : poly) : Q := match p with [] => 0%Q | c :: q => (c + tail_low q)%Q end.
Fixpoint nonneg (fuel : nat) (p : poly) : bool :=
  if Qle_bool 0 (low p) then true
  else match fuel with
       | O => false
       | S k => nonneg k (pcomp p 0 (1#2)) && nonneg k (pcomp p (1#2) (1#2))
       end.

Lemma Q2R_red q : Q2R (Qred q) = Q2R q.
Proof. apply Qeq_eqR, Qred_correct. Qed.
Lemma pev_add p q x : pev (padd p q) x = pev p x + pev q x.
Proof.
  revert q. induction p as [|a p IH]; intros [|b q]; cbn [padd pev]; try ring.
  rewrite Q2R_red, Q2R_plus, IH. ring.
Qed.
Lemma pev_scale c p x : pev (pscale c p) x = Q2R c * pev p x.
Proof.
  induction p as [|a p IH]; [cbn; ring|]. change (pscale c (a :: p)) with (Qred (c * a)%Q :: pscale c p).
  cbn [pev]. rewrite IH, Q2R_red, Q2R_mult. ring.
Qed.
Lemma Q2R_0 : Q2R 0 = 0.
Proof. unfold Q2R; simpl. lra. Qed.
Lemma Q2R_1 : Q2R 1 = 1.
Proof. unfold Q2R; simpl. lra. Qed.
Lemma pev_mul p q x : pev (pmul p q) x = pev p x * pev q x.
Proof.
  induction p as [|a p IH]; cbn [pmul pev]; [ring|]. rewrite pev_add, pev_scale. cbn [pev]. rewrite IH, Q2R_0. ring.
Qed.
Lemma pev_pow p n x : pev (ppow p n) x = pev p x ^ n.
Proof. induction n as [|n IH]; cbn [ppow pow]; [cbn; rewrite Q2R_1; ring|]. now rewrite pev_mul, IH. Qed.
Lemma pev_comp p a b x : pev (pcomp p a b) x = pev p (Q2R a + Q2R b * x).
Proof.
  induction p as [|c p IH]; cbn [pcomp pev]; [reflexivity|]. rewrite pev_add. cbn [pev]. rewrite !pev_scale, IH. ring.
Qed.
Lemma tail_low_le p x : 0 <= x <= 1 -> Q2R (tail_low p) <= x * pev p x /\ Q2R (tail_low p) <= 0.
Proof.
  intros Hx. induction p as [|c p [IH1 IH2]]; cbn [tail_low fold_right pev]; [rewrite Q2R_0; split; nra|].
  fold (tail_low p). rewrite Q2R_red, Q2R_plus.
  assert (M : Q2R (Qmin c 0) <= Q2R c /\ Q2R (Qmin c 0) <= 0).
  { rewrite <- Q2R_0. split; apply Qle_Rle; [apply Q.le_min_l|apply Q.le_min_r]. }
  destruct M as [M1 M2]. split; [|lra].
  assert (Q2R (Qmin c 0) <= x * Q2R c) by nra.
  assert (Q2R (tail_low p) <= x * (x * pev p x)) by nra. nra.
Qed.
Lemma low_le p x : 0 <= x <= 1 -> Q2R (low p) <= pev p x.
Proof.
  intros Hx. destruct p as [|c p]; cbn [low pev]; [rewrite Q2R_0; lra|].
  rewrite Q2R_plus. destruct (tail_low_le p x Hx). lra.
Qed.
Lemma nonneg_correct fuel p : nonneg fuel p = true -> forall x, 0 <= x <= 1 -> 0 <= pev p x.
Proof.
  revert p. induction fuel as [|k IH]; intros p H x Hx; cbn [nonneg] in H.
  - destruct (Qle_bool 0 (low p)) eqn:E; [|discriminate]. apply Qle_bool_iff, Qle_Rle in E. rewrite Q2R_0 in E.
    pose proof (low_le p x Hx). lra.
  - destruct (Qle_bool 0 (low p)) eqn:E.
    + apply Qle_bool_iff, Qle_Rle in E. rewrite Q2R_0 in E. pose proof (low_le p x Hx). lra.
    + apply andb_true_iff in H. destruct H as [A B].
      assert (H2 : Q2R (1#2) = 1/2) by (unfold Q2R; simpl; lra).
      destruct (Rle_dec x (1/2)) as [L|L].
      * specialize (IH _ A (2 * x) ltac:(lra)). rewrite pev_comp, Q2R_0, H2 in IH.
        replace (0 + 1/2 * (2 * x)) with x in IH by field. exact IH.
      * specialize (IH _ B (2 * x - 1) ltac:(lra)). rewrite pev_comp, H2 in IH.
        replace (1/2 + 1/2 * (2 * x - 1)) with x in IH by field. exact IH.
Qed.
(** On [u, v]. *)
Lemma nonneg_on fuel p (u w : Q) : nonneg fuel (pcomp p u w) = true -> (0 < w)%Q ->
  forall x, Q2R u <= x <= Q2R u + Q2R w -> 0 <= pev p x.
Proof.
  intros H Hw x Hx. apply Qlt_Rlt in Hw. rewrite Q2R_0 in Hw.
  assert (B : 0 <= (x - Q2R u) / Q2R w <= 1).
  { split; apply Rmult_le_reg_r with (Q2R w); auto; unfold Rdiv; rewrite Rmult_assoc, Rinv_l, Rmult_1_r by lra; lra. }
  pose proof (nonneg_correct _ _ H _ B) as P. rewrite pev_comp in P.
  replace (Q2R u + Q2R w * ((x - Q2R u) / Q2R w)) with x in P by (field; lra). exact P.
Qed.
