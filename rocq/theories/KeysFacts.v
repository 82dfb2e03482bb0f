(** KeysFacts.v -- known keys given to setdefault and [|=]. *)
From Coq Require Import String Reals ZArith List Lra Lia Bool.
From Verif Require Import Num Np Utils Spec Psd PsdSpec Snr Interp Evol Harmonics ScParams Source Index History CurveSpec CurveFacts Toy CurveThms.
Import ListNotations.
Open Scope R_scope.

Lemma setdefault_known x s k v : six s -> In k documented -> step x (SetDefault k v) s = (s, Ok tt).
Proof.
  intros H6 K. unfold six in H6. rewrite <- H6 in K. apply lookup_in in K. destruct K as [u L]. cbn [step]. unfold params_setdefault, modify. rewrite L. reflexivity.
Qed.
Lemma ior_value x s new k' : six s -> (forall k, In k (keys new) -> In k documented) -> NoDup (keys new) ->
  lookup k' (s_params (fst (step x (Ior new) s))) = match lookup k' new with Some v => Some v | None => lookup k' (s_params s) end.
Proof.
  intros H6 K N. cbn [step]. unfold params_ior. rewrite mbind_modify, mbind_self, assign_cases. cbn [put_params set_curve s_params].
  rewrite make_params_same; [|rewrite put_all_keys; auto; unfold six in H6; rewrite H6; auto]. cbn zeta.
  destruct (negb _); [rewrite set_sc_keeps_params|]; cbn; now apply lookup_put_all.
Qed.
