(** WorldCopy.v -- copies of sensitivity curve parameters stay connected to their collection. *)
From Coq Require Import String Reals ZArith List Bool Lia.
From Verif Require Import Num Np Utils ScParams Source Index History World WorldSpec WorldFacts WorldThms WorldSim WorldSteps WorldEvents WorldProofs.
Import ListNotations.
Open Scope list_scope.
Open Scope nat_scope.

Lemma copied_params x w p q i s k v : reached x w -> nth_error (w_params w) p = Some q -> p_source q = Some i -> contents w i = Some s ->
  check_keys [k] = Ok tt -> peqb (get_or_none k (p_dict q)) v = false ->
  let c := length (w_params w) in
  let w1 := fst (w_step x (HandleCopy p) w) in let w2 := fst (w_step x (HandleSet c k v) w1) in
  snd (w_step x (HandleCopy p) w) = Ok (Params c) /\ (forall j, contents w1 j = contents w j) /\
  contents w2 i = Some (fst (step x SetSc s)) /\
  option_map p_dict (nth_error (w_params w2) c) = Some (put k v (p_dict q)) /\ (p < c -> option_map p_dict (nth_error (w_params w2) p) = Some (p_dict q)).
Proof.
  intros R Q S C K V c w1 w2. pose proof (reached_inv _ _ R) as I.
  assert (E1 : w_step x (HandleCopy p) w = (mkWorld (w_heap w) (w_objs w) (w_params w ++ [mkHandle (p_dict q) (p_source q)]), Ok (Params c))).
  { cbn [w_step]. unfold w_copy_handle, wbind, get_handle. rewrite Q. reflexivity. }
  assert (W1 : w1 = mkWorld (w_heap w) (w_objs w) (w_params w ++ [mkHandle (p_dict q) (p_source q)])) by (unfold w1; now rewrite E1).
  split; [now rewrite E1|].
  assert (F : forall j, contents w1 j = contents w j).
  { intros j. rewrite W1. apply plain_frame; cbn; auto; [exists []; now rewrite app_nil_r|eauto]. }
  split; [exact F|].
  assert (Q1 : nth_error (w_params w1) c = Some (mkHandle (p_dict q) (p_source q))) by (rewrite W1; cbn; apply nth_last).
  assert (I1 : inv w1) by (unfold w1; apply step_inv; [exact I|intros b []]).
  set (w1' := mkWorld (w_heap w1) (w_objs w1) (replace c (mkHandle (put k v (p_dict q)) (p_source q)) (w_params w1))).
  assert (L : c < length (w_params w1)) by exact (nth_some_lt _ _ _ Q1).
  assert (Q2 : nth_error (w_params w1') c = Some (mkHandle (put k v (p_dict q)) (p_source q))) by (unfold w1'; cbn; now apply nth_replace_eq).
  assert (W2 : w2 = fst (w_set_sc x i w1')).
  { unfold w2. cbn [w_step]. rewrite fst_done. unfold w_setitem, wlift. rewrite K. unfold wbind at 1. unfold get_handle. unfold wbind at 1. rewrite Q1. cbn [p_dict].
    rewrite V. cbn [negb]. unfold set_dict. unfold wbind at 1. rewrite Q1. cbn [p_source]. fold w1'.
    unfold w_re_interpolate, wbind, get_handle. rewrite Q2. cbn [p_source]. now rewrite S. }
  assert (K1 : okstep i w1 w1') by (unfold w1'; apply (ok_set_dict i w1 c (mkHandle (p_dict q) (p_source q))); auto).
  pose proof (ok_inv _ _ _ I1 K1) as I1'.
  unfold contents in C. destruct (nth_error (w_objs w) i) as [o|] eqn:O; [|discriminate]. injection C as C.
  assert (O1 : nth_error (w_objs w1') i = Some o) by (unfold w1'; cbn; rewrite W1; exact O).
  assert (N : o_params o <> c).
  { intros E. destruct (inv_own _ I _ _ O) as (q1 & Hq & _). rewrite E in Hq. apply nth_some_lt in Hq. unfold c in Hq. lia. }
  assert (VW : view w1' o = s).
  { rewrite <- C. apply some_inj. rewrite <- (contents_view w i o O), <- (F i), (contents_view w1 i o) by (rewrite W1; exact O). f_equal.
    unfold w1', view, dict_at. cbn [w_heap w_objs w_params]. now rewrite nth_replace_ne by exact N. }
  destruct (good_set_sc x i (fun _ => True) w1' o I1' O1 Logic.I) as (w' & r & s' & r' & G1 & G2 & G3 & G4 & G5).
  split; [|].
  { rewrite W2, G1. cbn [fst]. rewrite G4. cbn [step]. rewrite <- VW, G2. reflexivity. }
  assert (P : w_params w2 = w_params w1').
  { rewrite W2. unfold w_set_sc, look, wbind, contents. rewrite O1. cbn [option_map]. destruct (s_interpolate_sc _); unfold wlift, assign; [destruct (curve_of _ _) as [g|e]; [|reflexivity]|]; rewrite O1; reflexivity. }
  split; [now rewrite P, Q2|]. intros H. rewrite P. unfold w1'. cbn [w_params]. rewrite nth_replace_ne by lia. rewrite W1. cbn [w_params].
  rewrite nth_error_app1 by exact H. now rewrite Q.
Qed.
