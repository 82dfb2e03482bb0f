(** UnitsSourceKeep.v -- what calls on a Source leave in the units they were given in. *)
From Coq Require Import String Reals ZArith List Bool Lra Lia.
From Verif Require Import Num NumFacts Np NpFacts Utils Strain Psd Evol Snr Interp Harmonics ScParams Source History Units UnitsSpec UnitsFacts UnitsThms
  UnitsEvol UnitsPsd UnitsSnr UnitsSource UnitsSourceSpec.
Import ListNotations.
Open Scope list_scope.
Open Scope R_scope.

Definition keeps {A} (m : MQ A) : Prop := forall q, kept q (fst (m q)).
Lemma kept_refl q : kept q q.
Proof. repeat split. now left. Qed.
Lemma kept_trans a b c : kept a b -> kept b c -> kept a c.
Proof.
  intros (A1 & A2 & A3 & A4 & A5 & A6 & A7) (B1 & B2 & B3 & B4 & B5 & B6 & B7). repeat split; try congruence.
  destruct B7 as [E|H]; [|now right]. rewrite E. exact A7.
Qed.
Lemma keeps_bind {A B} (m : MQ A) (f : A -> MQ B) : keeps m -> (forall a, keeps (f a)) -> keeps (mbind_q m f).
Proof.
  intros H K q. unfold mbind_q. specialize (H q). destruct (m q) as [q1 [a|e]]; cbn in *; [|exact H].
  eapply kept_trans; [exact H|apply K].
Qed.
Lemma keeps_self : keeps self_q. Proof. intros q. apply kept_refl. Qed.
Lemma keeps_lift {A} (r : res A) : keeps (lift_q r). Proof. intros q. apply kept_refl. Qed.
Lemma keeps_ret {A} (a : A) : keeps (ret_q a). Proof. intros q. apply kept_refl. Qed.
Lemma keeps_raise {A} e : keeps (raise_q e : MQ A). Proof. intros q. apply kept_refl. Qed.
Lemma keeps_modify f : (forall q, kept q (f q)) -> keeps (modify_q f). Proof. intros H q. apply H. Qed.
Lemma bind_lift {A B} (r : res A) (f : A -> MQ B) : (forall a, r = Ok a -> keeps (f a)) -> keeps (mbind_q (lift_q r) f).
Proof. intros H q. unfold mbind_q, lift_q. destruct r as [a|e]; cbn; [now apply (H a)|apply kept_refl]. Qed.
Lemma keeps_set_sc X : keeps (set_sc_q X).
Proof. intros q. unfold set_sc_q. destruct (q_interpolate_sc q); [destruct (curve_of_q X (q_params q))|]; repeat split; now left. Qed.
Ltac keep := repeat first
  [ apply keeps_self | apply keeps_lift | apply keeps_ret | apply keeps_raise | apply keeps_set_sc
  | apply keeps_modify; intros ?; repeat split; now left
  | apply keeps_bind; [|intros ?]
  | match goal with |- keeps (if ?b then _ else _) => destruct b end ].
Lemma keeps_assign X d c : keeps (assign_params_q X d c). Proof. unfold assign_params_q. keep. Qed.
Lemma keeps_update X d : keeps (params_update_q X d). Proof. unfold params_update_q. keep. Qed.
Lemma keeps_record i s m : keeps (record_snr_q i s m). Proof. unfold record_snr_q. keep. Qed.
Lemma keeps_method X v a w : keeps (snr_method_q X v a w).
Proof. unfold snr_method_q. keep. Qed.
Lemma keeps_source X a n w : keeps (get_snr_source_q X a n w).
Proof. unfold get_snr_source_q. keep; apply keeps_method. Qed.
Lemma keeps_snr X a n w : keeps (get_snr_q X a n w).
Proof. unfold get_snr_q. keep. destruct (q_class a0); try apply keeps_source; keep; apply keeps_method. Qed.
Lemma keeps_merger X s w e : keeps (get_merger_time_q X s w e).
Proof. unfold get_merger_time_q. keep. Qed.
Lemma keeps_ensure X : keeps (ensure_t_merge_q X).
Proof. unfold ensure_t_merge_q. apply keeps_bind; [keep|intros s]. destruct (q_t_merge s); keep. match goal with |- keeps match ?t with _ => _ end => destruct t end; keep. Qed.

(** *** Frequencies in Hz *)
Lemma to_hz v w : to v hertz = Ok w -> hertzed w.
Proof. destruct v as [x|x u]; cbn; [discriminate|]. destruct (dim_eqb _ _); [|discriminate]. intros E. injection E as <-. now eexists. Qed.
Lemma store_hz x v w : UnitsEvol.store (Qy x hertz) v = Ok w -> hertzed w.
Proof.
  destruct v as [y|y u]; [|apply to_hz]. cbn. destruct (dim_eqb _ _); [intros E; injection E as <-; now eexists|].
  destruct (arbitrary_unit y); [intros E; injection E as <-; now eexists|discriminate].
Qed.
Lemma mapM_all {A B} (P : B -> Prop) (f : A -> res B) l r : (forall a b, f a = Ok b -> P b) -> mapM f l = Ok r -> List.Forall P r.
Proof.
  intros H. revert r. induction l as [|a l IH]; cbn; intros r E; [injection E as <-; constructor|].
  destruct (f a) as [b|] eqn:F; [|discriminate]. cbn in E. destruct (mapM f l) as [t|]; [|discriminate]. cbn in E. injection E as <-.
  constructor; [now apply (H a)|now apply IH].
Qed.
Lemma map2M_result {A B C} (P : C -> Prop) (f : A -> B -> res C) l m r : (forall a b c, f a b = Ok c -> P c) -> map2M f l m = Ok r -> List.Forall P r.
Proof.
  intros H. revert m r. induction l as [|a l IH]; intros [|b m] r E; cbn in E; try (injection E as <-; constructor; fail).
  destruct (f a b) as [c|] eqn:F; [|discriminate]. cbn in E. destruct (map2M f l m) as [t|] eqn:G; [|discriminate]. cbn in E. injection E as <-.
  constructor; [now apply (H a b)|now apply (IH m)].
Qed.
Lemma bzipM_result {A B C} (P : C -> Prop) (f : A -> B -> res C) l m r : (forall a b c, f a b = Ok c -> P c) -> bzipM f l m = Ok r -> List.Forall P r.
Proof.
  intros H. unfold bzipM. destruct (_ =? _)%nat; [now apply map2M_result|].
  destruct l as [|a [|a' l]], m as [|b [|b' m]]; try discriminate; try (apply mapM_all; intros x y; apply H).
Qed.
Lemma scatter_all {A} (P : A -> Prop) m v l : List.Forall P v -> List.Forall P l -> List.Forall P (scatter m v l).
Proof.
  revert v l. induction m as [|b m IH]; intros v l V L; [exact L|]. destruct l as [|x l]; [destruct b; exact L|].
  pose proof (Forall_inv L) as X. pose proof (Forall_inv_tail L) as T. cbn [scatter].
  destruct b; [destruct v as [|y v]|].
  - constructor; [exact X|]. apply IH; [constructor|exact T].
  - constructor; [exact (Forall_inv V)|]. apply IH; [exact (Forall_inv_tail V)|exact T].
  - constructor; [exact X|]. now apply IH.
Qed.
Lemma f_arr_hz a m1 m2 f : get_f_arr_q a m1 m2 = Ok f -> List.Forall hertzed f.
Proof.
  unfold get_f_arr_q. destruct (bzip _ m1 m2) as [mm|]; cbn [rbind]; [|discriminate]. apply bzipM_result. intros [x y] z w. cbn [fst snd].
  unfold get_f_orb_from_a_q. destruct (vadd x y) as [s|]; cbn [rbind]; [|discriminate]. unfold simplify. intros E.
  destruct (is_quantity _) eqn:Q in E; [exact (to_hz _ _ E)|]. exfalso. revert Q. isq. discriminate.
Qed.

Lemma repeat_all {A} (P : A -> Prop) x n : P x -> List.Forall P (np_repeat x n).
Proof. intros H. induction n; constructor; auto. Qed.
Lemma evolved_hz X t tm q v : evolved_q X t tm q = Ok v -> List.Forall hertzed (snd v).
Proof.
  unfold evolved_q.
  destruct (times_of_q _ _) as [ts|]; cbn [rbind]; [|discriminate]. destruct (bzipM vge _ _) as [mg|]; cbn [rbind]; [|discriminate].
  destruct (logical_and _ _) as [cm|]; cbn [rbind]; [|discriminate]. destruct (logical_and _ _) as [em|]; cbn [rbind]; [|discriminate].
  destruct (take_times_q cm t) as [tc|]; cbn [rbind]; [|discriminate]. destruct (take_times_q em t) as [te|]; cbn [rbind]; [|discriminate].
  cbv zeta. destruct (take_mask mg _) as [am|]; cbn [rbind]; [|discriminate].
  assert (F0 : List.Forall hertzed (scatter mg (map (fun _ => Qy (Fin 100) hertz) am) (np_repeat (Qy (Fin 0) hertz) (n_sources_q q)))).
  { apply scatter_all; [|apply repeat_all; now eexists]. apply Forall_map, Forall_forall. intros. now eexists. }
  set (f0 := scatter mg _ _) in *. clearbody f0.
  match goal with |- rbind ?r ?k = _ -> _ => assert (F1 : forall f, r = Ok f -> List.Forall hertzed f) end.
  { destruct (any cm); [|intros f E; injection E as <-; exact F0]. destruct (evol_circ_q _ _ _ _ _ _ _ _ _ _) as [[[]|]|]; cbn [rbind]; try discriminate.
    intros f. destruct (mapM _ _) as [l0|] eqn:M; cbn [rbind]; [|discriminate]. intros E. injection E as <-.
    apply scatter_all; [|exact F0]. eapply mapM_all; [|exact M]. apply store_hz. }
  match goal with |- rbind ?r ?k = _ -> _ => destruct r as [f1|]; cbn [rbind]; [|discriminate] end. specialize (F1 f1 eq_refl).
  destruct (any em); cbn [rbind]; [|intros E; injection E as <-; exact F1].
  destruct (evol_ecc_q _ _ _ _ _ _ _ _ _ _ _ _ _ _ _ _ _ _) as [[out ?]|]; cbn [rbind fst]; [|discriminate].
  destruct out as [|[|[] [|[] []]]]; cbn [rbind]; try discriminate. destruct (mapM _ _) as [l1|] eqn:M; cbn [rbind]; [|discriminate].
  intros E. injection E as <-. cbn [snd]. apply scatter_all; [|exact F1]. eapply mapM_all; [|exact M]. apply store_hz.
Qed.
Lemma keeps_a a : keeps (a_setter_q a).
Proof.
  destruct a; cbn [a_setter_q]; try apply keeps_raise; (apply keeps_bind; [apply keeps_self|intros s]); apply bind_lift; intros f F; apply keeps_modify; intros q; repeat split; right; exact (f_arr_hz _ _ _ _ F).
Qed.
Lemma keeps_evolve X t : keeps (evolve_sources_q X t).
Proof.
  unfold evolve_sources_q. apply keeps_bind; [apply keeps_ensure|intros tm]. apply keeps_bind; [keep|intros s].
  apply bind_lift. intros [[mg ec] f] E. apply keeps_bind; [|intros _; keep].
  apply keeps_modify. intros q. repeat split. right. exact (evolved_hz _ _ _ _ _ E).
Qed.
Lemma keeps_tolerance X t : keeps (assign_gw_lum_tol_q X t).
Proof. intros q. unfold assign_gw_lum_tol_q. destruct (set_gw_lum_tol _ _ _ _). repeat split. now left. Qed.
Lemma keeps_discard {A} (m : MQ A) : keeps m -> keeps (discard_q m).
Proof. intros H. apply keeps_bind; [exact H|intros a; apply keeps_ret]. Qed.
Theorem keeps_step X o : keeps (step_q X o).
Proof.
  destruct o; cbn [step_q].
  - unfold params_setitem_q. keep.
  - apply keeps_update.
  - apply keeps_bind; [apply keeps_self|intros s; apply keeps_assign].
  - unfold params_ior_q. keep.
  - apply keeps_modify. intros q. destruct (lookup_q _ _); repeat split; now left.
  - apply keeps_raise.
  - keep.
  - apply keeps_set_sc.
  - unfold set_g_q. keep.
  - apply keeps_tolerance.
  - apply keeps_a.
  - apply keeps_discard, keeps_snr.
  - apply keeps_discard, keeps_method.
  - apply keeps_discard, keeps_method.
  - apply keeps_discard, keeps_merger.
  - apply keeps_evolve.
Qed.
Theorem keeps_run X os : forall q, kept q (fst (run_q X os q)).
Proof.
  induction os as [|o os IH]; intros q; [apply kept_refl|]. cbn [run_q]. pose proof (keeps_step X o q) as K.
  destruct (step_q X o q) as [q1 r]. specialize (IH q1). destruct (run_q X os q1). eapply kept_trans; [exact K|exact IH].
Qed.
