(** CurveFacts.v -- the sensitivity curve parameters through any history of operations. *)
From Coq Require Import String Reals ZArith List Lra Lia Bool.
From Verif Require Import Num NumFacts Np Utils Strain Psd Snr Interp Evol Harmonics ScParams Source Index History CurveSpec.
Import ListNotations.
Open Scope R_scope.

Lemma neqb_true x y : neqb x y = true -> x = y.
Proof. destruct x, y; cbn; try discriminate; auto. unfold Reqb. destruct (Req_EM_T r r0); congruence. Qed.
Lemma peqb_eq a b : peqb a b = true -> a = b.
Proof.
  destruct a, b; cbn; try discriminate; auto; intros H.
  - apply String.eqb_eq in H. congruence.
  - apply Bool.eqb_prop in H. congruence.
  - apply neqb_true in H. congruence.
  - apply Nat.eqb_eq in H. congruence.
Qed.

(** ** Dictionaries *)
Lemma lookup_in k d : In k (keys d) <-> exists v, lookup k d = Some v.
Proof.
  induction d as [|[k' v'] d IH]; cbn.
  - split; [intros []|intros [v H]; discriminate].
  - destruct (String.eqb_spec k k') as [->|N]; [split; eauto|]. rewrite <- IH. split; [intros [E|E]; auto; congruence|auto].
Qed.
Lemma put_keys k v d : In k (keys d) -> keys (put k v d) = keys d.
Proof.
  induction d as [|[k' v'] d IH]; cbn; [intros []|]. destruct (String.eqb_spec k k') as [->|N]; [reflexivity|].
  cbn. intros [E|E]; [congruence|]. f_equal. now apply IH.
Qed.
Lemma put_same k v d : lookup k d = Some v -> put k v d = d.
Proof.
  induction d as [|[k' v'] d IH]; cbn; [discriminate|]. destruct (String.eqb_spec k k') as [->|N].
  - intros H. congruence.
  - intros H. now rewrite IH.
Qed.
Lemma put_all_keys new d : (forall k, In k (keys new) -> In k (keys d)) -> keys (put_all new d) = keys d.
Proof.
  unfold put_all. revert d. induction new as [|[k v] new IH]; intros d H; cbn; [reflexivity|].
  rewrite IH; [apply put_keys, H; now left|]. intros k' Hk. rewrite put_keys by (apply H; now left). apply H. now right.
Qed.
Lemma put_all_same new d : (forall kv, In kv new -> lookup (fst kv) d = Some (snd kv)) -> put_all new d = d.
Proof.
  unfold put_all. revert d. induction new as [|[k v] new IH]; intros d H; cbn; [reflexivity|].
  rewrite put_same by (apply (H (k, v)); now left). apply IH. intros kv Hk. apply H. now right.
Qed.
Lemma known_in k : known k = true <-> In k documented.
Proof.
  unfold known. change (keys default_params) with documented. rewrite existsb_exists. split.
  - intros [y [H E]]. apply String.eqb_eq in E. congruence.
  - intros H. exists k. split; auto. apply String.eqb_refl.
Qed.
Lemma check_keys_ok ks : check_keys ks = Ok tt <-> forall k, In k ks -> In k documented.
Proof.
  unfold check_keys. destruct (forallb known ks) eqn:E.
  - rewrite forallb_forall in E. split; auto. intros _ k Hk. apply known_in. auto.
  - split; [discriminate|]. intros H. exfalso. assert (forallb known ks = true) by (apply forallb_forall; intros k Hk; apply known_in; auto). congruence.
Qed.
Lemma check_keys_err ks : check_keys ks = Ok tt \/ check_keys ks = Err KeyError.
Proof. unfold check_keys. destruct (forallb known ks); auto. Qed.

(** Two dictionaries with the documented keys in order are equal iff dict_eqb says so. *)
Lemma lookup_nodup d k v : NoDup (keys d) -> In (k, v) d -> lookup k d = Some v.
Proof.
  induction d as [|[k' v'] d IH]; cbn; [intros _ []|]. intros N H. inversion_clear N as [|? ? N1 N2].
  destruct (String.eqb_spec k k') as [->|E].
  - destruct H as [H|H]; [congruence|]. exfalso. apply N1. apply (in_map fst) in H. exact H.
  - destruct H as [H|H]; [congruence|]. auto.
Qed.
Lemma documented_nodup : NoDup documented.
Proof. repeat constructor; cbn; intuition discriminate. Qed.
Lemma same_keys_eq : forall d1 d2, NoDup (keys d1) -> keys d1 = keys d2 -> (forall k, lookup k d1 = lookup k d2) -> d1 = d2.
Proof.
  induction d1 as [|[k v] d1 IH]; intros [|[k' v'] d2] N E H; cbn in *; try discriminate; auto.
  injection E as E1 E2. subst k'. inversion_clear N as [|? ? N1 N2].
  assert (v = v') by (specialize (H k); rewrite String.eqb_refl in H; congruence). subst v'. f_equal. apply IH; auto.
  intros k'. specialize (H k'). destruct (String.eqb_spec k' k) as [Ek|Nk]; [rewrite Ek in *|exact H].
  assert (lookup k d1 = None) as -> by (destruct (lookup k d1) eqn:F; auto; exfalso; apply N1, lookup_in; eauto).
  destruct (lookup k d2) eqn:F; auto. exfalso. apply N1. change (In k (keys d1)). unfold keys. rewrite E2. apply lookup_in. eauto.
Qed.
Lemma dict_eqb_eq d1 d2 : keys d1 = documented -> keys d2 = documented -> dict_eqb d1 d2 = true -> d1 = d2.
Proof.
  intros K1 K2 H. apply andb_prop in H. destruct H as [_ H]. rewrite forallb_forall in H.
  apply same_keys_eq; [rewrite K1; apply documented_nodup|congruence|].
  intros k. destruct (lookup k d1) as [v|] eqn:E.
  - assert (In (k, v) d1).
    { clear - E. induction d1 as [|[k' v'] d IH]; cbn in *; [discriminate|]. destruct (String.eqb_spec k k') as [->|N]; [left; congruence|right; auto]. }
    specialize (H _ H0). cbn in H. destruct (lookup k d2); [|discriminate]. apply peqb_eq in H. congruence.
  - destruct (lookup k d2) eqn:F; auto. exfalso.
    assert (In k (keys d1)) by (rewrite K1, <- K2; apply lookup_in; eauto). apply lookup_in in H0. destruct H0; congruence.
Qed.
Lemma make_params_keys new d : make_params new = Ok d -> keys d = documented.
Proof.
  unfold make_params. destruct (check_keys_err (keys new)) as [E|E]; rewrite E; cbn; [|discriminate].
  intros H. inversion H. rewrite put_all_keys; [reflexivity|]. now apply check_keys_ok.
Qed.
(** Rebuilding parameters that have exactly the documented keys changes nothing. *)
Lemma lookup_put k k' v d : lookup k (put k' v d) = if String.eqb k k' then Some v else lookup k d.
Proof.
  induction d as [|[k2 v2] d IH]; cbn.
  - destruct (String.eqb k k'); reflexivity.
  - destruct (String.eqb_spec k' k2) as [->|N]; cbn.
    + destruct (String.eqb k k2); reflexivity.
    + rewrite IH. destruct (String.eqb_spec k k2) as [->|N2]; [|reflexivity]. destruct (String.eqb_spec k2 k') as [->|]; congruence.
Qed.
Lemma lookup_put_all k new d : NoDup (keys new) -> lookup k (put_all new d) = match lookup k new with Some v => Some v | None => lookup k d end.
Proof.
  unfold put_all. revert d. induction new as [|[k' v] new IH]; intros d N; cbn; [reflexivity|]. inversion_clear N as [|? ? N1 N2].
  rewrite IH by auto. rewrite lookup_put. destruct (String.eqb_spec k k') as [->|E]; [|reflexivity].
  destruct (lookup k' new) eqn:F; [|reflexivity]. exfalso. apply N1, lookup_in. eauto.
Qed.
Lemma make_params_same d : keys d = documented -> make_params d = Ok d.
Proof.
  intros K. unfold make_params. rewrite (proj2 (check_keys_ok (keys d))) by (intros k; now rewrite K). cbn. f_equal.
  apply same_keys_eq.
  - rewrite put_all_keys; [apply documented_nodup|]. rewrite K. auto.
  - rewrite put_all_keys; [now rewrite K|]. rewrite K. auto.
  - intros k. rewrite lookup_put_all by (rewrite K; apply documented_nodup). destruct (lookup k d) eqn:E; auto.
    destruct (lookup k default_params) eqn:F; auto. exfalso.
    assert (In k (keys d)) by (rewrite K; change documented with (keys default_params); apply lookup_in; eauto).
    apply lookup_in in H. destruct H; congruence.
Qed.

(** ** Methods that preserve an invariant *)
Definition triple (I E : src -> Prop) {A} (m : M A) : Prop :=
  forall s, I s -> match m s with (s', Ok _) => I s' | (s', Err _) => E s' end.
Definition preserves (I : src -> Prop) {A} (m : M A) : Prop := forall s, I s -> I (fst (m s)).
Lemma preserves_triple I {A} (m : M A) : preserves I m <-> triple I I m.
Proof. split; intros H s Hs; specialize (H s Hs); destruct (m s) as [s1 [a|e]]; exact H. Qed.
Section Triple.
  Variables (I E : src -> Prop) (HE : forall s, I s -> E s).
  Lemma t_bind {A B} (m : M A) (f : A -> M B) : triple I E m -> (forall a, triple I E (f a)) -> triple I E (mbind m f).
  Proof. intros H K s Hs. unfold mbind. specialize (H s Hs). destruct (m s) as [s1 [a|e]]; cbn in *; auto. now apply K. Qed.
  Lemma t_self {B} (f : src -> M B) : (forall s0, triple I E (f s0)) -> triple I E (mbind self f).
  Proof. intros H. apply t_bind; [intros s Hs; exact Hs|auto]. Qed.
  Lemma t_lift {A} (r : res A) : triple I E (lift r). Proof. intros s Hs. unfold lift. destruct r; auto. Qed.
  Lemma t_ret {A} (a : A) : triple I E (ret a). Proof. intros s Hs. exact Hs. Qed.
  Lemma t_raise {A} e : triple I E (@raise A e). Proof. intros s Hs. apply HE, Hs. Qed.
  Lemma t_modify f : (forall s, I s -> I (f s)) -> triple I E (modify f). Proof. intros H s Hs. apply H, Hs. Qed.
  Lemma t_if {A} (b : bool) (m1 m2 : M A) : triple I E m1 -> triple I E m2 -> triple I E (if b then m1 else m2).
  Proof. destruct b; auto. Qed.
End Triple.
Lemma preserves_self I {B} (f : src -> M B) : (forall s0, preserves I (f s0)) -> preserves I (mbind self f).
Proof. intros H s Hs. now apply H. Qed.
Lemma preserves_modify (I : src -> Prop) f : (forall s, I s -> I (f s)) -> preserves I (modify f). Proof. intros H s Hs. apply H, Hs. Qed.

(** Invariants that only look at the curve, the flag and the parameters. *)
Definition curve_only (I : src -> Prop) : Prop :=
  forall s s', s_interpolate_sc s = s_interpolate_sc s' -> s_sc s = s_sc s' -> s_params s = s_params s' -> I s -> I s'.
Section CurveOnly.
  Variables (I E : src -> Prop) (HI : curve_only I) (HE : forall s, I s -> E s) (x : ext).
  Hypothesis Hupd : forall new, triple I E (params_update x new).
  Lemma keep f : (forall s, s_interpolate_sc s = s_interpolate_sc (f s) /\ s_sc s = s_sc (f s) /\ s_params s = s_params (f s)) -> triple I E (modify f).
  Proof. intros H. apply t_modify. intros s Hs. destruct (H s) as (A & B & C). now apply (HI s). Qed.
  Ltac keep := apply keep; intros; auto.
  Lemma record_keeps insp v h : triple I E (record_snr insp v h).
  Proof. unfold record_snr. apply t_bind; [keep|intros; keep]. Qed.
  Lemma method_keeps values a which : triple I E (snr_method x values a which).
  Proof.
    unfold snr_method. apply t_self. intros s0. apply t_bind; [apply Hupd|intros _]. apply t_self. intros s1.
    apply t_bind; [apply (t_lift _ _ HE)|intros insp]. apply t_bind; [apply (t_lift _ _ HE)|intros v].
    apply t_bind; [apply record_keeps|intros _]. apply (t_lift _ _ HE).
  Qed.
  Lemma get_snr_source_keeps a n which : triple I E (get_snr_source x a n which).
  Proof.
    unfold get_snr_source. apply t_self. intros s0. apply t_bind; [apply Hupd|intros _]. apply t_self. intros s1.
    do 4 (apply t_bind; [apply (t_lift _ _ HE)|intros ?]).
    apply t_bind; [apply t_if; [apply t_bind; [apply method_keeps|intros; apply t_ret]|apply t_ret]|intros v1].
    apply t_bind; [apply t_if; [apply t_bind; [apply method_keeps|intros; apply t_ret]|apply t_ret]|intros v2].
    apply t_bind; [keep|intros; apply t_ret].
  Qed.
  Lemma get_snr_keeps a n which : triple I E (get_snr x a n which).
  Proof.
    unfold get_snr. apply t_self. intros s0. destruct (s_class s0); try apply get_snr_source_keeps;
    (apply t_bind; [apply method_keeps|intros v; apply t_bind; [keep|intros; apply t_ret]]).
  Qed.
  Lemma merger_time_keeps save which exact : triple I E (get_merger_time x save which exact).
  Proof.
    unfold get_merger_time. apply t_self. intros s0. do 3 (apply t_bind; [apply (t_lift _ _ HE)|intros ?]).
    apply t_bind; [apply t_if; [keep|apply t_ret]|intros; apply (t_lift _ _ HE)].
  Qed.
  Lemma ensure_keeps : triple I E (ensure_t_merge x).
  Proof.
    unfold ensure_t_merge. apply t_self. intros s0. destruct (s_t_merge s0); [apply t_ret|].
    apply t_bind; [apply merger_time_keeps|intros _]. apply t_self. intros s1. destruct (s_t_merge s1); [apply t_ret|apply (t_raise _ _ HE)].
  Qed.
  Lemma evolve_keeps t : triple I E (evolve_sources x t).
  Proof.
    unfold evolve_sources. apply t_bind; [apply ensure_keeps|intros tm]. apply t_self. intros s0.
    apply t_bind; [apply (t_lift _ _ HE)|intros [[mg e] f]]. apply t_bind; [keep|intros _].
    do 2 (apply t_bind; [apply (t_lift _ _ HE)|intros ?]). keep.
  Qed.
  Lemma set_a_keeps a : triple I E (a_setter a).
  Proof.
    unfold a_setter. destruct a; try apply (t_raise _ _ HE); apply t_self; intros s0; apply t_bind; try apply (t_lift _ _ HE); intros; keep.
  Qed.
  Lemma tolerance_keeps tol : triple I E (assign_gw_lum_tol x tol).
  Proof. intros s Hs. unfold assign_gw_lum_tol. destruct (set_gw_lum_tol _ _ _ _) as [h r]. assert (I (set_harm h s)) by now apply (HI s). destruct r; auto. Qed.
  Lemma set_g_keeps b : triple I E (set_g x b).
  Proof. unfold set_g. keep. Qed.
  Lemma other_steps o : match o with SetItem _ _ | Update _ | Assign _ | Ior _ | SetDefault _ _ | Toggle _ | SetSc => False | _ => True end -> triple I E (step x o).
  Proof.
    destruct o; intros Ho; try (exfalso; exact Ho); clear Ho; cbn [step]; unfold discard, params_remove; try (apply t_bind; [|intros; apply t_ret]);
      auto using t_raise, set_g_keeps, tolerance_keeps, set_a_keeps, get_snr_keeps, method_keeps, merger_time_keeps, evolve_keeps.
    - apply method_keeps. - apply method_keeps.
  Qed.
End CurveOnly.
Lemma other_preserves (I : src -> Prop) (HI : curve_only I) x : (forall new, preserves I (params_update x new)) ->
  forall o, match o with SetItem _ _ | Update _ | Assign _ | Ior _ | SetDefault _ _ | Toggle _ | SetSc => False | _ => True end -> preserves I (step x o).
Proof. intros H o Ho. apply preserves_triple, other_steps; auto. intros new. apply preserves_triple, H. Qed.

(** ** C51 *)
Definition six (s : src) : Prop := keys (s_params s) = documented.
Lemma six_only : curve_only six. Proof. intros s s' _ _ E H. unfold six. now rewrite <- E. Qed.
Lemma set_sc_params x s : s_params (fst (set_sc x s)) = s_params s /\ s_interpolate_sc (fst (set_sc x s)) = s_interpolate_sc s.
Proof. unfold set_sc. destruct (s_interpolate_sc s) eqn:E; [destruct (curve_of x (s_params s))|]; cbn; auto. Qed.
Lemma six_set_sc x : preserves six (set_sc x).
Proof. intros s H. unfold six. now rewrite (proj1 (set_sc_params x s)). Qed.
Lemma mbind_self {B} (f : src -> M B) s : mbind self f s = f s s. Proof. reflexivity. Qed.
Lemma mbind_lift {A B} (r : res A) (f : A -> M B) s : mbind (lift r) f s = match r with Ok a => f a s | Err e => (s, Err e) end.
Proof. unfold mbind, lift. destruct r; reflexivity. Qed.
Lemma mbind_modify {B} g (f : unit -> M B) s : mbind (modify g) f s = f tt (g s). Proof. reflexivity. Qed.
Lemma mbind_ret {A B} (a : A) (f : A -> M B) s : mbind (ret a) f s = f a s. Proof. reflexivity. Qed.

Lemma update_cases x new s :
  params_update x new s =
  match check_keys (keys new) with
  | Err e => (s, Err e)
  | Ok _ => let s1 := put_params (put_all new (s_params s)) s in
            if existsb (fun kv => negb (peqb (get_or_none (fst kv) (s_params s)) (snd kv))) new then set_sc x s1 else (s1, Ok tt)
  end.
Proof.
  unfold params_update. rewrite mbind_lift. destruct (check_keys (keys new)); [|reflexivity]. rewrite mbind_self, mbind_modify.
  cbn zeta. destruct (existsb _ new); reflexivity.
Qed.
Lemma setitem_cases x k v s :
  params_setitem x k v s =
  match check_keys [k] with
  | Err e => (s, Err e)
  | Ok _ => let s1 := put_params (put k v (s_params s)) s in
            if negb (peqb (get_or_none k (s_params s)) v) then set_sc x s1 else (s1, Ok tt)
  end.
Proof.
  unfold params_setitem. rewrite mbind_lift. destruct (check_keys [k]); [|reflexivity]. rewrite mbind_self, mbind_modify.
  cbn zeta. destruct (negb _); reflexivity.
Qed.
Lemma assign_cases x new cur s :
  assign_params x new cur s =
  match make_params new with
  | Err e => (s, Err e)
  | Ok d => let s1 := put_params d s in
            if match cur with None => true | Some c => negb (dict_eqb d c) end then set_sc x s1 else (s1, Ok tt)
  end.
Proof.
  unfold assign_params. rewrite mbind_lift. destruct (make_params new); [|reflexivity]. cbn zeta. rewrite mbind_modify.
  destruct (match cur with None => true | Some c => _ end); reflexivity.
Qed.
Lemma six_update x new : preserves six (params_update x new).
Proof.
  intros s H. rewrite update_cases. destruct (check_keys (keys new)) as [[]|e] eqn:E; [|exact H]. cbn zeta.
  assert (six (put_params (put_all new (s_params s)) s)) as H1.
  { unfold six. cbn. rewrite put_all_keys; auto. unfold six in H. rewrite H. now apply check_keys_ok. }
  destruct (existsb _ new); [now apply six_set_sc|exact H1].
Qed.
Lemma six_setitem x k v : preserves six (params_setitem x k v).
Proof.
  intros s H. rewrite setitem_cases. destruct (check_keys [k]) as [[]|e] eqn:E; [|exact H]. cbn zeta.
  assert (six (put_params (put k v (s_params s)) s)) as H1.
  { unfold six. cbn. rewrite put_keys; auto. unfold six in H. rewrite H. apply (proj1 (check_keys_ok [k]) E). now left. }
  destruct (negb _); [now apply six_set_sc|exact H1].
Qed.
Lemma six_assign x new cur : preserves six (assign_params x new cur).
Proof.
  intros s H. rewrite assign_cases. destruct (make_params new) as [d|e] eqn:E; [|exact H]. cbn zeta.
  assert (six (put_params d s)) as H1 by (apply (make_params_keys _ _ E)).
  destruct (match cur with None => true | Some c => _ end); [now apply six_set_sc|exact H1].
Qed.
Lemma six_step x o : keeps_keys o = true -> preserves six (step x o).
Proof.
  destruct o; intros Ho; try discriminate Ho; clear Ho; try (apply (other_preserves six six_only x (six_update x)); exact I).
  - apply six_setitem. - apply six_update. - apply preserves_self. intros s0. apply six_assign.
  - apply preserves_modify. auto. - apply six_set_sc.
Qed.
Lemma run_preserves x (I : src -> Prop) P : (forall o, P o = true -> preserves I (step x o)) -> forall ops s, forallb P ops = true -> I s -> I (fst (run x ops s)).
Proof.
  intros H. induction ops as [|o ops IH]; intros s F Hs; cbn; auto. cbn in F. apply andb_prop in F. destruct F as [F1 F2].
  specialize (H o F1 s Hs). destruct (step x o s) as [s1 r]. cbn in H. specialize (IH s1 F2 H). destruct (run x ops s1). exact IH.
Qed.

(** ** C50 *)
Definition ok50 x (s : src) : Prop := six s /\ tracks x s.
Lemma ok50_only x : curve_only (ok50 x).
Proof. intros s s' E1 E2 E3 [H1 H2]. split; [unfold six; now rewrite <- E3|]. unfold tracks in *. now rewrite <- E1, <- E2, <- E3. Qed.
Lemma set_sc_tracks x s : tracks x (fst (set_sc x s)).
Proof.
  unfold set_sc, tracks. destruct (s_interpolate_sc s) eqn:E; cbn; [|now rewrite E].
  destruct (curve_of x (s_params s)) as [c|e] eqn:F; cbn; rewrite E; intros c'; rewrite F; congruence.
Qed.
Lemma tracks_same x s d : d = s_params s -> tracks x s -> tracks x (put_params d s).
Proof. intros -> H. exact H. Qed.
Lemma lookup_get k d : In k (keys d) -> lookup k d = Some (get_or_none k d).
Proof. intros H. apply lookup_in in H. destruct H as [v H]. unfold get_or_none. now rewrite H. Qed.
Lemma tracks_update x new : preserves (ok50 x) (params_update x new).
Proof.
  intros s [H6 H]. split; [now apply six_update|]. rewrite update_cases. destruct (check_keys (keys new)) as [[]|e] eqn:E; [|exact H]. cbn zeta.
  destruct (existsb _ new) eqn:Ex; [apply set_sc_tracks|]. cbn [fst]. apply tracks_same; auto. apply put_all_same. intros [k v] Hk. cbn.
  rewrite lookup_get.
  - f_equal. apply peqb_eq. destruct (peqb (get_or_none k (s_params s)) v) eqn:P; auto. exfalso.
    assert (existsb (fun kv => negb (peqb (get_or_none (fst kv) (s_params s)) (snd kv))) new = true); [|congruence].
    apply existsb_exists. exists (k, v). split; auto. cbn. now rewrite P.
  - unfold six in H6. rewrite H6. apply (proj1 (check_keys_ok _) E). now apply (in_map fst) in Hk.
Qed.
Lemma tracks_setitem x k v : preserves (ok50 x) (params_setitem x k v).
Proof.
  intros s [H6 H]. split; [now apply six_setitem|]. rewrite setitem_cases. destruct (check_keys [k]) as [[]|e] eqn:E; [|exact H]. cbn zeta.
  destruct (peqb (get_or_none k (s_params s)) v) eqn:P; cbn [negb]; [|apply set_sc_tracks]. cbn [fst]. apply tracks_same; auto. apply put_same.
  apply peqb_eq in P. subst v. apply lookup_get. unfold six in H6. rewrite H6. apply (proj1 (check_keys_ok _) E). now left.
Qed.
Lemma tracks_assign x new s : ok50 x s -> ok50 x (fst (assign_params x new (Some (s_params s)) s)).
Proof.
  intros [H6 H]. split; [now apply six_assign|]. rewrite assign_cases. destruct (make_params new) as [d|e] eqn:E; [|exact H]. cbn zeta.
  destruct (dict_eqb d (s_params s)) eqn:P; cbn [negb]; [|apply set_sc_tracks]. cbn [fst]. apply tracks_same; auto.
  apply dict_eqb_eq; auto. now apply (make_params_keys new).
Qed.
Lemma tracks_step x o : supported o = true -> preserves (ok50 x) (step x o).
Proof.
  destruct o; intros Ho; try discriminate Ho; clear Ho; try (apply (other_preserves _ (ok50_only x) x (tracks_update x)); exact I).
  - apply tracks_setitem. - apply tracks_update. - intros s H. cbn [step]; rewrite mbind_self. now apply tracks_assign.
  - intros s [H6 H]. split; [now apply six_set_sc|apply set_sc_tracks].
Qed.
