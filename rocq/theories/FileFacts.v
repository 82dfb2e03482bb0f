(** FileFacts.v -- lemmas about files: what save writes and load reads (C59-C61). *)
From Coq Require Import String Ascii Reals ZArith List Bool Permutation Lra Lia.
From Verif Require Import Num NumFacts Np NpFacts Utils Strain Psd Snr Evol Harmonics ScParams Source Index SourceSpec IndexSpec History CurveSpec CurveFacts CurveThms InitSpec InitFacts
  MethodSpec FileIO FileSpec.
Import ListNotations.
Open Scope R_scope.


Lemma unit_back k x : 0 < k -> of_unit k (x / Fin k)%num = x.
Proof.
  intros H. unfold of_unit. destruct x as [r| | |]; cbn [ndiv].
  - rewrite (proj2 (Reqb_false k 0)) by lra. cbn. f_equal. field. lra.
  - rewrite (proj2 (Rltb_false k 0)) by lra. cbn. rewrite (proj2 (Rltb_true 0 k)) by lra. reflexivity.
  - rewrite (proj2 (Rltb_false k 0)) by lra. cbn. rewrite (proj2 (Rltb_true 0 k)) by lra. reflexivity.
  - reflexivity.
Qed.
Lemma units_back k l : 0 < k -> map (of_unit k) (map (fun x => (x / Fin k)%num) l) = l.
Proof. intros H. rewrite map_map. erewrite map_ext; [apply map_id|]. intros a. now apply unit_back. Qed.

(** ** What is written *)
Lemma edits_attrs : forall es f, f_attrs (fold_left apply_edit es f) = (f_attrs f ++ flat_map (fun e => match e with EAttr k v => [(k, v)] | _ => [] end) es)%list.
Proof. induction es as [|e es IH]; intros f; cbn [fold_left flat_map]; [now rewrite app_nil_r|]. rewrite IH. destruct e; cbn; now rewrite <- ?app_assoc. Qed.
Lemma edits_dsets : forall es f, f_dsets (fold_left apply_edit es f) = (f_dsets f ++ flat_map (fun e => match e with EDset k v => [(k, v)] | _ => [] end) es)%list.
Proof. induction es as [|e es IH]; intros f; cbn [fold_left flat_map]; [now rewrite app_nil_r|]. rewrite IH. destruct e; cbn; now rewrite <- ?app_assoc. Qed.
Lemma edits_sc : forall es f l, f_sc f = Some l -> ~ In EGroup es ->
  f_sc (fold_left apply_edit es f) = Some (l ++ flat_map (fun e => match e with ESc k v => [(k, v)] | _ => [] end) es)%list.
Proof.
  induction es as [|e es IH]; intros f l H N; cbn [fold_left flat_map]; [now rewrite app_nil_r|].
  assert (N' : ~ In EGroup es) by (intros C; apply N; now right). destruct e; cbn [apply_edit app].
  - now apply IH.
  - now apply IH.
  - exfalso. apply N. now left.
  - rewrite (IH _ (l ++ [(k, v)])%list); [now rewrite <- app_assoc| |exact N']. cbn. now rewrite H.
Qed.
(** The attributes of the group for the parameters [d]. *)
Definition sc_attr (w : io) (kv : string * pval) : list (string * attr) :=
  let (k, v) := kv in
  match v with
  | PFun _ => []
  | PNil => [(k, AStr "__none__")]
  | PVal x => [(k, ANum (in_unit w (io_unit w k) x)); ((k ++ "_unit")%string, AStr (io_unit w k))]
  | PStr t => [(k, AStr t)]
  | PBool b => [(k, ABool b)]
  end.
Lemma flat_map_flat_map {A B C} (f : A -> list B) (g : B -> list C) : forall l, flat_map g (flat_map f l) = flat_map (fun a => flat_map g (f a)) l.
Proof. induction l as [|a l IH]; auto. cbn. now rewrite flat_map_app, IH. Qed.
Lemma attr_only w s : flat_map (fun e => match e with EAttr k v => [(k, v)] | _ => [] end) (dset_edits w s ++ EGroup :: flat_map (sc_edit w) (s_params s)) = [].
Proof.
  rewrite flat_map_app. cbn [flat_map app]. rewrite flat_map_flat_map. replace (flat_map _ (dset_edits w s)) with (@nil (string * attr)).
  - cbn [app]. induction (s_params s) as [|[k v] d IH]; auto. cbn [flat_map]. rewrite IH, app_nil_r. destruct v; reflexivity.
  - unfold dset_edits. rewrite !flat_map_app. destruct (s_weights s), (s_inclination s), (s_polarisation s), (s_position s), (s_t_merge s), (s_snr s), (s_max_snr_harmonic s); reflexivity.
Qed.
Lemma written_all w s : written w s (length (save_edits w s)) = fold_left apply_edit (save_edits w s) empty_file.
Proof. unfold written. now rewrite firstn_all. Qed.
Definition full_attrs w s : list (string * attr) := flat_map (fun e => match e with EAttr k v => [(k, v)] | _ => [] end) (attr_edits w s).
Definition full_dsets w s : list (string * dset) := flat_map (fun e => match e with EDset k v => [(k, v)] | _ => [] end) (dset_edits w s).
Lemma file_written w s : written w s (length (save_edits w s)) = mkH5 (full_attrs w s) (full_dsets w s) (Some (flat_map (sc_attr w) (s_params s))).
Proof.
  rewrite written_all. pose proof (edits_attrs (save_edits w s) empty_file) as A. pose proof (edits_dsets (save_edits w s) empty_file) as D.
  assert (S : f_sc (fold_left apply_edit (save_edits w s) empty_file) = Some (flat_map (sc_attr w) (s_params s))).
  { unfold save_edits. rewrite !fold_left_app. cbn [fold_left].
    rewrite (edits_sc (flat_map (sc_edit w) (s_params s)) _ []); [|reflexivity|].
    - cbn [app]. f_equal. rewrite flat_map_flat_map. apply flat_map_ext. intros [k v]. destruct v; reflexivity.
    - intros C. apply in_flat_map in C. destruct C as ([k v] & _ & C). destruct v; cbn in C; intuition discriminate. }
  destruct (fold_left apply_edit (save_edits w s) empty_file) as [fa fd fs]. cbn [f_attrs f_dsets f_sc empty_file app] in *. rewrite S. f_equal.
  - rewrite A. unfold save_edits. rewrite flat_map_app, attr_only, app_nil_r. reflexivity.
  - rewrite D. unfold save_edits. rewrite !flat_map_app. cbn [flat_map]. rewrite flat_map_flat_map.
    replace (flat_map (fun a => flat_map _ (sc_edit w a)) (s_params s)) with (@nil (string * dset)).
    + now rewrite !app_nil_r.
    + clear. induction (s_params s) as [|[k v] d IH]; auto. cbn [flat_map]. rewrite <- IH, app_nil_r. destruct v; reflexivity.
Qed.

(** ** Parameters *)
Lemma find_app {A} k (l1 l2 : list (string * A)) : find k (l1 ++ l2)%list = match find k l1 with Some v => Some v | None => find k l2 end.
Proof. induction l1 as [|[k' v] l1 IH]; auto. cbn [app find]. destruct (String.eqb k k'); auto. Qed.
Lemma doc_plain k : In k documented -> ends_with "_unit" k = false /\ ends_with "_unit" (k ++ "_unit")%string = true.
Proof. intros H. cbn in H. repeat (destruct H as [<-|H]; [split; reflexivity|]). destruct H. Qed.
Lemma doc_unit k k' : In k documented -> In k' documented ->
  String.eqb (k ++ "_unit")%string k' = false /\ (String.eqb (k ++ "_unit")%string (k' ++ "_unit")%string = String.eqb k k').
Proof. intros H H'. cbn in H, H'. repeat (destruct H as [<-|H]; [repeat (destruct H' as [<-|H']; [split; reflexivity|]); destruct H'|]). destruct H. Qed.
(** The attribute with the unit of [k] is there for a Quantity only. *)
Lemma find_unit w : forall d k, (forall k', In k' (keys d) -> In k' documented) -> NoDup (keys d) -> In k documented ->
  find (k ++ "_unit")%string (flat_map (sc_attr w) d) = match lookup k d with Some (PVal _) => Some (AStr (io_unit w k)) | _ => None end.
Proof.
  induction d as [|[k' v] d IH]; intros k H ND Hk; [reflexivity|]. cbn [flat_map lookup]. rewrite find_app.
  destruct (doc_unit k k' Hk (H k' (or_introl eq_refl))) as [E1 E2]. inversion ND as [|? ? N1 N2]; subst.
  assert (IH' : find (k ++ "_unit")%string (flat_map (sc_attr w) d) = match lookup k d with Some (PVal _) => Some (AStr (io_unit w k)) | _ => None end).
  { apply IH; auto. intros; apply H; now right. }
  destruct (String.eqb k k') eqn:E.
  - apply String.eqb_eq in E. subst k'. assert (L : lookup k d = None) by (destruct (lookup k d) eqn:L; auto; exfalso; apply N1; apply lookup_in; eauto).
    rewrite L in IH'. destruct v; cbn [sc_attr find]; rewrite ?E1, ?E2; auto.
  - destruct v; cbn [sc_attr find]; rewrite ?E1, ?E2; exact IH'.
Qed.
(** What one attribute of the group contributes. *)
Definition param_of (w : io) (d : dict) (e : string * attr) : dict :=
  if ends_with "_unit" (fst e) then [] else match lookup (fst e) d with Some v => [(fst e, v)] | None => [] end.
Lemma read_one w d e : units_parse w -> ordinary d -> keys d = documented -> In e (flat_map (sc_attr w) d) ->
  read_param w (flat_map (sc_attr w) d) e = Ok (param_of w d e).
Proof.
  intros U O K H. pose proof documented_nodup as ND. rewrite <- K in ND. assert (KD : forall k, In k (keys d) -> In k documented) by (rewrite K; auto).
  apply in_flat_map in H. destruct H as ([k v] & I & H). pose proof (lookup_nodup d k v ND I) as L.
  assert (Hk : In k documented) by (apply (in_map fst) in I; exact (KD _ I)).
  pose proof (find_unit w d k KD ND Hk) as F. rewrite L in F. destruct (doc_plain k Hk) as [P1 P2].
  destruct v; cbn [sc_attr] in H.
  - destruct H as [<-|[]]. unfold read_param, param_of. cbn [fst]. rewrite P1, F, L. destruct (String.eqb s "__none__") eqn:E; auto.
    apply String.eqb_eq in E. subst. exfalso. exact (O k I).
  - destruct H as [<-|[]]. unfold read_param, param_of. cbn [fst]. now rewrite P1, L.
  - destruct H as [<-|[]]. unfold read_param, param_of. cbn [fst]. now rewrite P1, F, L.
  - destruct (U k) as (r & R & R0). destruct H as [<-|[<-|[]]]; unfold read_param, param_of; cbn [fst].
    + rewrite P1, F, L. unfold size_of. rewrite R. cbn [rbind]. unfold in_unit. rewrite R, unit_back by auto. reflexivity.
    + now rewrite P2.
  - destruct H.
Qed.
Lemma mapM_ok {A B} (f : A -> res B) g : forall l, (forall a, In a l -> f a = Ok (g a)) -> mapM f l = Ok (map g l).
Proof. induction l as [|a l IH]; intros H; auto. cbn. rewrite (H a (or_introl eq_refl)). cbn. rewrite IH; auto. intros; apply H; now right. Qed.
Definition plain (d : dict) : dict := filter (fun kv => match snd kv with PFun _ => false | _ => true end) d.
Lemma params_of_attrs w d : forall d', keys d = documented -> (forall kv, In kv d' -> In kv d) -> flat_map (param_of w d) (flat_map (sc_attr w) d') = plain d'.
Proof.
  intros d' K. pose proof documented_nodup as ND. rewrite <- K in ND.
  induction d' as [|[k v] d' IH]; intros S; auto. cbn [flat_map plain filter snd]. rewrite flat_map_app, IH by (intros; apply S; now right).
  pose proof (S _ (or_introl eq_refl)) as I. pose proof (lookup_nodup d k v ND I) as L.
  assert (Hk : In k documented) by (rewrite <- K; apply (in_map fst) in I; exact I). destruct (doc_plain k Hk) as [P1 P2].
  destruct v; cbn [sc_attr flat_map]; unfold param_of; cbn [fst]; rewrite ?P1, ?P2, ?L; reflexivity.
Qed.
Lemma put_fresh k v d : ~ In k (keys d) -> put k v d = (d ++ [(k, v)])%list.
Proof.
  induction d as [|[k' v'] d IH]; intros H; auto. cbn [put]. destruct (String.eqb k k') eqn:E.
  - apply String.eqb_eq in E. subst. exfalso. apply H. now left.
  - rewrite IH; auto. intros C. apply H. now right.
Qed.
Lemma rebuild : forall l d, NoDup (keys d ++ keys l)%list -> fold_left (fun d kv => put (fst kv) (snd kv) d) l d = (d ++ l)%list.
Proof.
  induction l as [|[k v] l IH]; intros d H; [now rewrite app_nil_r|]. cbn [fold_left fst snd].
  rewrite put_fresh.
  - rewrite IH; [now rewrite <- app_assoc|]. unfold keys in *. rewrite map_app, <- app_assoc. exact H.
  - cbn [keys map fst] in H. apply NoDup_remove_2 in H. intros C. apply H. apply in_or_app. now left.
Qed.
Lemma keys_plain d : NoDup (keys d) -> NoDup (keys (plain d)).
Proof.
  induction d as [|[k v] d IH]; intros H; auto. inversion H as [|? ? N1 N2]; subst. cbn [plain filter snd]. assert (I : ~ In k (keys (plain d))).
  { intros C. apply N1. unfold keys, plain in *. apply in_map_iff in C. destruct C as (kv & <- & C). apply filter_In in C. apply in_map, C. }
  destruct v; cbn [keys map fst]; try constructor; auto.
Qed.
(** The parameters read are those saved, functions left out, in some order. *)
Lemma params_read w d : units_parse w -> lists_attributes w -> ordinary d -> keys d = documented ->
  exists d', read_params w (flat_map (sc_attr w) d) = Ok d' /\ Permutation d' (plain d).
Proof.
  intros U LA O K. unfold read_params. set (S := flat_map (sc_attr w) d).
  assert (P : Permutation (flat_map (param_of w d) (io_order w S)) (plain d)).
  { rewrite <- (params_of_attrs w d d K (fun kv H => H)). apply Permutation_flat_map, LA. }
  rewrite (mapM_ok _ (param_of w d)).
  - cbn [rbind]. rewrite <- flat_map_concat_map. exists (flat_map (param_of w d) (io_order w S)). split; auto. rewrite rebuild; auto. cbn [keys map app].
    apply (Permutation_NoDup (l := keys (plain d))); [apply Permutation_sym, Permutation_map, P|]. apply keys_plain. rewrite K. apply documented_nodup.
  - intros e He. apply read_one; auto. apply (Permutation_in _ (LA S)), He.
Qed.
Lemma lookup_plain k d : NoDup (keys d) -> lookup k (plain d) = match lookup k d with Some (PFun _) => None | o => o end.
Proof.
  induction d as [|[k' v] d IH]; intros H; auto. inversion H as [|? ? N1 N2]; subst. cbn [plain filter snd lookup]. specialize (IH N2).
  destruct (String.eqb k k') eqn:E.
  - destruct v; cbn [lookup]; rewrite ?E; auto. apply String.eqb_eq in E. subst. fold (plain d). rewrite IH.
    destruct (lookup k' d) eqn:L; auto. exfalso. apply N1. apply lookup_in. eauto.
  - destruct v; cbn [lookup]; rewrite ?E; exact IH.
Qed.
Lemma lookup_perm k d d' : NoDup (keys d) -> Permutation d' d -> lookup k d' = lookup k d.
Proof.
  intros ND P. assert (ND' : NoDup (keys d')) by (eapply Permutation_NoDup; [apply Permutation_map, Permutation_sym, P|exact ND]).
  destruct (lookup k d) as [v|] eqn:L.
  - apply lookup_nodup; auto. apply (Permutation_in _ (Permutation_sym P)). clear - L. induction d as [|[k' v'] d IH]; [discriminate|]. cbn in L.
    destruct (String.eqb k k') eqn:E; [|right; auto]. apply String.eqb_eq in E. injection L as <-. subst. now left.
  - destruct (lookup k d') as [v|] eqn:L'; auto. exfalso. assert (In k (keys d)).
    { apply (Permutation_in _ (Permutation_map fst P)). apply lookup_in. eauto. }
    apply lookup_in in H. destruct H as (v' & H). congruence.
Qed.
Lemma lookup_map k (f : string -> pval -> pval) d : lookup k (map (fun kv => (fst kv, f (fst kv) (snd kv))) d) = option_map (f k) (lookup k d).
Proof.
  induction d as [|[k' v] d IH]; auto. cbn [map lookup fst snd]. destruct (String.eqb k k') eqn:E; auto. apply String.eqb_eq in E. now subst.
Qed.
Definition drop (k : string) (v : pval) : pval := match v with PFun _ => default_of k | v => v end.
Lemma without_eq d : without_functions d = map (fun kv => (fst kv, drop (fst kv) (snd kv))) d.
Proof. apply map_ext. intros [k v]. destruct v; reflexivity. Qed.
Lemma params_rebuilt d d' : keys d = documented -> Permutation d' (plain d) -> make_params d' = Ok (without_functions d).
Proof.
  intros K P. pose proof documented_nodup as ND. rewrite <- K in ND.
  assert (KP : NoDup (keys (plain d))) by now apply keys_plain.
  assert (ND' : NoDup (keys d')) by (eapply Permutation_NoDup; [apply Permutation_map, Permutation_sym, P|exact KP]).
  assert (S : forall k, In k (keys d') -> In k documented).
  { intros k H. apply (Permutation_in _ (Permutation_map fst P)) in H. rewrite <- K. unfold plain in H. apply in_map_iff in H. destruct H as (kv & <- & H).
    apply filter_In in H. apply in_map, H. }
  unfold make_params. rewrite (proj2 (check_keys_ok (keys d')) S). cbn [rbind]. f_equal.
  assert (KK : keys (put_all d' default_params) = documented) by (rewrite put_all_keys; auto).
  apply same_keys_eq.
  - rewrite KK. apply documented_nodup.
  - rewrite KK. unfold without_functions, keys. rewrite map_map. cbn. symmetry. exact K.
  - intros k. rewrite lookup_put_all by auto. rewrite (lookup_perm k (plain d)) by auto. rewrite lookup_plain by auto.
    rewrite without_eq, (lookup_map k drop).
    destruct (lookup k d) as [v|] eqn:L.
    + assert (Hk : In k documented) by (rewrite <- K; apply lookup_in; eauto). destruct v; cbn; auto. now apply default_lookup.
    + cbn. destruct (lookup k default_params) eqn:L'; auto. exfalso. assert (Hk : In k (keys d)) by (rewrite K; change documented with (keys default_params); apply lookup_in; eauto).
      apply lookup_in in Hk. destruct Hk. congruence.
Qed.
