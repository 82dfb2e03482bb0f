(** UnitsSourceParams.v -- sensitivity curve parameters with quantities against SI values. *)
From Coq Require Import String Reals ZArith List Bool Lra Lia.
From Verif Require Import Num NumFacts Np NpFacts Utils Strain Psd Evol Snr Interp Harmonics ScParams Source History Units UnitsSpec UnitsFacts UnitsThms
  UnitsStrain UnitsEvol UnitsEvolSpec UnitsEvolFacts UnitsPsd UnitsPsdSpec UnitsPsdFacts UnitsPsdThms UnitsSnr UnitsSnrSpec UnitsSnrFacts UnitsSnrThms
  UnitsSource UnitsSourceSpec.
Import ListNotations.
Open Scope list_scope.
Open Scope R_scope.
Open Scope res_scope.
Open Scope string_scope.

Lemma as_some d v x : d <> dimensionless -> is_ d x v -> exists u, unit_for d u /\ v = in_unit u x.
Proof.
  intros N I. exists (unit_of v). split; [destruct I as (P & D & _); now split|].
  apply (as_in_unit d); [exact I|exact (not_plain _ _ _ N I)|reflexivity].
Qed.

(** *** The dictionary *)
Lemma veqb_si d v w x y : d <> dimensionless -> is_ d x v -> is_ d y w -> veqb v w = neqb x y.
Proof. intros N V W. unfold veqb. now rewrite (compare_scale neqb eq_scale v w d x y V W N). Qed.
Lemma peqb_si k v w x y : same_pval k v x -> same_pval k w y -> peqb_q v w = peqb x y.
Proof.
  destruct v, x; cbn; try contradiction; destruct w, y; cbn; try contradiction; intros; subst; auto.
  destruct H as [(K & H)|(K & H)], H0 as [(K' & H0)|(K' & H0)]; try (rewrite K in K'; discriminate);
    [apply (veqb_si time_dim)|apply (veqb_si length_dim)]; auto with units.
Qed.
Lemma lookup_si k dq d : same_params dq d -> opt_rel (same_pval k) (lookup_q k dq) (lookup k d).
Proof.
  intros F. induction F as [|[a v] [b x] dq d (E & H) F IH]; cbn in *; [exact Logic.I|]. subst a.
  destruct (String.eqb k b) eqn:K; [|exact IH]. apply String.eqb_eq in K. now subst b.
Qed.
Lemma put_si k v x dq d : same_pval k v x -> same_params dq d -> same_params (put_q k v dq) (put k x d).
Proof.
  intros V F. induction F as [|[a w] [b y] dq d (E & H) F IH]; cbn in *; [constructor; [now split|constructor]|]. subst a.
  destruct (String.eqb k b) eqn:K.
  - constructor; [|exact F]. apply String.eqb_eq in K. subst b. now split.
  - constructor; [now split|exact IH].
Qed.
Lemma put_all_si nq n dq d : same_params nq n -> same_params dq d -> same_params (put_all_q nq dq) (put_all n d).
Proof.
  intros N. unfold put_all_q, put_all. revert dq d. induction N as [|[a v] [b x] nq n (E & H) N IH]; intros dq d F; [exact F|].
  cbn in *. subst a. apply IH. now apply put_si.
Qed.
Lemma keys_si dq d : same_params dq d -> keys_q dq = keys d.
Proof. intros F. unfold keys_q, keys. induction F as [|[a v] [b x] dq d (E & H) F IH]; cbn in *; congruence. Qed.
Lemma get_or_none_si k dq d : same_params dq d -> same_pval k (get_or_none_q k dq) (get_or_none k d).
Proof.
  intros F. unfold get_or_none_q, get_or_none. pose proof (lookup_si k _ _ F) as L.
  destruct (lookup_q k dq), (lookup k d); cbn in L; try contradiction; [exact L|exact Logic.I].
Qed.
Lemma default_si : same_params default_params_q default_params.
Proof. repeat constructor. Qed.
Lemma param_si k dq d : same_params dq d -> same_pval k (param_q k dq) (param k d).
Proof.
  intros F. unfold param_q, param. pose proof (lookup_si k _ _ F) as L.
  destruct (lookup_q k dq), (lookup k d); cbn in L; try contradiction; [exact L|exact (get_or_none_si k _ _ default_si)].
Qed.
Lemma same_params_length dq d : same_params dq d -> length dq = length d.
Proof. apply rel_length. Qed.
Lemma dict_eqb_si aq a bq b : same_params aq a -> same_params bq b -> dict_eqb_q aq bq = dict_eqb a b.
Proof.
  intros A B. unfold dict_eqb_q, dict_eqb. rewrite (same_params_length _ _ A), (same_params_length _ _ B). f_equal.
  induction A as [|[k v] [l x] aq a (E & H) A IH]; [reflexivity|]. cbn in E. subst k. cbn [forallb fst snd] in *. rewrite IH. f_equal.
  pose proof (lookup_si l _ _ B) as L. destruct (lookup_q l bq), (lookup l b); cbn in L; try contradiction; [|reflexivity].
  eapply peqb_si; eassumption.
Qed.
Lemma make_params_si dq d : same_params dq d -> res_rel same_params (make_params_q dq) (make_params d).
Proof.
  intros F. unfold make_params_q, make_params. rewrite (keys_si _ _ F). destruct (check_keys (keys d)); cbn; [|reflexivity].
  apply put_all_si; [exact F|exact default_si].
Qed.

(** *** What the values mean *)
Lemma name_si k v x : same_pval k v x -> name_of_q v = name_of x.
Proof. destruct v, x; cbn; try contradiction; auto. Qed.
Lemma truthy_si k v x : same_pval k v x -> truthy_q v = truthy x.
Proof.
  destruct v, x; cbn; try contradiction; intros; subst; auto. f_equal.
  assert (Z : forall v x, 0 < u_size (unit_of v) -> si v = x -> neqb (mag v) (Fin 0) = neqb x (Fin 0)).
  { intros w y P <-. unfold si. rewrite <- (eq_scale (mag w) (Fin 0) _ P). f_equal. cbn. f_equal. ring. }
  destruct H as [(_ & P & _ & H)|(_ & P & _ & H)]; now apply Z.
Qed.
Lemma quantity_si k d v x : k <> (if dim_eqb d time_dim then "L" else "t_obs") -> (d = time_dim \/ d = length_dim) ->
  same_pval k v x -> res_rel (auto_is d) (quantity_of_q v) (quantity_of x).
Proof.
  intros K D. destruct v, x; cbn; try contradiction; auto.
  - intros <-. destruct (String.eqb s "auto"); cbn; auto.
  - assert (N : dim_eqb length_dim time_dim = false) by (apply dim_eqb_neq; intros E; injection E; lra).
    destruct D as [-> | ->]; [rewrite dim_eqb_refl in K|rewrite N in K]; intros [(L & H)|(L & H)]; try contradiction; exact H.
Qed.
Lemma conf_si X y k v x : same_world X y -> same_pval k v x -> k <> "t_obs" -> k <> "L" -> same_noise (conf_of_q X v) (conf_of y x).
Proof.
  intros (_ & _ & W) H K K'. destruct v, x; cbn in H; try contradiction; subst; try exact (eq_refl _); try exact Logic.I.
  apply W.
Qed.
Lemma custom_si X y k v x : same_world X y -> same_pval k v x -> same_custom (custom_of_q X v) (custom_of y x).
Proof.
  intros (_ & W & _) H. destruct v, x; cbn in H; try contradiction; subst; try exact Logic.I.
  cbn. intros fq f Lq L tq t a c c' F HL HT N. rewrite (W _ _ _ _ _ _ _ a _ _ F HL HT N).
  destruct (x_psd_fun y _ f L t a c') as [l|e]; cbn; [|reflexivity]. exists (u_size per_hertz). unfold powers.
  induction l as [|z l IH]; constructor; [|exact IH]. split; [exact (isv_in time_dim per_hertz z unit_per_hertz)|reflexivity].
Qed.
Lemma kw_si X y dq d : same_world X y -> same_params dq d -> res_rel same_settings (kw_of_q X dq) (kw_of y d).
Proof.
  intros W F. unfold kw_of_q, kw_of.
  assert (Q : res_rel (auto_is length_dim) (quantity_of_q (param_q "L" dq)) (quantity_of (param "L" d))).
  { apply (quantity_si "L"); [|now right|now apply param_si].
    rewrite dim_eqb_neq; [discriminate|]. intros E. injection E. lra. }
  destruct (quantity_of_q _) as [l|e], (quantity_of _) as [l'|e']; cbn in Q; try contradiction; cbn; [|exact Q].
  split; [apply (name_si "instrument"); now apply param_si|]. split; [apply (custom_si X y "custom_psd" _ _ W); now apply param_si|].
  split; [exact Q|]. split; [apply (truthy_si "approximate_R"); now apply param_si|].
  apply (conf_si X y "confusion_noise" _ _ W); [now apply param_si|discriminate|discriminate].
Qed.

(** *** The curve *)
Lemma psd_any X y fq f i k c tq t Lq L a n n' : same_world X y -> all_is frequency_dim fq f -> auto_is time_dim tq t -> auto_is length_dim Lq L ->
  same_noise n n' -> same_pval k c i -> forall instrument,
  power_spectral_density_q (x_psd (x_si X)) fq instrument (custom_of_q X c) tq Lq a n =
  rmap (map (in_unit per_hertz)) (power_spectral_density (x_psd y) f instrument (custom_of y i) t L a n').
Proof.
  intros (E & W & _) F T HL N C instrument. destruct (String.eqb instrument "custom") eqn:I.
  - apply String.eqb_eq in I. subst instrument. unfold power_spectral_density_q, power_spectral_density. cbn [String.eqb Ascii.eqb Bool.eqb].
    destruct c, i; cbn in C; try contradiction; try reflexivity. subst. cbn [custom_of_q custom_of]. now apply W.
  - apply String.eqb_neq in I. rewrite E. now apply psd_si.
Qed.
Lemma psd_of_si X y dq d f : same_world X y -> same_params dq d ->
  psd_of_q X dq (times_hertz f) = rmap (map (in_unit per_hertz)) (psd_of y d f).
Proof.
  intros W F. unfold psd_of_q, psd_of. rewrite (keys_si _ _ F). destruct (forallb known (keys d)); cbn [negb]; [|reflexivity].
  assert (Q : res_rel (auto_is time_dim) (quantity_of_q (param_q "t_obs" dq)) (quantity_of (param "t_obs" d))).
  { apply (quantity_si "t_obs"); [|now left|now apply param_si]. rewrite dim_eqb_refl. discriminate. }
  destruct (quantity_of_q (param_q "t_obs" dq)) as [l|e], (quantity_of (param "t_obs" d)) as [l'|e']; cbn in Q; try contradiction; cbn [rbind];
    [|now subst].
  pose proof (kw_si X y dq d W F) as K. unfold kw_of_q, kw_of in *.
  destruct (quantity_of_q (param_q "L" dq)) as [L|e], (quantity_of (param "L" d)) as [L'|e']; cbn in K; try contradiction; cbn [rbind];
    [|now subst].
  destruct K as (Ki & _ & KL & Ka & Kc). cbn in *. rewrite Ki, Ka. eapply psd_any; eauto using times_hertz_is. now apply (param_si "custom_psd").
Qed.
Lemma mag_per_hertz l : map mag (map (in_unit per_hertz) l) = l.
Proof. rewrite map_map. rewrite <- (map_id l) at 2. apply map_ext. intros x. now rewrite in_per_hertz. Qed.
Lemma curve_si X y dq d : same_world X y -> same_params dq d -> curve_of_q X dq = rmap source_curve_q (curve_of y d).
Proof.
  intros W F. unfold curve_of_q, curve_of. rewrite (psd_of_si X y dq d _ W F).
  destruct (psd_of y d curve_grid) as [l|e]; cbn [rmap rbind]; [|reflexivity].
  rewrite map_length, mag_per_hertz. destruct (length l =? length curve_grid)%nat; reflexivity.
Qed.
