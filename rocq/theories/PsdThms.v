(** PsdThms.v -- the property-level consequences of PsdFacts.v. *)
From Coq Require Import String Reals ZArith List Bool Lra Lia.
From Verif Require Import Num NumFacts Np NpFacts ArgFacts Psd PsdSpec PsdFacts.
Import ListNotations.
Open Scope R_scope.

(** C34 *)
Lemma lisa_band w c t L ap : builtin c t -> 0 < t -> 0 < L -> response_ok w L ap ->
  exists p : num -> num, (forall fs, lisa_psd w fs (Fin t) (Fin L) ap c = Ok (map p fs)) /\
    (forall x, p x = PInf <-> outside 1e-7 2 x) /\ (forall f, 1e-7 <= f <= 2 -> exists v, p (Fin f) = Fin v /\ 0 < v).
Proof.
  intros Hc Ht HL HR. destruct (lisa_map w c t L ap Hc Ht HL HR) as [p [A [B C]]]. exists p. split; auto.
  assert (D : forall f, 1e-7 <= f <= 2 -> exists v, p (Fin f) = Fin v /\ 0 < v).
  { intros f Hf. destruct (C f Hf) as [v [r [_ [E2 [_ [E3 E4]]]]]]. destruct (lisa_noise_fin L r f HL E3 ltac:(lra)) as [_ P].
    eexists. split; eauto. lra. }
  split; auto. intros x. split; auto. intros E. destruct (outside_dec 1e-7 2 x) as [O|[f [-> Hf]]]; auto.
  destruct (D f Hf) as [v [V _]]. congruence.
Qed.
Lemma decigo_band c t lo hi : builtin c t -> 0 < t -> 1e-8 < lo ->
  exists p : num -> num, (forall fs, decigo_psd fs (Fin t) c (Fin lo) (Fin hi) = Ok (map p fs)) /\
    (forall x, p x = PInf <-> outside lo hi x) /\ (forall f, lo <= f <= hi -> exists v, p (Fin f) = Fin v /\ 0 < v).
Proof.
  intros Hc Ht HL. destruct (decigo_map c t lo hi Hc Ht HL) as [p [A [B C]]]. exists p. split; auto.
  assert (D : forall f, lo <= f <= hi -> exists v, p (Fin f) = Fin v /\ 0 < v).
  { intros f Hf. destruct (C f Hf) as [v [_ [E2 E4]]]. destruct (decigo_noise_fin f ltac:(lra)) as [_ P].
    eexists. split; eauto. lra. }
  split; auto. intros x. split; auto. intros E. destruct (outside_dec lo hi x) as [O|[f [-> Hf]]]; auto.
  destruct (D f Hf) as [v [V _]]. congruence.
Qed.
Lemma tianqin_band c t L : builtin c t -> 0 < t -> 0 < L ->
  exists p : num -> num, (forall fs, tianqin_psd fs (Fin t) (Fin L) c = Ok (map p fs)) /\
    (forall f, 0 < f -> exists v, p (Fin f) = Fin v /\ 0 < v).
Proof.
  intros Hc Ht HL. destruct (tianqin_map c t L Hc Ht HL) as [p [A C]]. exists p. split; auto.
  intros f Hf. destruct (C f Hf) as [v [_ [E2 E4]]]. destruct (tianqin_noise_fin L f HL ltac:(lra)) as [_ P].
  eexists. split; eauto. lra.
Qed.

(** C35 *)
Lemma confusion_nonneg m t fs : builtin (conf_of m) t -> 0 < t -> List.Forall (fun f => 0 < f) fs ->
  exists vs, get_confusion_noise (map Fin fs) m (Given (Fin t)) = Ok (map Fin vs) /\
    Forall2 (fun f v => 0 <= v /\ published_confusion (conf_of m) t f v) fs vs.
Proof.
  intros Hc Ht Hf. destruct (confusion_map (conf_of m) t Hc Ht) as [g [E G]].
  assert (E' : get_confusion_noise (map Fin fs) m (Given (Fin t)) = Ok (map g (map Fin fs))).
  { specialize (E Bare (map Fin fs)). destruct m; exact E. }
  rewrite E'. clear E E'. assert (exists vs, map g (map Fin fs) = map Fin vs /\ Forall2 (fun f v => 0 <= v /\ published_confusion (conf_of m) t f v) fs vs) as [vs [A B]].
  { induction Hf as [|f fs P H IH]; [exists []; split; auto|]. destruct IH as [vs [A B]]. destruct (G f P) as [v [V1 [V2 V3]]].
    exists (v :: vs). cbn. rewrite A, V1. split; auto. }
  rewrite A. eauto.
Qed.
Lemma none_zero f t : get_confusion_noise f None t = Ok (map (fun _ => Fin 0) f).
Proof. reflexivity. Qed.
Lemma huang_zero x t : nlt x (Fin 1e-4) = true \/ nlt (Fin 1) x = true ->
  get_confusion_noise [x] (Some "huang20"%string) t = Ok [Fin 0].
Proof.
  intros H. cbn. unfold huang20_elem, huang20_root. cbv zeta. unfold ngt.
  replace (nlt x (Fin 1e-4) || nlt (Fin 1) x)%bool with true by (destruct H as [-> | ->]; auto using orb_true_r).
  cbn [npowi Z.leb Z.compare]. do 3 f_equal. change (Z.to_nat 2) with 2%nat. ring.
Qed.
Lemma added_lisa w c t L ap : builtin c t -> 0 < t -> 0 < L -> response_ok w L ap ->
  exists p p0 : num -> num,
    (forall fs, lisa_psd w fs (Fin t) (Fin L) ap c = Ok (map p fs) /\ lisa_psd w fs (Fin t) (Fin L) ap CNone = Ok (map p0 fs)) /\
    (forall x, nle (p0 x) (p x) = true) /\
    (forall f, 1e-7 <= f <= 2 -> exists v, published_confusion c t f v /\ p (Fin f) = nadd (p0 (Fin f)) (Fin v)).
Proof.
  intros Hc Ht HL HR. destruct (lisa_map w c t L ap Hc Ht HL HR) as [p [A [B C]]].
  destruct (lisa_map w CNone t L ap ltac:(now left) Ht HL HR) as [q [A' [B' C']]].
  exists p, q. split; [auto|].
  assert (K : forall f, 1e-7 <= f <= 2 -> exists v, published_confusion c t f v /\ 0 <= v /\ exists y, q (Fin f) = Fin y /\ p (Fin f) = Fin (y + v)).
  { intros f Hf. destruct (C f Hf) as [v [r [E1 [E2 [E3 [E4 E5]]]]]]. destruct (C' f Hf) as [v' [r' [F1 [F2 [F3 [F4 F5]]]]]].
    assert (r = r').
    { unfold response in E3, F3. destruct ap; [congruence|]. rewrite E3 in F3. congruence. }
    subst r'. inversion F1; subst. exists v. split; auto. split; auto. eexists. split; eauto. rewrite E5. f_equal. ring. }
  split.
  - intros x. destruct (outside_dec 1e-7 2 x) as [O|[f [-> Hf]]].
    + now rewrite (B x O), (B' x O).
    + destruct (K f Hf) as [v [_ [V [y [-> ->]]]]]. apply nle_t. lra.
  - intros f Hf. destruct (K f Hf) as [v [P [V [y [-> ->]]]]]. eauto.
Qed.
Lemma added_decigo c t lo hi : builtin c t -> 0 < t -> 1e-8 < lo ->
  exists p p0 : num -> num,
    (forall fs, decigo_psd fs (Fin t) c (Fin lo) (Fin hi) = Ok (map p fs) /\ decigo_psd fs (Fin t) CNone (Fin lo) (Fin hi) = Ok (map p0 fs)) /\
    (forall x, nle (p0 x) (p x) = true) /\
    (forall f, lo <= f <= hi -> exists v, published_confusion c t f v /\ p (Fin f) = nadd (p0 (Fin f)) (Fin v)).
Proof.
  intros Hc Ht HL. destruct (decigo_map c t lo hi Hc Ht HL) as [p [A [B C]]].
  destruct (decigo_map CNone t lo hi ltac:(now left) Ht HL) as [q [A' [B' C']]].
  exists p, q. split; [auto|].
  assert (K : forall f, lo <= f <= hi -> exists v, published_confusion c t f v /\ 0 <= v /\ exists y, q (Fin f) = Fin y /\ p (Fin f) = Fin (y + v)).
  { intros f Hf. destruct (C f Hf) as [v [E1 [E2 E5]]]. destruct (C' f Hf) as [v' [F1 [F2 F5]]].
    inversion F1; subst. exists v. split; auto. split; auto. eexists. split; eauto. rewrite E5. f_equal. ring. }
  split.
  - intros x. destruct (outside_dec lo hi x) as [O|[f [-> Hf]]].
    + now rewrite (B x O), (B' x O).
    + destruct (K f Hf) as [v [_ [V [y [-> ->]]]]]. apply nle_t. lra.
  - intros f Hf. destruct (K f Hf) as [v [P [V [y [-> ->]]]]]. eauto.
Qed.
Lemma added_tianqin c t L : builtin c t -> 0 < t -> 0 < L ->
  exists p p0 : num -> num,
    (forall fs, tianqin_psd fs (Fin t) (Fin L) c = Ok (map p fs) /\ tianqin_psd fs (Fin t) (Fin L) CNone = Ok (map p0 fs)) /\
    (forall f, 0 < f -> nle (p0 (Fin f)) (p (Fin f)) = true) /\
    (forall f, 0 < f -> exists v, published_confusion c t f v /\ p (Fin f) = nadd (p0 (Fin f)) (Fin v)).
Proof.
  intros Hc Ht HL. destruct (tianqin_map c t L Hc Ht HL) as [p [A C]].
  destruct (tianqin_map CNone t L ltac:(now left) Ht HL) as [q [A' C']].
  exists p, q. split; [auto|].
  assert (K : forall f, 0 < f -> exists v, published_confusion c t f v /\ 0 <= v /\ exists y, q (Fin f) = Fin y /\ p (Fin f) = Fin (y + v)).
  { intros f Hf. destruct (C f Hf) as [v [E1 [E2 E5]]]. destruct (C' f Hf) as [v' [F1 [F2 F5]]].
    inversion F1; subst. exists v. split; auto. split; auto. eexists. split; eauto. rewrite E5. f_equal. ring. }
  split.
  - intros f Hf. destruct (K f Hf) as [v [_ [V [y [-> ->]]]]]. apply nle_t. lra.
  - intros f Hf. destruct (K f Hf) as [v [P [V [y [-> ->]]]]]. eauto.
Qed.

(** C36 *)
Lemma resolve_chosen {A} (x : auto A) d u : chosen x d u -> resolve d x = u.
Proof. intros [-> |[-> ->]]; reflexivity. Qed.
Lemma resolve_conf_chosen c d u : chosen_conf c d u -> resolve_conf d c = u.
Proof.
  intros [[-> ->]|[N ->]]; [reflexivity|]. destruct c as [s| |]; auto. cbn. destruct (String.eqb_spec s "auto"); auto. congruence.
Qed.
Lemma psd_lisa w f cust t L ap c t' L' c' : chosen t (Fin (4 * year)) t' -> chosen L (Fin 2.5e9) L' -> chosen_conf c "karnesis21" c' ->
  power_spectral_density w f "LISA" cust t L ap c = lisa_psd w f t' L' ap c'.
Proof.
  intros Ht HL Hc. rewrite year_yr in Ht. unfold power_spectral_density. cbn [String.eqb Ascii.eqb Bool.eqb].
  rewrite (resolve_chosen _ _ _ Ht), (resolve_conf_chosen _ _ _ Hc). unfold lisa_L. now rewrite (resolve_chosen _ _ _ HL).
Qed.
Lemma tianqin_L_fin : tianqin_L = Fin (sqrt 3 * 1e8).
Proof. unfold tianqin_L. rewrite nsqrt_fin by lra. rewrite !nmul_fin. f_equal. lra. Qed.
Lemma psd_tianqin w f cust t L ap c t' L' c' : chosen t (Fin (5 * year)) t' -> chosen L (Fin (sqrt 3 * 1e8)) L' -> chosen_conf c "huang20" c' ->
  power_spectral_density w f "TianQin" cust t L ap c = tianqin_psd f t' L' c'.
Proof.
  intros Ht HL Hc. rewrite year_yr in Ht. rewrite <- tianqin_L_fin in HL. unfold power_spectral_density. cbn [String.eqb Ascii.eqb Bool.eqb].
  now rewrite (resolve_chosen _ _ _ Ht), (resolve_conf_chosen _ _ _ Hc), (resolve_chosen _ _ _ HL).
Qed.
Lemma psd_decigo w f cust t L ap c t' c' : chosen t (Fin (4 * year)) t' -> chosen_conf c "karnesis21" c' ->
  power_spectral_density w f "DECIGO" cust t L ap c = decigo_psd f t' c' (Fin 1e-3) (Fin 1e2).
Proof.
  intros Ht Hc. rewrite year_yr in Ht. unfold power_spectral_density. cbn [String.eqb Ascii.eqb Bool.eqb].
  now rewrite (resolve_chosen _ _ _ Ht), (resolve_conf_chosen _ _ _ Hc).
Qed.
Lemma psd_custom w f p t L ap c : power_spectral_density w f "custom" (Some p) t L ap c = p f L t ap c.
Proof. reflexivity. Qed.
Lemma psd_unknown w f i cust t L ap c : ~ known_instrument i -> i <> "custom"%string ->
  power_spectral_density w f i cust t L ap c = Err ValueError.
Proof.
  intros H N. unfold power_spectral_density, known_instrument in *.
  destruct (String.eqb_spec i "LISA"); [tauto|]. destruct (String.eqb_spec i "TianQin"); [tauto|].
  destruct (String.eqb_spec i "DECIGO"); [tauto|]. destruct (String.eqb_spec i "custom"); [tauto|]. reflexivity.
Qed.
Lemma confusion_unknown f s t : ~ known_model s -> get_confusion_noise f (Some s) t = Err ValueError.
Proof.
  intros H. unfold get_confusion_noise, known_model in *.
  destruct (String.eqb_spec s "robson19"); [tauto|]. destruct (String.eqb_spec s "huang20"); [tauto|].
  destruct (String.eqb_spec s "thiele21"); [tauto|]. destruct (String.eqb_spec s "karnesis21"); [tauto|]. reflexivity.
Qed.
Lemma psd_model_unknown w f i cust t L ap s : known_instrument i -> ~ known_model s -> s <> "auto"%string ->
  (ap = true \/ r_file w <> None) -> power_spectral_density w f i cust t L ap (CName s) = Err ValueError.
Proof.
  intros Hi Hs N Hr. assert (C : forall d, resolve_conf d (CName s) = CName s).
  { intros d. cbn. destruct (String.eqb_spec s "auto"); congruence. }
  assert (K : forall arg f t, confusion_of arg f t (CName s) = Err ValueError) by (intros; now apply confusion_unknown).
  destruct Hi as [-> |[-> | ->]]; unfold power_spectral_density; cbn [String.eqb Ascii.eqb Bool.eqb]; rewrite C.
  - unfold lisa_psd. cbv zeta. rewrite K.
    destruct ap; [reflexivity|]. destruct Hr as [Hr|Hr]; [discriminate|].
    match goal with |- context [load_response_function w ?x ?y] => destruct (load_map w y Hr) as [R ->] end. reflexivity.
  - unfold tianqin_psd. now rewrite K.
  - unfold decigo_psd. now rewrite K.
Qed.

(** C37 *)
Lemma robson_nearest t fs : 0 < t -> List.Forall (fun f => 0 < f) fs ->
  exists r, nearest r_len robson_table (t / year) r /\ (forall s, nearest r_len robson_table (t / year) s -> s = r) /\
    get_confusion_noise (map Fin fs) (Some "robson19"%string) (Given (Fin t)) = Ok (map (fun f => Fin (robson_fit r f)) fs).
Proof.
  intros Ht Hf. destruct (robson_fin t 1 ltac:(lra)) as [r [N _]]. exists r. split; auto.
  assert (U : forall s, nearest r_len robson_table (t / year) s -> s = r).
  { intros s Hs. eapply nearest_unique; eauto. apply table_unique, robson_sorted. }
  split; auto. cbn. unfold get_confusion_noise_robson19. rewrite map_map. f_equal. apply map_ext_in. intros f Hin.
  rewrite Forall_forall in Hf. destruct (robson_fin t f (Hf f Hin)) as [s [Ns E]]. now rewrite <- (U s Ns).
Qed.
Lemma huang_nearest t fs : 0 < t -> List.Forall (fun f => 1e-4 <= f <= 1) fs ->
  exists r, nearest h_len huang_table (t / year) r /\ (forall s, nearest h_len huang_table (t / year) s -> s = r) /\
    get_confusion_noise (map Fin fs) (Some "huang20"%string) (Given (Fin t)) = Ok (map (fun f => Fin (huang_fit r f)) fs).
Proof.
  intros Ht Hf. destruct (huang_fin t 1 ltac:(lra)) as [r [N _]]. exists r. split; auto.
  assert (U : forall s, nearest h_len huang_table (t / year) s -> s = r).
  { intros s Hs. eapply nearest_unique; eauto. apply table_unique, huang_sorted. }
  split; auto. cbn. unfold get_confusion_noise_huang20. rewrite map_map. f_equal. apply map_ext_in. intros f Hin.
  rewrite Forall_forall in Hf. specialize (Hf f Hin). destruct (huang_fin t f ltac:(lra)) as [s [Ns [E _]]]. rewrite <- (U s Ns). auto.
Qed.
Lemma thiele_lengths f t : get_confusion_noise f (Some "thiele21"%string) (Given (Fin t)) = Err ValueError <-> t <> 4 * year.
Proof.
  cbn. rewrite year_yr. destruct (Reqb t (4 * yr)) eqn:E.
  - apply Reqb_true in E. split; [discriminate|congruence].
  - apply Reqb_false in E. split; auto.
Qed.
Lemma thiele_value fs : List.Forall (fun f => 0 < f) fs ->
  get_confusion_noise (map Fin fs) (Some "thiele21"%string) (Given (Fin (4 * year))) = Ok (map (fun f => Fin (thiele_fit f)) fs) /\
  get_confusion_noise (map Fin fs) (Some "thiele21"%string) Auto = Ok (map (fun f => Fin (thiele_fit f)) fs).
Proof.
  intros Hf. assert (E : get_confusion_noise (map Fin fs) (Some "thiele21"%string) Auto = Ok (map (fun f => Fin (thiele_fit f)) fs)).
  { cbn. unfold get_confusion_noise_thiele21. rewrite map_map. f_equal. apply map_ext_in. intros f Hin. rewrite Forall_forall in Hf. apply thiele_fin; auto. }
  split; auto. rewrite <- E. cbn. rewrite year_yr. now rewrite (proj2 (Reqb_true (4 * yr) (4 * yr))) by reflexivity.
Qed.
Lemma auto_lengths f :
  get_confusion_noise f (Some "robson19"%string) Auto = get_confusion_noise f (Some "robson19"%string) (Given (Fin (4 * year))) /\
  get_confusion_noise f (Some "huang20"%string) Auto = get_confusion_noise f (Some "huang20"%string) (Given (Fin (5 * year))) /\
  get_confusion_noise f (Some "karnesis21"%string) Auto = get_confusion_noise f (Some "karnesis21"%string) (Given (Fin (4 * year))).
Proof. rewrite year_yr. repeat split; reflexivity. Qed.

(** C38 *)
Lemma missing_file w f fs : r_file w = None -> load_response_function w f fs = Err FileNotFoundErr.
Proof. intros H. unfold load_response_function, np_load_R. now rewrite H. Qed.
Lemma present_file w f fs f_R R : r_file w = Some (f_R, R) ->
  load_response_function w f fs = Ok (map (spline w (map (fun x => nmul x fs) f_R) R) f).
Proof. intros H. unfold load_response_function, np_load_R. now rewrite H. Qed.
Lemma missing_file_lisa w f t L c : r_file w = None -> lisa_psd w f t L false c = Err FileNotFoundErr.
Proof. intros H. unfold lisa_psd. cbv zeta. now rewrite missing_file. Qed.

(** C39 *)
Lemma response_bounds fs : 0 < fs -> exists r : R -> R,
  (forall f, approximate_response_function [Fin f] (Fin fs) = [Fin (r f)]) /\
  (forall f, 0 < r f <= 3/10) /\ (forall f, r f = 3/10 <-> f = 0) /\ (forall f g, Rabs f < Rabs g -> r g < r f).
Proof.
  intros Hfs. exists (fun f => 3/10 / (1 + 6/10 * (f / fs) ^ 2)).
  assert (S : forall f, (f / fs) ^ 2 = f ^ 2 / fs ^ 2) by (intros; field; lra).
  assert (P : 0 < fs ^ 2) by posl. assert (I : 0 < / fs ^ 2) by posl.
  assert (Q : forall f, 0 <= (f / fs) ^ 2) by (intros; apply pow2_ge_0).
  repeat split.
  - intros f. cbn [approximate_response_function map]. unfold approximate_response. rewrite ndiv_fin by lra. rewrite npowi2, nmul_fin, nadd_fin.
    specialize (Q f). rewrite ndiv_fin by lra. reflexivity.
  - specialize (Q f). apply Rdiv_lt_0_compat; lra.
  - specialize (Q f). set (y := (f/fs)^2) in *. clearbody y. apply (Rmult_le_reg_r (1 + 6/10 * y)); [lra|].
    replace (3/10 / (1 + 6/10 * y) * (1 + 6/10 * y)) with (3/10) by (field; lra). lra.
  - intros E. cbv beta in E. specialize (Q f). assert (Z : (f/fs)^2 = 0).
    { set (y := (f/fs)^2) in *. clearbody y. apply (f_equal (fun z => z * (1 + 6/10 * y))) in E.
      replace (3/10 / (1 + 6/10 * y) * (1 + 6/10 * y)) with (3/10) in E by (field; lra). lra. }
    rewrite S in Z. assert (f ^ 2 = 0).
    { replace (f ^ 2) with (f ^ 2 / fs ^ 2 * fs ^ 2) by (field; lra). rewrite Z. ring. }
    apply Rsqr_eq_0. unfold Rsqr. lra.
  - intros ->. field. lra.
  - intros f g L. pose proof (Q f). pose proof (Q g).
    assert (K : (f/fs)^2 < (g/fs)^2).
    { rewrite !S. apply Rmult_lt_compat_r; auto. rewrite <- (pow2_abs f), <- (pow2_abs g).
      pose proof (Rabs_pos f). simpl. nra. }
    apply Rmult_lt_compat_l; [lra|]. apply Rinv_lt_contravar; [|lra]. apply Rmult_lt_0_compat; lra.
Qed.

(** C77 *)
Definition wants_units (g : num -> num) (a : freq_arg) (t : num) : res (list num) :=
  match a with Quantity f => Ok (map g f) | Bare _ => Err AttributeError end.
Lemma custom_confusion_units w g fs t L ap : (ap = true \/ r_file w <> None) ->
  (exists v, tianqin_psd fs t L (CFun (wants_units g)) = Ok v) /\
  lisa_psd w fs t L ap (CFun (wants_units g)) = Err AttributeError /\
  decigo_psd fs t (CFun (wants_units g)) (Fin 1e-3) (Fin 1e2) = Err AttributeError.
Proof.
  intros Hr. repeat split.
  - eexists. unfold tianqin_psd. cbn [confusion_of wants_units rbind]. rewrite bzip_map. apply in_place_map.
  - unfold lisa_psd. cbv zeta. destruct ap; [reflexivity|]. destruct Hr as [Hr|Hr]; [discriminate|].
    match goal with |- context [load_response_function w ?x ?y] => destruct (load_map w y Hr) as [R ->] end. reflexivity.
Qed.
(** A function that accepts both kinds of argument is simply added. *)
Lemma custom_confusion_added w (g : num -> num) k t L ap : (forall a, exists f, (a = Bare f \/ a = Quantity f) /\ k a t = Ok (map g f)) ->
  (ap = true \/ r_file w <> None) -> 
  exists pl pd : num -> num, exists pl0 pd0 : num -> num,
    (forall fs, lisa_psd w fs t L ap (CFun k) = Ok (map pl fs) /\ lisa_psd w fs t L ap CNone = Ok (map pl0 fs)) /\
    (forall fs, decigo_psd fs t (CFun k) (Fin 1e-3) (Fin 1e2) = Ok (map pd fs) /\ decigo_psd fs t CNone (Fin 1e-3) (Fin 1e2) = Ok (map pd0 fs)) /\
    (forall fs, exists v, tianqin_psd fs t L CNone = Ok (map v fs) /\ tianqin_psd fs t L (CFun k) = Ok (map (fun x => nadd (v x) (g x)) fs)) /\
    (forall f, 1e-7 <= f <= 2 -> pl (Fin f) = nadd (pl0 (Fin f)) (g (Fin f))) /\
    (forall f, 1e-3 <= f <= 1e2 -> pd (Fin f) = nadd (pd0 (Fin f)) (g (Fin f))).
Proof.
  intros Hk Hr.
  assert (KB : forall f, k (Bare f) t = Ok (map g f)).
  { intros f. destruct (Hk (Bare f)) as [f' [[E|E] H]]; inversion E; subst; auto. }
  assert (KQ : forall f, k (Quantity f) t = Ok (map g f)).
  { intros f. destruct (Hk (Quantity f)) as [f' [[E|E] H]]; inversion E; subst; auto. }
  set (fstar := ndiv (Fin clight) (nmul (nmul (Fin 2) (Fin PI)) L)).
  assert (HRm : exists R : num -> num, forall f, (if ap then Ok (approximate_response_function f fstar) else load_response_function w f fstar) = Ok (map R f)).
  { destruct ap; [exists (approximate_response fstar); reflexivity|]. destruct Hr as [Hr|Hr]; [discriminate|]. now apply load_map. }
  destruct HRm as [R ER].
  set (cut := fun lo hi x => band (Fin lo) (Fin hi) x x (Fin 1e-8)).
  exists (fun x => band (Fin 1e-7) (Fin 2) (cut 1e-7 2 x) (nadd (lisa_noise L fstar (cut 1e-7 2 x) (R (cut 1e-7 2 x))) (g (cut 1e-7 2 x))) PInf).
  exists (fun x => band (Fin 1e-3) (Fin 1e2) (cut 1e-3 1e2 x) (nadd (decigo_noise (cut 1e-3 1e2 x)) (g (cut 1e-3 1e2 x))) PInf).
  exists (fun x => band (Fin 1e-7) (Fin 2) (cut 1e-7 2 x) (nadd (lisa_noise L fstar (cut 1e-7 2 x) (R (cut 1e-7 2 x))) (Fin 0)) PInf).
  exists (fun x => band (Fin 1e-3) (Fin 1e2) (cut 1e-3 1e2 x) (nadd (decigo_noise (cut 1e-3 1e2 x)) (Fin 0)) PInf).
  split; [|split; [|split; [|split]]].
  - intros fs. unfold lisa_psd. cbv zeta. fold fstar. fold (cut 1e-7 2). rewrite ER. cbn [rbind confusion_of get_confusion_noise]. rewrite KB. cbn [rbind].
    rewrite !map_map. rewrite !bzip_map. cbn [rbind]. rewrite !bzip_map. cbn [rbind]. rewrite !bzip_map. auto.
  - intros fs. unfold decigo_psd. cbv zeta. fold (cut 1e-3 1e2). cbn [rbind confusion_of get_confusion_noise]. rewrite KB. cbn [rbind].
    rewrite !map_map. rewrite !bzip_map. cbn [rbind]. rewrite !bzip_map. auto.
  - intros fs. exists (tianqin_noise L). unfold tianqin_psd. cbn [rbind confusion_of get_confusion_noise]. rewrite KQ. cbn [rbind]. rewrite !bzip_map, !in_place_map. split; auto.
    f_equal. apply map_ext. intros x. apply nadd_0_r.
  - intros f Hf. pose proof (proj2 (in_band_fin 1e-7 2 f) Hf) as B. unfold cut, band. rewrite !B. now rewrite nadd_0_r.
  - intros f Hf. pose proof (proj2 (in_band_fin 1e-3 1e2 f) Hf) as B. unfold cut, band. rewrite !B. now rewrite nadd_0_r.
Qed.
