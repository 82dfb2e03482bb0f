(** PropPsd.v -- properties C34-C39, C76, C77 (noise curves). *)
From Coq Require Import String Reals ZArith List Bool Lra Lia.
From Verif Require Import Num NumFacts Np Psd PsdSpec PsdFacts PsdThms.
Import ListNotations.
Open Scope R_scope.

(** ** C34: infinite out of band, finite and positive in band.  An element of the frequency array may be any float (also nan). *)
Theorem C34_lisa : forall w c t L ap, builtin c t -> 0 < t -> 0 < L -> response_ok w L ap ->
  exists p : num -> num, (forall fs, lisa_psd w fs (Fin t) (Fin L) ap c = Ok (map p fs)) /\
    (forall x, p x = PInf <-> outside 1e-7 2 x) /\ (forall f, 1e-7 <= f <= 2 -> exists v, p (Fin f) = Fin v /\ 0 < v).
Proof. exact lisa_band. Qed.
Print Assumptions C34_lisa.
Theorem C34_decigo : forall c t lo hi, builtin c t -> 0 < t -> 1e-8 < lo ->
  exists p : num -> num, (forall fs, decigo_psd fs (Fin t) c (Fin lo) (Fin hi) = Ok (map p fs)) /\
    (forall x, p x = PInf <-> outside lo hi x) /\ (forall f, lo <= f <= hi -> exists v, p (Fin f) = Fin v /\ 0 < v).
Proof. exact decigo_band. Qed.
Print Assumptions C34_decigo.
Theorem C34_tianqin : forall c t L, builtin c t -> 0 < t -> 0 < L ->
  exists p : num -> num, (forall fs, tianqin_psd fs (Fin t) (Fin L) c = Ok (map p fs)) /\
    (forall f, 0 < f -> exists v, p (Fin f) = Fin v /\ 0 < v).
Proof. exact tianqin_band. Qed.
Print Assumptions C34_tianqin.
(** A user-supplied f_low of at most 1e-8 Hz defeats the out-of-band test of decigo_psd: every frequency outside the band
    gets the finite noise of the placeholder frequency 1e-8 Hz. *)
Theorem C34_decigo_tiny_f_low_refuted : forall c t lo hi x, builtin c t -> 0 < t -> 0 < lo <= 1e-8 -> 1e-8 <= hi -> outside lo hi x ->
  exists v, decigo_psd [x] (Fin t) c (Fin lo) (Fin hi) = Ok [Fin v].
Proof. exact decigo_tiny_low. Qed.
Print Assumptions C34_decigo_tiny_f_low_refuted.
Example C34_satisfiable : builtin (CName "karnesis21") (4 * year) /\ builtin (CName "thiele21") (4 * year) /\
  response_ok (mkEnv None (fun _ _ _ => NaN)) 2.5e9 true /\
  response_ok (mkEnv (Some ([Fin 0; Fin 1], [Fin 1; Fin 2])) (fun _ _ _ => Fin (3/10))) 2.5e9 false /\ outside 1e-7 2 (Fin 3) /\ outside 1e-7 2 NaN.
Proof.
  unfold builtin. repeat split; auto 10.
  - now left.
  - right. intros f Hf. exists (3/10). split; [reflexivity|lra].
  - intros f E. inversion E. lra.
  - intros f E. discriminate.
Qed.

(** ** C35: confusion noise only adds noise *)
Theorem C35_nonnegative : forall m t fs, builtin (conf_of m) t -> 0 < t -> List.Forall (fun f => 0 < f) fs ->
  exists vs, get_confusion_noise (map Fin fs) m (Given (Fin t)) = Ok (map Fin vs) /\
    Forall2 (fun f v => 0 <= v /\ published_confusion (conf_of m) t f v) fs vs.
Proof. exact confusion_nonneg. Qed.
Print Assumptions C35_nonnegative.
Theorem C35_none_is_zero : forall f t, get_confusion_noise f None t = Ok (map (fun _ => Fin 0) f).
Proof. exact none_zero. Qed.
Print Assumptions C35_none_is_zero.
Theorem C35_huang20_outside : forall x t, nlt x (Fin 1e-4) = true \/ nlt (Fin 1) x = true ->
  get_confusion_noise [x] (Some "huang20"%string) t = Ok [Fin 0].
Proof. exact huang_zero. Qed.
Print Assumptions C35_huang20_outside.
Theorem C35_lisa_total : forall w c t L ap, builtin c t -> 0 < t -> 0 < L -> response_ok w L ap ->
  exists p p0 : num -> num,
    (forall fs, lisa_psd w fs (Fin t) (Fin L) ap c = Ok (map p fs) /\ lisa_psd w fs (Fin t) (Fin L) ap CNone = Ok (map p0 fs)) /\
    (forall x, nle (p0 x) (p x) = true) /\
    (forall f, 1e-7 <= f <= 2 -> exists v, published_confusion c t f v /\ p (Fin f) = nadd (p0 (Fin f)) (Fin v)).
Proof. exact added_lisa. Qed.
Print Assumptions C35_lisa_total.
Theorem C35_tianqin_total : forall c t L, builtin c t -> 0 < t -> 0 < L ->
  exists p p0 : num -> num,
    (forall fs, tianqin_psd fs (Fin t) (Fin L) c = Ok (map p fs) /\ tianqin_psd fs (Fin t) (Fin L) CNone = Ok (map p0 fs)) /\
    (forall f, 0 < f -> nle (p0 (Fin f)) (p (Fin f)) = true) /\
    (forall f, 0 < f -> exists v, published_confusion c t f v /\ p (Fin f) = nadd (p0 (Fin f)) (Fin v)).
Proof. exact added_tianqin. Qed.
Print Assumptions C35_tianqin_total.
Theorem C35_decigo_total : forall c t lo hi, builtin c t -> 0 < t -> 1e-8 < lo ->
  exists p p0 : num -> num,
    (forall fs, decigo_psd fs (Fin t) c (Fin lo) (Fin hi) = Ok (map p fs) /\ decigo_psd fs (Fin t) CNone (Fin lo) (Fin hi) = Ok (map p0 fs)) /\
    (forall x, nle (p0 x) (p x) = true) /\
    (forall f, lo <= f <= hi -> exists v, published_confusion c t f v /\ p (Fin f) = nadd (p0 (Fin f)) (Fin v)).
Proof. exact added_decigo. Qed.
Print Assumptions C35_decigo_total.
Example C35_satisfiable : builtin (conf_of (Some "huang20"%string)) (5 * year) /\ List.Forall (fun f => 0 < f) [1e-3; 1e-2] /\ nlt NInf (Fin 1e-4) = true.
Proof. split; [unfold builtin; cbn; auto|]. split; [repeat constructor; lra|reflexivity]. Qed.

(** ** C36: defaults per instrument *)
Theorem C36_lisa : forall w f cust t L ap c t' L' c',
  chosen t (Fin (4 * year)) t' -> chosen L (Fin 2.5e9) L' -> chosen_conf c "karnesis21" c' ->
  power_spectral_density w f "LISA" cust t L ap c = lisa_psd w f t' L' ap c'.
Proof. exact psd_lisa. Qed.
Print Assumptions C36_lisa.
Theorem C36_tianqin : forall w f cust t L ap c t' L' c',
  chosen t (Fin (5 * year)) t' -> chosen L (Fin (sqrt 3 * 1e8)) L' -> chosen_conf c "huang20" c' ->
  power_spectral_density w f "TianQin" cust t L ap c = tianqin_psd f t' L' c'.
Proof. exact psd_tianqin. Qed.
Print Assumptions C36_tianqin.
Theorem C36_decigo : forall w f cust t L ap c t' c',
  chosen t (Fin (4 * year)) t' -> chosen_conf c "karnesis21" c' ->
  power_spectral_density w f "DECIGO" cust t L ap c = decigo_psd f t' c' (Fin 1e-3) (Fin 1e2).
Proof. exact psd_decigo. Qed.
Print Assumptions C36_decigo.
Theorem C36_custom : forall w f p t L ap c,
  power_spectral_density w f "custom" (Some p) t L ap c = p f L t ap c.
Proof. exact psd_custom. Qed.
Print Assumptions C36_custom.
Theorem C36_unknown_instrument : forall w f i cust t L ap c, ~ known_instrument i -> i <> "custom"%string ->
  power_spectral_density w f i cust t L ap c = Err ValueError.
Proof. exact psd_unknown. Qed.
Print Assumptions C36_unknown_instrument.
Theorem C36_unknown_model : forall w f i cust t L ap s, known_instrument i -> ~ known_model s -> s <> "auto"%string ->
  (ap = true \/ r_file w <> None) -> power_spectral_density w f i cust t L ap (CName s) = Err ValueError.
Proof. exact psd_model_unknown. Qed.
Print Assumptions C36_unknown_model.
Example C36_satisfiable : chosen (@Auto num) (Fin (4 * year)) (Fin (4 * year)) /\ chosen (Given (Fin 1)) (Fin 2.5e9) (Fin 1) /\
  chosen_conf (CName "auto") "karnesis21" (CName "karnesis21") /\ chosen_conf CNone "karnesis21" CNone /\
  ~ known_instrument "lisa" /\ ~ known_model "robson2019".
Proof.
  repeat split; try (now right); try (now left).
  - intros [H|[H|H]]; discriminate.
  - intros [H|[H|[H|H]]]; discriminate.
Qed.

(** ** C37: nearest fitted mission length *)
Theorem C37_robson19 : forall t fs, 0 < t -> List.Forall (fun f => 0 < f) fs ->
  exists r, nearest r_len robson_table (t / year) r /\ (forall s, nearest r_len robson_table (t / year) s -> s = r) /\
    get_confusion_noise (map Fin fs) (Some "robson19"%string) (Given (Fin t)) = Ok (map (fun f => Fin (robson_fit r f)) fs).
Proof. exact robson_nearest. Qed.
Print Assumptions C37_robson19.
Theorem C37_huang20 : forall t fs, 0 < t -> List.Forall (fun f => 1e-4 <= f <= 1) fs ->
  exists r, nearest h_len huang_table (t / year) r /\ (forall s, nearest h_len huang_table (t / year) s -> s = r) /\
    get_confusion_noise (map Fin fs) (Some "huang20"%string) (Given (Fin t)) = Ok (map (fun f => Fin (huang_fit r f)) fs).
Proof. exact huang_nearest. Qed.
Print Assumptions C37_huang20.
Theorem C37_thiele21_only_4yr : forall f t,
  get_confusion_noise f (Some "thiele21"%string) (Given (Fin t)) = Err ValueError <-> t <> 4 * year.
Proof. exact thiele_lengths. Qed.
Print Assumptions C37_thiele21_only_4yr.
Theorem C37_thiele21_value : forall fs, List.Forall (fun f => 0 < f) fs ->
  get_confusion_noise (map Fin fs) (Some "thiele21"%string) (Given (Fin (4 * year))) = Ok (map (fun f => Fin (thiele_fit f)) fs) /\
  get_confusion_noise (map Fin fs) (Some "thiele21"%string) Auto = Ok (map (fun f => Fin (thiele_fit f)) fs).
Proof. exact thiele_value. Qed.
Print Assumptions C37_thiele21_value.
Theorem C37_auto : forall f,
  get_confusion_noise f (Some "robson19"%string) Auto = get_confusion_noise f (Some "robson19"%string) (Given (Fin (4 * year))) /\
  get_confusion_noise f (Some "huang20"%string) Auto = get_confusion_noise f (Some "huang20"%string) (Given (Fin (5 * year))) /\
  get_confusion_noise f (Some "karnesis21"%string) Auto = get_confusion_noise f (Some "karnesis21"%string) (Given (Fin (4 * year))).
Proof. exact auto_lengths. Qed.
Print Assumptions C37_auto.
(** A tie (0.75 yr) goes to the shorter length. *)
Example C37_tie : nearest r_len robson_table (3/4) (nth 0 robson_table (Build_robson_row 0 0 0 0 0 0)).
Proof.
  split; [now left|]. assert (A : forall x, x <= 3/4 -> Rabs (3/4 - x) = 3/4 - x) by (intros; apply Rabs_right; lra).
  assert (B : forall x, 3/4 <= x -> Rabs (3/4 - x) = x - 3/4) by (intros; rewrite Rabs_minus_sym; apply Rabs_right; lra).
  intros r [<- |[<- |[<- |[<- |[]]]]]; cbn [nth robson_table r_len]; rewrite (A (1/2)) by lra.
  - right. lra.
  - right. rewrite B by lra. lra.
  - left. rewrite B by lra. lra.
  - left. rewrite B by lra. lra.
Qed.

(** ** C38: missing response file.  The handler names FileExistsError, which loading a missing file does not raise. *)
Theorem C38_missing_file_refuted : forall w f fstar, r_file w = None -> load_response_function w f fstar = Err FileNotFoundErr.
Proof. exact missing_file. Qed.
Print Assumptions C38_missing_file_refuted.
Theorem C38_missing_file_breaks_lisa_psd_refuted : forall w f t L c, r_file w = None -> lisa_psd w f t L false c = Err FileNotFoundErr.
Proof. exact missing_file_lisa. Qed.
Print Assumptions C38_missing_file_breaks_lisa_psd_refuted.
Theorem C38_present_file_partial : forall w f fstar f_R R, r_file w = Some (f_R, R) ->
  load_response_function w f fstar = Ok (map (spline w (map (fun x => nmul x fstar) f_R) R) f).
Proof. exact present_file. Qed.
Print Assumptions C38_present_file_partial.
Example C38_satisfiable : r_file (mkEnv None (fun _ _ _ => NaN)) = None.
Proof. reflexivity. Qed.

(** ** C39: approximate response function *)
Theorem C39_bounded_and_decreasing : forall fstar, 0 < fstar -> exists r : R -> R,
  (forall f, approximate_response_function [Fin f] (Fin fstar) = [Fin (r f)]) /\
  (forall f, 0 < r f <= 3/10) /\ (forall f, r f = 3/10 <-> f = 0) /\ (forall f g, Rabs f < Rabs g -> r g < r f).
Proof. exact response_bounds. Qed.
Print Assumptions C39_bounded_and_decreasing.
Example C39_satisfiable : 0 < 0.01909.
Proof. lra. Qed.

(** ** C76: the built-in curves are the published ones *)
Theorem C76_lisa : forall w c t L ap, builtin c t -> 0 < t -> 0 < L -> response_ok w L ap ->
  exists p : num -> num,
    (forall fs, lisa_psd w fs (Fin t) (Fin L) ap c = Ok (map p fs)) /\
    (forall x, outside 1e-7 2 x -> p x = PInf) /\
    (forall f, 1e-7 <= f <= 2 -> exists v r, published_confusion c t f v /\ 0 <= v /\ response w L ap f r /\ 0 < r /\
       p (Fin f) = Fin (lisa_curve L r f + v)).
Proof. exact lisa_map. Qed.
Print Assumptions C76_lisa.
Theorem C76_tianqin : forall c t L, builtin c t -> 0 < t -> 0 < L ->
  exists p : num -> num,
    (forall fs, tianqin_psd fs (Fin t) (Fin L) c = Ok (map p fs)) /\
    (forall f, 0 < f -> exists v, published_confusion c t f v /\ 0 <= v /\ p (Fin f) = Fin (tianqin_curve L f + v)).
Proof. exact tianqin_map. Qed.
Print Assumptions C76_tianqin.
Theorem C76_decigo : forall c t lo hi, builtin c t -> 0 < t -> 1e-8 < lo ->
  exists p : num -> num,
    (forall fs, decigo_psd fs (Fin t) c (Fin lo) (Fin hi) = Ok (map p fs)) /\
    (forall x, outside lo hi x -> p x = PInf) /\
    (forall f, lo <= f <= hi -> exists v, published_confusion c t f v /\ 0 <= v /\ p (Fin f) = Fin (decigo_curve f + v)).
Proof. exact decigo_map. Qed.
Print Assumptions C76_decigo.
Theorem C76_confusion_well_defined : forall c t f v w, published_confusion c t f v -> published_confusion c t f w -> v = w.
Proof. exact published_unique. Qed.
Print Assumptions C76_confusion_well_defined.
Example C76_satisfiable : published_confusion (CName "karnesis21") (4 * year) 1e-3 (karnesis_fit (4 * year / year) 1e-3).
Proof. constructor. Qed.

(** ** C77: custom confusion noise.  A function written for frequencies with units works for TianQin only. *)
Theorem C77_custom_confusion_units_refuted : forall w g fs t L ap, (ap = true \/ r_file w <> None) ->
  (exists v, tianqin_psd fs t L (CFun (wants_units g)) = Ok v) /\
  lisa_psd w fs t L ap (CFun (wants_units g)) = Err AttributeError /\
  decigo_psd fs t (CFun (wants_units g)) (Fin 1e-3) (Fin 1e2) = Err AttributeError.
Proof. exact custom_confusion_units. Qed.
Print Assumptions C77_custom_confusion_units_refuted.
(** A function [k] that accepts both kinds of argument and returns [g] of each frequency is added in band by every instrument. *)
Theorem C77_custom_confusion_added_partial : forall w (g : num -> num) k t L ap,
  (forall a, exists f, (a = Bare f \/ a = Quantity f) /\ k a t = Ok (map g f)) -> (ap = true \/ r_file w <> None) ->
  exists pl pd : num -> num, exists pl0 pd0 : num -> num,
    (forall fs, lisa_psd w fs t L ap (CFun k) = Ok (map pl fs) /\ lisa_psd w fs t L ap CNone = Ok (map pl0 fs)) /\
    (forall fs, decigo_psd fs t (CFun k) (Fin 1e-3) (Fin 1e2) = Ok (map pd fs) /\ decigo_psd fs t CNone (Fin 1e-3) (Fin 1e2) = Ok (map pd0 fs)) /\
    (forall fs, exists v, tianqin_psd fs t L CNone = Ok (map v fs) /\ tianqin_psd fs t L (CFun k) = Ok (map (fun x => nadd (v x) (g x)) fs)) /\
    (forall f, 1e-7 <= f <= 2 -> pl (Fin f) = nadd (pl0 (Fin f)) (g (Fin f))) /\
    (forall f, 1e-3 <= f <= 1e2 -> pd (Fin f) = nadd (pd0 (Fin f)) (g (Fin f))).
Proof. exact custom_confusion_added. Qed.
Print Assumptions C77_custom_confusion_added_partial.
Example C77_satisfiable : let k (a : freq_arg) (t : num) := Ok (map (fun _ => Fin 1) (match a with Bare f | Quantity f => f end)) in
  forall a, exists f, (a = Bare f \/ a = Quantity f) /\ k a (Fin 1) = Ok (map (fun _ => Fin 1) f).
Proof. intros k [f|f]; exists f; split; auto. Qed.
