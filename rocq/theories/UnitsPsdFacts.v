(** UnitsPsdFacts.v -- psd.py on quantities is psd.py on their SI values. *)
From Coq Require Import String Reals ZArith List Bool Lra Lia.
From Verif Require Import Num NumFacts Np NpFacts Utils UtilsFacts Strain Evol EvolFacts Psd Units UnitsSpec UnitsFacts UnitsThms UnitsStrain
  UnitsEvol UnitsEvolSpec UnitsEvolFacts UnitsPsd UnitsPsdSpec.
Import ListNotations.
Open Scope list_scope.
Open Scope R_scope.
Open Scope res_scope.

(** *** Units *)
Lemma powerRZ_one k : powerRZ 1 k = 1.
Proof.
  destruct (Z_le_gt_dec 0 k) as [K|K].
  - rewrite powerRZ_nonneg by exact K. apply pow1.
  - rewrite powerRZ_negative by lia. rewrite pow1. lra.
Qed.
Lemma per_hertz_one : u_size per_hertz = 1.
Proof. apply powerRZ_one. Qed.
Lemma per_hertz_dim : u_dim per_hertz = time_dim.
Proof. dim_eq. Qed.
Lemma unit_per_hertz : unit_for time_dim per_hertz.
Proof. split; [rewrite per_hertz_one; lra|exact per_hertz_dim]. Qed.
Lemma unit_kilometer : unit_for length_dim kilometer.
Proof. split; [cbn; lra|reflexivity]. Qed.
#[global] Hint Resolve unit_per_hertz unit_kilometer : units.
Lemma in_per_hertz x : in_unit per_hertz x = Qy x per_hertz.
Proof. unfold in_unit. now rewrite per_hertz_one, over_one. Qed.
Lemma in_hz x : in_unit hertz x = Qy x hertz.
Proof. unfold in_unit. cbn [hertz u_size]. now rewrite over_one. Qed.
Lemma in_per_hertz_map l : map (fun x => Qy x per_hertz) l = map (in_unit per_hertz) l.
Proof. apply map_ext. intros x. symmetry. apply in_per_hertz. Qed.
Lemma sqrt_hertz_sq x : vpowi (Qy x per_sqrt_hertz) 2 = Qy (x ^^ 2)%num per_hertz.
Proof.
  cbn [vpowi]. f_equal. unfold per_sqrt_hertz, per_hertz, upowi, upow. cbn [hertz u_size u_dim]. f_equal.
  - rewrite powerRZ_one. unfold Rpower. rewrite ln_1, Rmult_0_r, exp_0. apply powerRZ_one.
  - dim_eq.
Qed.
(** a quantity is its SI value written in its own unit *)
Lemma as_in_unit d v x u : isv d v x -> is_quantity v = true -> unit_of v = u -> v = in_unit u x.
Proof.
  intros (P & _ & S) Q <-. destruct v as [|y u]; [discriminate|]. unfold proper, si in *. cbn [unit_of mag] in *. subst x.
  unfold in_unit. f_equal. rewrite scale_div by assumption. replace (u_size u / u_size u) with 1 by (field; lra).
  symmetry. apply scale_one.
Qed.

Lemma in_hertz_si f x : all_is frequency_dim f x -> in_hertz f = Ok x.
Proof.
  intros F. unfold in_hertz. eapply mapM_of; [exact F|]. intros v y I.
  apply (to_value_si frequency_dim); auto with units.
Qed.
Lemma times_hertz_is l : all_is frequency_dim (times_hertz l) l.
Proof.
  unfold times_hertz. induction l as [|x l IH]; constructor; auto. rewrite <- in_hz. exact (isv_in _ _ _ unit_hertz).
Qed.
Lemma list_is d u l : unit_for d u -> all_is d (map (in_unit u) l) l.
Proof. exact (list_isv d u l). Qed.

(** *** Comparisons *)
Lemma eq_scale x y s : 0 < s -> neqb (x * Fin s) (y * Fin s) = neqb x y.
Proof.
  intros S. destruct x, y; rewrite ?scale_pinf, ?scale_ninf, ?scale_nan by assumption; try reflexivity.
  cbn. unfold Reqb. destruct (Req_EM_T (r * s) (r0 * s)), (Req_EM_T r r0); try reflexivity; exfalso; nra.
Qed.
Lemma lt_scale x y s : 0 < s -> nlt (x * Fin s) (y * Fin s) = nlt x y.
Proof.
  intros S. destruct x, y; rewrite ?scale_pinf, ?scale_ninf, ?scale_nan by assumption; try reflexivity.
  cbn. unfold Rltb. destruct (Rlt_dec (r * s) (r0 * s)), (Rlt_dec r r0); try reflexivity; exfalso; nra.
Qed.
Lemma nan_scale x s : 0 < s -> is_nan (x * Fin s) = is_nan x.
Proof. intros S. destruct x; rewrite ?scale_pinf, ?scale_ninf, ?scale_nan by assumption; reflexivity. Qed.
Lemma abs_scale x s : 0 < s -> (nabs (x * Fin s) = nabs x * Fin s)%num.
Proof.
  intros S. destruct x; rewrite ?scale_pinf, ?scale_ninf, ?scale_nan by assumption; cbn [nabs]; rewrite ?scale_pinf by assumption; try reflexivity.
  cbn. f_equal. rewrite Rabs_mult, (Rabs_pos_eq s) by lra. reflexivity.
Qed.
Lemma argmin_from_scale s l : 0 < s -> forall b bi i,
  argmin_from (b * Fin s)%num bi i (map (fun x => x * Fin s)%num l) = argmin_from b bi i l.
Proof.
  intros S. induction l as [|x l IH]; intros b bi i; [reflexivity|]. cbn [map argmin_from].
  rewrite !nan_scale, lt_scale by exact S. destruct (is_nan b); [reflexivity|]. destruct (is_nan x || nlt x b); apply IH.
Qed.
Lemma argmin_scale s l : 0 < s -> argmin (map (fun x => x * Fin s)%num l) = argmin l.
Proof. intros S. destruct l as [|x l]; [reflexivity|]. exact (argmin_from_scale s l S x 0%nat 1%nat). Qed.
Lemma argmax_from_scale s l : 0 < s -> forall b bi i,
  argmax_from (b * Fin s)%num bi i (map (fun x => x * Fin s)%num l) = argmax_from b bi i l.
Proof.
  intros S. induction l as [|x l IH]; intros b bi i; [reflexivity|]. cbn [map argmax_from].
  rewrite !nan_scale, lt_scale by exact S. destruct (is_nan b); [reflexivity|]. destruct (is_nan x || nlt b x); apply IH.
Qed.
Lemma argmax_scale s l : 0 < s -> argmax (map (fun x => x * Fin s)%num l) = argmax l.
Proof. intros S. destruct l as [|x l]; [reflexivity|]. exact (argmax_from_scale s l S x 0%nat 1%nat). Qed.

Lemma years_is y : isv time_dim (Qy (Fin y) year) (Fin (y * yr)).
Proof. split; [exact year_pos|]. split; reflexivity. Qed.

(** [t_obs == 4 * u.yr] *)
Lemma is_four_years tq t : isv time_dim tq t -> veqb tq (Qy (Fin 4) year) = neqb t (Fin (4 * yr)).
Proof.
  intros T. unfold veqb. rewrite (compare_scale neqb eq_scale _ _ _ _ _ T (years_is 4) time_not_none). reflexivity.
Qed.
Lemma four_years_wrong tq : dim_of tq <> time_dim -> veqb tq (Qy (Fin 4) year) = false.
Proof.
  intros D. unfold veqb. destruct tq as [x|x u]; unfold dim_of in D; cbn [unit_of vcompare year u_dim] in *.
  - rewrite (dim_eqb_neq time_dim dimensionless) by apply time_not_none. destruct (arbitrary_unit x) eqn:A; [|reflexivity].
    destruct x as [r| | |]; cbn in *; try reflexivity. unfold Reqb in *. destruct (Req_EM_T r 0); [|discriminate].
    destruct (Req_EM_T r 4); [lra|reflexivity].
  - rewrite dim_eqb_neq by congruence. reflexivity.
Qed.

(** the nearest mission length *)
Lemma nearest_si tq t ls : isv time_dim tq t ->
  nearest_length_q tq ls = Ok (nearest_length t (map (fun y => Fin (y * yr)) ls)).
Proof.
  intros T. pose proof (not_plain _ _ _ time_not_none T) as Q. destruct tq as [|x u]; [discriminate|].
  destruct T as (P & D & <-). unfold proper, dim_of in *. cbn [unit_of] in *. unfold nearest_length_q, nearest_length.
  assert (E : mapM (fun l => vsub (Qy x u) (Qy (Fin l) year)) ls =
              Ok (map (fun l => Qy (x - Fin l * Fin (yr / u_size u))%num u) ls)).
  { induction ls as [|l ls IH]; [reflexivity|]. cbn [mapM map]. rewrite IH. unfold vsub. cbn [vsum year u_dim u_size].
    rewrite D, dim_eqb_refl. reflexivity. }
  rewrite E. cbn [rbind]. f_equal. rewrite <- (argmin_scale (u_size u)) by exact P. rewrite !map_map. f_equal.
  apply map_ext. intros l. cbn [mag]. rewrite <- abs_scale by exact P. rewrite <- sub_scale by exact P.
  unfold si. cbn [mag unit_of]. do 2 f_equal. cbn. f_equal. field. lra.
Qed.

Lemma ok_map_ext {A B} (f g : A -> B) l : (forall x, f x = g x) -> Ok (map f l) = Ok (map g l).
Proof. intros H. f_equal. apply map_ext, H. Qed.

(** *** Confusion noise *)
Lemma robson_si fq f tq t : all_is frequency_dim fq f -> isv time_dim tq t ->
  get_confusion_noise_robson19_q fq tq = Ok (map (in_unit per_hertz) (get_confusion_noise_robson19 f t)).
Proof.
  intros F T. unfold get_confusion_noise_robson19_q, get_confusion_noise_robson19. rewrite (in_hertz_si _ _ F). cbn [rbind].
  rewrite (nearest_si _ _ _ T). cbn [rbind]. rewrite map_map. apply ok_map_ext. intros x. rewrite in_per_hertz. reflexivity.
Qed.
Lemma huang_si fq f tq t : all_is frequency_dim fq f -> isv time_dim tq t ->
  get_confusion_noise_huang20_q fq tq = Ok (map (in_unit per_hertz) (get_confusion_noise_huang20 f t)).
Proof.
  intros F T. unfold get_confusion_noise_huang20_q, get_confusion_noise_huang20. rewrite (nearest_si _ _ _ T). cbn [rbind].
  rewrite (in_hertz_si _ _ F). cbn [rbind]. rewrite map_map. apply ok_map_ext. intros x. rewrite in_per_hertz, sqrt_hertz_sq.
  reflexivity.
Qed.
Lemma thiele_si fq f : all_is frequency_dim fq f ->
  get_confusion_noise_thiele21_q fq = Ok (map (in_unit per_hertz) (get_confusion_noise_thiele21 f)).
Proof.
  intros F. unfold get_confusion_noise_thiele21_q, get_confusion_noise_thiele21. rewrite (in_hertz_si _ _ F). cbn [rbind].
  rewrite (to_value_si time_dim second _ (Fin (4 * yr))); auto using years_is with units. cbn [rbind]. rewrite map_map.
  apply ok_map_ext. intros x. rewrite in_per_hertz. reflexivity.
Qed.
Lemma karnesis_si fq f tq t : all_is frequency_dim fq f -> isv time_dim tq t ->
  get_confusion_noise_karnesis21_q fq tq = Ok (map (in_unit per_hertz) (get_confusion_noise_karnesis21 f t)).
Proof.
  intros F T. unfold get_confusion_noise_karnesis21_q, get_confusion_noise_karnesis21. rewrite (in_hertz_si _ _ F). cbn [rbind].
  unfold to_value. rewrite (to_in time_dim year _ _ unit_year time_not_none T). cbn [rbind in_unit mag year u_size].
  rewrite map_map. apply ok_map_ext. intros x. rewrite in_per_hertz. reflexivity.
Qed.

Lemma resolve_is tq t y : auto_is time_dim tq t -> isv time_dim (resolve (Qy (Fin y) year) tq) (resolve (Fin (y * yr)) t).
Proof. intros T. destruct tq, t; try contradiction; cbn; [apply years_is|exact T]. Qed.

Lemma confusion_noise_si fq f m tq t : all_is frequency_dim fq f -> auto_is time_dim tq t ->
  get_confusion_noise_q fq m tq = rmap (map (in_unit per_hertz)) (get_confusion_noise f m t).
Proof.
  intros F T. unfold get_confusion_noise_q, get_confusion_noise. destruct m as [s|].
  - destruct (String.eqb s "robson19"); [now apply robson_si; [|apply resolve_is]|].
    destruct (String.eqb s "huang20"); [now apply huang_si; [|apply resolve_is]|].
    destruct (String.eqb s "thiele21").
    { destruct tq as [|tq], t as [|t]; try contradiction; [now apply thiele_si|].
      rewrite (is_four_years _ _ T). destruct (neqb _ _); [now apply thiele_si|reflexivity]. }
    destruct (String.eqb s "karnesis21"); [now apply karnesis_si; [|apply resolve_is]|reflexivity].
  - rewrite (in_hertz_si _ _ F). cbn [rbind rmap]. rewrite map_map. apply ok_map_ext. intros x. now rewrite in_per_hertz.
Qed.

Lemma values_si l : mapM value (map (in_unit per_hertz) l) = Ok l.
Proof. induction l as [|x l IH]; [reflexivity|]. cbn [map mapM]. rewrite IH, in_per_hertz. reflexivity. Qed.

Lemma confusion_bare_si f tq t c c' : isv time_dim tq t -> same_noise c c' ->
  confusion_bare f tq c = confusion_of Bare f t c'.
Proof.
  intros T C. unfold confusion_bare, confusion_of.
  assert (H : forall (m : res (list val)) m', m = rmap (map (in_unit per_hertz)) m' -> (cn <- m ;; mapM value cn) = m').
  { intros m m' ->. destruct m'; [apply values_si|reflexivity]. }
  destruct c as [s| |g], c' as [s'| |g']; try contradiction.
  - cbn in C. subst s'. apply H, confusion_noise_si; [apply times_hertz_is|exact T].
  - apply H, confusion_noise_si; [apply times_hertz_is|exact T].
  - apply H. apply C, T.
Qed.

Lemma confusion_with_unit_si fq f tq t c c' : all_is frequency_dim fq f -> isv time_dim tq t -> same_noise c c' ->
  res_rel (all_is time_dim) (confusion_with_unit fq tq c) (confusion_of Quantity f t c').
Proof.
  intros F T C. unfold confusion_with_unit, confusion_of.
  assert (H : forall (m : res (list val)) m', m = rmap (map (in_unit per_hertz)) m' -> res_rel (all_is time_dim) m m').
  { intros m m' ->. destruct m'; [|reflexivity]. apply list_is. auto with units. }
  destruct c as [s| |g], c' as [s'| |g']; try contradiction.
  - cbn in C. subst s'. apply H, confusion_noise_si; [exact F|exact T].
  - apply H, confusion_noise_si; [exact F|exact T].
  - apply C; assumption.
Qed.

(** *** The detectors *)
Lemma f_star_is L x : isv length_dim L x -> isv frequency_dim (f_star_q L) (Fin clight / (Fin 2 * Fin PI * x))%num.
Proof.
  intros I. unfold isv in *. unfold f_star_q.
  replace frequency_dim with (ddiv (mkDim 1 0 (-1) 0 0 0 0 0) (dmul (dmul dimensionless dimensionless) length_dim)) by dim_eq. mean.
Qed.

Lemma lisa_si w fq f tq t Lq L a c c' : all_is frequency_dim fq f -> isv time_dim tq t -> isv length_dim Lq L -> same_noise c c' ->
  lisa_psd_q w fq tq Lq a c = rmap (map (in_unit per_hertz)) (lisa_psd w f t L a c').
Proof.
  intros F T I C. unfold lisa_psd_q, lisa_psd. rewrite (in_hertz_si _ _ F). cbn [rbind].
  rewrite (to_value_si frequency_dim hertz _ _ unit_hertz eq_refl frequency_not_none (f_star_is _ _ I)). cbn [rbind].
  destruct (if a then _ else _) as [r|e]; [|reflexivity]. cbn [rbind]. rewrite (confusion_bare_si _ _ _ _ _ T C).
  destruct (confusion_of _ _ _ _) as [cn|e]; [|reflexivity]. cbn [rbind].
  rewrite (to_value_si length_dim meter _ _ unit_meter eq_refl length_not_none I). cbn [rbind].
  destruct (bzip _ _ r) as [b|e]; [|reflexivity]. cbn [rbind]. destruct (bzip nadd b cn) as [p|e]; [|reflexivity]. cbn [rbind].
  destruct (bzip _ _ p) as [q|e]; [|reflexivity]. cbn [rbind rmap]. f_equal. apply in_per_hertz_map.
Qed.

Lemma decigo_si fq f tq t c c' lo hi xlo xhi : all_is frequency_dim fq f -> isv time_dim tq t -> same_noise c c' ->
  isv frequency_dim lo xlo -> isv frequency_dim hi xhi ->
  decigo_psd_q fq tq c lo hi = rmap (map (in_unit per_hertz)) (decigo_psd f t c' xlo xhi).
Proof.
  intros F T C A B. unfold decigo_psd_q, decigo_psd. rewrite (in_hertz_si _ _ F). cbn [rbind].
  rewrite !(to_value_si frequency_dim hertz _ _ unit_hertz eq_refl frequency_not_none A). cbn [rbind].
  rewrite !(to_value_si frequency_dim hertz _ _ unit_hertz eq_refl frequency_not_none B). cbn [rbind].
  rewrite (confusion_bare_si _ _ _ _ _ T C). destruct (confusion_of _ _ _ _) as [cn|e]; [|reflexivity]. cbn [rbind].
  destruct (bzip nadd _ cn) as [p|e]; [|reflexivity]. cbn [rbind]. destruct (bzip _ _ p) as [q|e]; [|reflexivity].
  cbn [rbind rmap]. f_equal. apply in_per_hertz_map.
Qed.

Lemma is_dim d d' x v : d = d' -> is_ d x v -> is_ d' x v.
Proof. now intros <-. Qed.
Lemma unit_is x u : 0 < u_size u -> u_size u = 1 -> is_ (u_dim u) x (Qy x u).
Proof. intros P O. split; [exact P|]. split; [reflexivity|]. unfold si. cbn [mag unit_of]. rewrite O. apply scale_one. Qed.
Lemma tianqin_noise_si Lq L fq f : isv length_dim Lq L -> isv frequency_dim fq f ->
  exists v, tianqin_noise_q Lq fq = Ok v /\ isv time_dim v (tianqin_noise L f).
Proof.
  intros I F. unfold isv in *. unfold tianqin_noise_q, tianqin_noise. pose proof (f_star_is _ _ I) as FS. unfold isv in FS.
  set (fs := f_star_q Lq) in *. cbv zeta. set (fstar := (Fin clight / _)%num) in *.
  assert (K : is_ dimensionless (Fin 1e-4 / f)%num (vdiv (Qy (Fin 1e-4) hertz) fq)).
  { apply (is_dim (ddiv frequency_dim frequency_dim)); [dim_eq|]. apply is_div; [|exact F].
    apply (unit_is (Fin 1e-4) hertz); cbn; lra. }
  destruct (is_add _ _ _ _ _ (is_lit 1) K) as (knee & E1 & I1 & _). unfold vadd. rewrite E1. cbn [rbind].
  set (ua := umul (umul (upowi meter 2) (upowi second (-4))) (upowi hertz (-1))).
  set (ux := umul (upowi meter 2) (upowi hertz (-1))).
  assert (SA : is_ (u_dim ua) (Fin 1e-30) (Qy (Fin 1e-30) ua)).
  { assert (u_size ua = 1) by (unfold ua; cbn [umul upowi u_size meter second hertz]; rewrite !powerRZ_one; lra).
    apply unit_is; lra. }
  assert (SX : is_ (u_dim ux) (Fin 1e-24) (Qy (Fin 1e-24) ux)).
  { assert (u_size ux = 1) by (unfold ux; cbn [umul upowi u_size meter second hertz]; rewrite !powerRZ_one; lra).
    apply unit_is; lra. }
  match goal with |- context [vsum nadd ?a (Qy (Fin 1e-24) ux)] => assert (AC : is_ (u_dim ux)
    (Fin 4 * Fin 1e-30 / (Fin 2 * Fin PI * f) ^^ 4 * (Fin 1 + Fin 1e-4 / f))%num a) end.
  { eapply is_dim; [|mean]. dim_eq. }
  destruct (is_add _ _ _ _ _ AC SX) as (noise & E2 & I2 & _). rewrite E2. cbn [rbind].
  assert (RS : is_ dimensionless (Fin 0.6 * (f / fstar) ^^ 2)%num (vmul (lit 0.6) (vpowi (vdiv fq fs) 2))).
  { eapply is_dim; [|mean]. dim_eq. }
  destruct (is_add _ _ _ _ _ (is_lit 1) RS) as (resp & E3 & I3 & _). rewrite E3. cbn [rbind].
  eexists. split; [reflexivity|]. eapply is_dim; [|mean]. dim_eq.
Qed.

Lemma tianqin_si fq f tq t Lq L c c' : all_is frequency_dim fq f -> isv time_dim tq t -> isv length_dim Lq L -> same_noise c c' ->
  tianqin_psd_q fq tq Lq c = rmap (map (in_unit per_hertz)) (tianqin_psd f t L c').
Proof.
  intros F T I C. unfold tianqin_psd_q, tianqin_psd.
  destruct (rel_mapM_total (isv frequency_dim) (isv time_dim) (tianqin_noise_q Lq) (tianqin_noise L) fq f F
              (fun x y => tianqin_noise_si Lq L x y I)) as (p & -> & P). cbn [rbind].
  pose proof (confusion_with_unit_si _ _ _ _ _ _ F T C) as R.
  destruct (confusion_with_unit fq tq c) as [cn|e], (confusion_of Quantity f t c') as [cn'|e']; cbn [res_rel] in R; try contradiction;
    [|now subst]. cbn [rbind].
  assert (B : res_rel (Forall2 (isv time_dim)) (bzipM vadd p cn) (bzip nadd (map (tianqin_noise L) f) cn')).
  { eapply rel_bzipM; [exact P|exact R|]. intros x y u v X U. destruct (is_add _ _ _ _ _ X U) as (s & E & S & _).
    unfold vadd. rewrite E. exact S. }
  destruct (bzipM vadd p cn) as [q|e], (bzip nadd (map (tianqin_noise L) f) cn') as [q'|e']; cbn [res_rel] in B; try contradiction;
    [|now subst]. unfold in_place. cbn [rbind]. replace (length q) with (length q') by (clear -B; induction B; cbn; congruence).
  replace (length p) with (length f) by (clear -P; rewrite <- (map_length (tianqin_noise L) f); induction P; cbn; congruence).
  destruct (length q' =? length f)%nat; [|reflexivity]. cbn [rbind rmap].
  eapply mapM_to; [exact B|]. intros v x V. apply (to_in time_dim); auto with units.
Qed.

(** *** Any instrument *)
Lemma same_auto d c c' : same_noise c c' -> same_noise (resolve_conf_q d c) (resolve_conf d c').
Proof.
  intros C. destruct c as [s| |g], c' as [s'| |g']; try contradiction; try exact C. cbn in C. subst s'.
  cbn [resolve_conf_q resolve_conf]. destruct (String.eqb s "auto"); reflexivity.
Qed.
Lemma lisa_L_is : isv length_dim lisa_L_q lisa_L.
Proof. apply (unit_is _ meter); cbn; lra. Qed.
Lemma tianqin_L_is : isv length_dim tianqin_L_q tianqin_L.
Proof. split; [unfold proper; cbn; lra|]. split; [reflexivity|]. unfold si, tianqin_L_q, tianqin_L. cbn [mag unit_of kilometer u_size]. do 2 f_equal. lra. Qed.
Lemma resolve_L d x Lq L : isv length_dim d x -> auto_is length_dim Lq L -> isv length_dim (resolve d Lq) (resolve x L).
Proof. intros D I. destruct Lq, L; try contradiction; assumption. Qed.

Theorem psd_si w fq f instrument p p' tq t Lq L a c c' : all_is frequency_dim fq f -> auto_is time_dim tq t -> auto_is length_dim Lq L ->
  same_noise c c' -> instrument <> "custom"%string ->
  power_spectral_density_q w fq instrument p tq Lq a c =
  rmap (map (in_unit per_hertz)) (power_spectral_density w f instrument p' t L a c').
Proof.
  intros F T I C N. unfold power_spectral_density_q, power_spectral_density.
  destruct (String.eqb instrument "LISA").
  { apply lisa_si; auto using resolve_is, same_auto. apply resolve_L; [exact lisa_L_is|exact I]. }
  destruct (String.eqb instrument "TianQin").
  { apply tianqin_si; auto using resolve_is, same_auto. apply resolve_L; [exact tianqin_L_is|exact I]. }
  destruct (String.eqb instrument "DECIGO").
  { apply decigo_si; auto using resolve_is, same_auto; apply (unit_is _ hertz); cbn; lra. }
  apply String.eqb_neq in N. rewrite N. reflexivity.
Qed.
