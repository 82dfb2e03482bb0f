(** UnitsStrain.v -- the strain amplitudes of quantities are those of their SI values, whatever the dimensions. *)
From Coq Require Import Reals ZArith List Bool Lra Lia.
From Verif Require Import Num NumFacts Np NpFacts Utils Strain Evol Units UnitsSpec UnitsFacts UnitsThms.
Import ListNotations.
Open Scope R_scope.
Open Scope res_scope.

(** *** Array code does to related arrays what it does to related entries *)
Lemma rel_bind {A B C D} (R : A -> B -> Prop) (T : C -> D -> Prop) m m' f f' : res_rel R m m' ->
  (forall x y, R x y -> res_rel T (f x) (f' y)) -> res_rel T (rbind m f) (rbind m' f').
Proof. intros M F. destruct m, m'; cbn in *; try contradiction; auto. Qed.

Lemma rel_length {A B} (R : A -> B -> Prop) l l' : Forall2 R l l' -> length l = length l'.
Proof. intros H. induction H; cbn; congruence. Qed.

Section Rel.
Context {A A' B B' C C' : Type}.
Variables (RA : A -> A' -> Prop) (RB : B -> B' -> Prop) (RC : C -> C' -> Prop).

Lemma rel_mapM f f' l l' : Forall2 RA l l' -> (forall x y, RA x y -> res_rel RC (f x) (f' y)) ->
  res_rel (Forall2 RC) (mapM f l) (mapM f' l').
Proof.
  intros H F. induction H as [|x y l l' XY H IH]; [constructor|]. cbn [mapM]. eapply rel_bind; [now apply F|].
  intros a b AB. eapply rel_bind; [exact IH|]. intros s t ST. cbn. now constructor.
Qed.
Lemma rel_map2M f f' l1 l1' l2 l2' : Forall2 RA l1 l1' -> Forall2 RB l2 l2' ->
  (forall x y u v, RA x y -> RB u v -> res_rel RC (f x u) (f' y v)) ->
  res_rel (Forall2 RC) (map2M f l1 l2) (map2M f' l1' l2').
Proof.
  intros H1 H2 F. revert l2 l2' H2. induction H1 as [|x y l1 l1' XY H1 IH]; intros l2 l2' H2; [constructor|].
  destruct H2 as [|u v l2 l2' UV H2]; [constructor|]. cbn [map2M]. eapply rel_bind; [now apply F|].
  intros a b AB. eapply rel_bind; [now apply IH|]. intros s t ST. cbn. now constructor.
Qed.
Lemma rel_bzipM f f' l1 l1' l2 l2' : Forall2 RA l1 l1' -> Forall2 RB l2 l2' ->
  (forall x y u v, RA x y -> RB u v -> res_rel RC (f x u) (f' y v)) ->
  res_rel (Forall2 RC) (bzipM f l1 l2) (bzipM f' l1' l2').
Proof.
  intros H1 H2 F. unfold bzipM. rewrite (rel_length _ _ _ H1), (rel_length _ _ _ H2).
  destruct (length l1' =? length l2')%nat eqn:L; [now apply rel_map2M|].
  assert (ML : forall y v l l', RA y v -> Forall2 RB l l' -> res_rel (Forall2 RC) (mapM (f y) l) (mapM (f' v) l')).
  { intros y v l l' YV H. induction H as [|p q l l' PQ H IH]; [constructor|]. cbn [mapM]. eapply rel_bind; [now apply F|].
    intros a b AB. eapply rel_bind; [exact IH|]. intros s t ST. cbn. now constructor. }
  assert (MR : forall y v l l', RB y v -> Forall2 RA l l' ->
             res_rel (Forall2 RC) (mapM (fun x => f x y) l) (mapM (fun x => f' x v) l')).
  { intros y v l l' YV H. apply rel_mapM; [exact H|]. intros; now apply F. }
  destruct H1 as [|a a' l1 l1' AA H1].
  - destruct H2 as [|b b' l2 l2' BB H2]; [reflexivity|]. destruct H2; [constructor|reflexivity].
  - destruct H1 as [|c c' l1 l1' CC H1].
    + now apply ML.
    + destruct H2 as [|b b' l2 l2' BB H2]; [reflexivity|]. destruct H2; [|reflexivity].
      apply MR; [exact BB|]. constructor; [exact AA|constructor; assumption].
Qed.
Lemma rel_bzip f f' l1 l1' l2 l2' : Forall2 RA l1 l1' -> Forall2 RB l2 l2' ->
  (forall x y u v, RA x y -> RB u v -> RC (f x u) (f' y v)) ->
  res_rel (Forall2 RC) (bzip f l1 l2) (bzip f' l1' l2').
Proof. intros H1 H2 F. apply rel_bzipM; [exact H1|exact H2|]. intros. now apply F. Qed.
End Rel.

Lemma rel_bzip2 {A A' B B' C C'} (RA : A -> A' -> Prop) (RB : B -> B' -> Prop) (RC : C -> C' -> Prop) f f' l1 l1' l2 l2' :
  Forall2 (Forall2 RA) l1 l1' -> Forall2 (Forall2 RB) l2 l2' ->
  (forall x y u v, RA x y -> RB u v -> RC (f x u) (f' y v)) ->
  res_rel (Forall2 (Forall2 RC)) (bzip2 f l1 l2) (bzip2 f' l1' l2').
Proof. intros H1 H2 F. eapply rel_bzipM; [exact H1|exact H2|]. intros. eapply rel_bzip; eauto. Qed.
Lemma rel_bzip3 {A A' B B' C C'} (RA : A -> A' -> Prop) (RB : B -> B' -> Prop) (RC : C -> C' -> Prop) f f' l1 l1' l2 l2' :
  Forall2 (Forall2 (Forall2 RA)) l1 l1' -> Forall2 (Forall2 (Forall2 RB)) l2 l2' ->
  (forall x y u v, RA x y -> RB u v -> RC (f x u) (f' y v)) ->
  res_rel (Forall2 (Forall2 (Forall2 RC))) (bzip3 f l1 l2) (bzip3 f' l1' l2').
Proof. intros H1 H2 F. eapply rel_bzipM; [exact H1|exact H2|]. intros. eapply rel_bzip2; eauto. Qed.
Lemma rel_newaxis {A B} (R : A -> B -> Prop) l l' : Forall2 R l l' -> Forall2 (Forall2 R) (newaxis l) (newaxis l').
Proof. intros H. induction H; cbn; constructor; auto. Qed.
Lemma rel_newaxis2 {A B} (R : A -> B -> Prop) l l' : Forall2 (Forall2 R) l l' ->
  Forall2 (Forall2 (Forall2 R)) (newaxis2 l) (newaxis2 l').
Proof. intros H. unfold newaxis2. induction H; cbn; constructor; auto. now apply (rel_newaxis R). Qed.
Lemma rel_map {A B C D} (R : A -> B -> Prop) (T : C -> D -> Prop) f g l l' : Forall2 R l l' ->
  (forall x y, R x y -> T (f x) (g y)) -> Forall2 T (map f l) (map g l').
Proof. intros H F. induction H; cbn; constructor; auto. Qed.
Lemma eq_forall2 {A} (l : list A) : Forall2 eq l l.
Proof. induction l; constructor; auto. Qed.
Lemma forall2_refl {A} (R : A -> A -> Prop) l : (forall x, R x x) -> Forall2 R l l.
Proof. intros H. induction l; constructor; auto. Qed.

(** *** Entries *)
(** A value with a unit attached, and its SI value. *)
Definition carries (v : val) (x : num) : Prop := is_quantity v = true /\ reads v x.

Lemma reads_is v x : reads v x -> is_ (dim_of v) x v.
Proof. intros (P & S). repeat split; assumption. Qed.
Lemma is_reads d v x : is_ d x v -> reads v x.
Proof. intros (P & _ & S). split; assumption. Qed.
Lemma carries_decompose v x : carries v x -> decompose_value v = Ok x.
Proof. intros (Q & _ & S). destruct v; [discriminate|]. cbn. f_equal. exact S. Qed.

Lemma h0_indep_reads m f d x y z : reads m x -> reads f y -> reads d z -> carries (h0_indep_q m f d) (h0_indep x y z).
Proof.
  intros M F D. apply reads_is in M, F, D. split; [unfold h0_indep_q; isq|]. eapply is_reads. unfold h0_indep_q. mean.
Qed.
Lemma hc_indep_reads m f d e x y z : reads m x -> reads f y -> reads d z -> carries (hc_indep_q m f e d) (hc_indep x y e z).
Proof.
  intros M F D. apply reads_is in M, F, D. split; [unfold hc_indep_q; isq|]. eapply is_reads. unfold hc_indep_q. mean.
Qed.
Lemma mul_carries_r v x y : carries v x -> carries (vmul v (Pl y)) (x * y)%num.
Proof.
  intros (Q & R). split; [isq; rewrite Q; reflexivity|]. apply reads_is in R. eapply is_reads. mean.
Qed.
Lemma mul_carries_l v x y : carries v x -> carries (vmul (Pl y) v) (y * x)%num.
Proof.
  intros (Q & R). split; [isq; rewrite Q; reflexivity|]. apply reads_is in R. eapply is_reads. mean.
Qed.

(** *** Angles *)

Lemma scale_back x : (x / Fin (u_size radian) = x)%num.
Proof. rewrite <- (scale_one x) at 1. cbn [radian u_size]. rewrite scale_div by lra. replace (1 / 1) with 1 by field. apply scale_one. Qed.
Lemma to_radians_angle v x : angle v x -> to_radians v = Ok x.
Proof.
  intros (P & D & S). destruct v as [y|y u].
  - cbn. f_equal. rewrite <- S. symmetry. apply si_pl.
  - cbn [to_radians]. unfold to_value.
    rewrite (to_unit (Qy y u) radian angle_dim x) by (try apply radian_pos; repeat split; auto).
    cbn [rbind in_unit mag]. f_equal. apply scale_back.
Qed.
Lemma sky_angle_angle v x : sky_angle v x -> angle v x.
Proof. intros (P & D & S). repeat split; auto. Qed.

Lemma amplitude_si lat lon psi inc a b p i : sky_angle lat a -> angle lon b -> angle psi p -> angle inc i ->
  amplitude_modulation_q lat lon psi inc = Ok (amplitude_modulation_elem a b p i).
Proof.
  intros LA LO PS IN. unfold amplitude_modulation_q.
  assert (IR : is_ angle_dim (Fin (PI/2)) (Qy (Fin (PI/2)) radian)).
  { repeat split; [apply radian_pos|apply scale_one]. }
  destruct (is_sub _ _ _ _ _ IR LA) as (t & E & It & _). unfold vsub. rewrite E. cbn [rbind].
  rewrite (to_radians_angle _ _ (sky_angle_angle _ _ It)), (to_radians_angle _ _ LO), (to_radians_angle _ _ PS),
    (to_radians_angle _ _ IN). reflexivity.
Qed.

Lemma mapM_all_ok {B} (amp : list (res B)) xs : Forall2 (fun r x => r = Ok x) amp xs -> mapM (fun r => r) amp = Ok xs.
Proof. intros H. induction H; [reflexivity|]. subst. cbn. rewrite IHForall2. reflexivity. Qed.

Lemma amplitude_arr_si s t : sky_reads s t -> amplitude_modulation_arr_q s = amplitude_modulation t.
Proof.
  intros (P & O & I). unfold amplitude_modulation_arr_q, amplitude_modulation.
  destruct (position_q s) as [pos|], (position t) as [pos'|]; try contradiction; [|reflexivity].
  destruct (inclination_q s) as [inc|], (inclination t) as [inc'|]; try contradiction; [|reflexivity].
  destruct (polarisation_q s) as [psi|], (polarisation t) as [psi'|]; try contradiction; [|reflexivity].
  cbn [opt_rel] in *.
  set (R3 := fun (v : val * val * val) (x : num * num * num) =>
    (sky_angle (fst (fst v)) (fst (fst x)) /\ angle (snd (fst v)) (snd (fst x))) /\ angle (snd v) (snd x)).
  pose proof (rel_bzip _ _ R3 (fun (p : val * val) x => (p, x)) (fun (p : num * num) x => (p, x)) _ _ _ _ P O) as Z.
  specialize (Z (fun x y u v A B => conj A B)).
  destruct (bzip (fun (p : val * val) x => (p, x)) pos psi) as [pp|e],
    (bzip (fun (p : num * num) x => (p, x)) pos' psi') as [pp'|e']; cbn [res_rel] in Z; try contradiction; cbn [rbind]; [|congruence].
  pose proof (rel_bzip R3 angle (fun r x => r = Ok x)
     (fun (q : val * val * val) i => amplitude_modulation_q (fst (fst q)) (snd (fst q)) (snd q) i)
     (fun (q : num * num * num) i => amplitude_modulation_elem (fst (fst q)) (snd (fst q)) (snd q) i) _ _ _ _ Z I) as Y.
  assert (YH : forall (x : val * val * val) (y : num * num * num) (u : val) (v : num), R3 x y -> angle u v ->
     amplitude_modulation_q (fst (fst x)) (snd (fst x)) (snd x) u =
     Ok (amplitude_modulation_elem (fst (fst y)) (snd (fst y)) (snd y) v)).
  { intros x y u v ((LA & LO) & PS) IN. now apply amplitude_si. }
  specialize (Y YH). clear YH.
  destruct (bzip _ pp inc) as [amp|e], (bzip _ pp' inc') as [amp'|e']; cbn [res_rel] in Y; try contradiction; cbn [rbind].
  - now apply mapM_all_ok.
  - congruence.
Qed.

Lemma mapM_carries l l' : Forall2 carries l l' -> mapM decompose_value l = Ok l'.
Proof. intros H. induction H; [reflexivity|]. cbn. rewrite (carries_decompose _ _ H), IHForall2. reflexivity. Qed.
Lemma mapM_of {A B} (f : A -> res B) R l l' : Forall2 R l l' -> (forall x y, R x y -> f x = Ok y) -> mapM f l = Ok l'.
Proof. intros H F. induction H; [reflexivity|]. cbn. rewrite (F _ _ H), IHForall2. reflexivity. Qed.
Lemma decompose3 (h : list (list (list val))) h' : Forall2 (Forall2 (Forall2 carries)) h h' ->
  mapM (mapM (mapM decompose_value)) h = Ok h'.
Proof.
  intros H. eapply mapM_of; [exact H|]. intros x y XY. eapply mapM_of; [exact XY|]. intros u v UV. now apply mapM_carries.
Qed.

Lemma modulate_si s t h h' : sky_reads s t -> Forall2 (Forall2 (Forall2 carries)) h h' ->
  res_rel (Forall2 (Forall2 (Forall2 carries))) (modulate_q s h) (modulate t h').
Proof.
  intros S H. unfold modulate_q, modulate.
  assert (E : sky_given_q s = sky_given t).
  { destruct S as (P & O & I). unfold sky_given_q, sky_given.
    destruct (position_q s), (position t); try contradiction; destruct (polarisation_q s), (polarisation t); try contradiction;
      destruct (inclination_q s), (inclination t); try contradiction; reflexivity. }
  rewrite E. destruct (sky_given t); [|exact H]. rewrite (amplitude_arr_si _ _ S).
  destruct (amplitude_modulation t) as [amp|e]; cbn [rbind]; [|reflexivity].
  eapply rel_bzip3 with (RA := eq); [|exact H|].
  - apply forall2_refl. intros. apply forall2_refl. intros. apply forall2_refl. reflexivity.
  - intros x y u v <- C. now apply mul_carries_l.
Qed.

Lemma h_0_n_si jv gi m f ecc n d s m' f' d' t :
  Forall2 reads m m' -> Forall2 (Forall2 reads) f f' -> Forall2 reads d d' -> sky_reads s t ->
  h_0_n_q jv gi m f ecc n d s = h_0_n jv gi m' f' ecc n d' t.
Proof.
  intros M F D S. unfold h_0_n_q, h_0_n. destruct (existsb _ n); [reflexivity|].
  set (R2 := fun (v : val * val) (x : num * num) => reads (fst v) (fst x) /\ reads (snd v) (snd x)).
  pose proof (rel_bzip2 reads reads R2 (fun m f => (m, f)) (fun m f => (m, f)) _ _ _ _ (rel_newaxis _ _ _ M) F
                (fun x y u v A B => conj A B)) as Z1.
  destruct (bzip2 _ (newaxis m) f) as [mf|e], (bzip2 _ (newaxis m') f') as [mf'|e']; cbn [res_rel] in Z1; try contradiction;
    cbn [rbind]; [|congruence].
  pose proof (rel_bzip2 R2 reads carries (fun (q : val * val) d => h0_indep_q (fst q) (snd q) d)
                (fun (q : num * num) d => h0_indep (fst q) (snd q) d) _ _ _ _ Z1 (rel_newaxis _ _ _ D)
                (fun x y u v A B => h0_indep_reads _ _ _ _ _ _ (proj1 A) (proj2 A) B)) as Z2.
  destruct (bzip2 _ mf (newaxis d)) as [ind|e], (bzip2 _ mf' (newaxis d')) as [ind'|e']; cbn [res_rel] in Z2; try contradiction;
    cbn [rbind]; [|congruence].
  assert (Z3 : res_rel (Forall2 (Forall2 (Forall2 carries)))
     (bzip3 (fun v x => vmul v (Pl x)) (newaxis2 ind) (n_dependent (h0_dep jv gi) n ecc))
     (bzip3 nmul (newaxis2 ind') (n_dependent (h0_dep jv gi) n ecc))).
  { eapply rel_bzip3 with (RB := eq); [apply rel_newaxis2; exact Z2| |].
    - apply forall2_refl. intros. apply forall2_refl. intros. apply forall2_refl. reflexivity.
    - intros x y u v C <-. now apply mul_carries_r. }
  destruct (bzip3 _ (newaxis2 ind) _) as [h|e], (bzip3 _ (newaxis2 ind') _) as [h'|e']; cbn [res_rel] in Z3; try contradiction;
    cbn [rbind]; [|congruence].
  pose proof (modulate_si s t h h' S Z3) as Z4.
  destruct (modulate_q s h) as [k|e], (modulate t h') as [k'|e']; cbn [res_rel] in Z4; try contradiction; cbn [rbind]; [|congruence].
  now apply decompose3.
Qed.

Lemma h_c_n_si jv gi m f ecc n d s m' f' d' t :
  Forall2 reads m m' -> Forall2 (Forall2 reads) f f' -> Forall2 reads d d' -> sky_reads s t ->
  h_c_n_q jv gi m f ecc n d s = h_c_n jv gi m' f' ecc n d' t.
Proof.
  intros M F D S. unfold h_c_n_q, h_c_n. destruct (existsb _ n); [reflexivity|].
  set (R2 := fun (v : val * val) (x : num * num) => reads (fst v) (fst x) /\ reads (snd v) (snd x)).
  pose proof (rel_bzip2 reads reads R2 (fun m f => (m, f)) (fun m f => (m, f)) _ _ _ _ (rel_newaxis _ _ _ M)
                (rel_newaxis _ _ _ D) (fun x y u v A B => conj A B)) as Z1.
  destruct (bzip2 _ (newaxis m) (newaxis d)) as [md|e], (bzip2 _ (newaxis m') (newaxis d')) as [md'|e'];
    cbn [res_rel] in Z1; try contradiction; cbn [rbind]; [|congruence].
  set (R3 := fun (v : val * val * val) (x : num * num * num) => R2 (fst v) (fst x) /\ reads (snd v) (snd x)).
  pose proof (rel_bzip2 R2 reads R3 (fun (q : val * val) f => (q, f)) (fun (q : num * num) f => (q, f)) _ _ _ _ Z1 F
                (fun x y u v A B => conj A B)) as Z2.
  destruct (bzip2 _ md f) as [mdf|e], (bzip2 _ md' f') as [mdf'|e']; cbn [res_rel] in Z2; try contradiction;
    cbn [rbind]; [|congruence].
  assert (EE : Forall2 (Forall2 eq) ecc ecc) by (apply forall2_refl; intros; apply forall2_refl; reflexivity).
  assert (ZI : forall (x : val * val * val) (y : num * num * num) (u v : num), R3 x y -> u = v ->
    carries (hc_indep_q (fst (fst x)) (snd x) u (snd (fst x))) (hc_indep (fst (fst y)) (snd y) v (snd (fst y)))).
  { intros x y u v ((A & B) & C) <-. now apply hc_indep_reads. }
  pose proof (rel_bzip2 R3 eq carries
                (fun (q : val * val * val) e => hc_indep_q (fst (fst q)) (snd q) e (snd (fst q)))
                (fun (q : num * num * num) e => hc_indep (fst (fst q)) (snd q) e (snd (fst q))) _ _ _ _ Z2 EE ZI) as Z5.
  destruct (bzip2 _ mdf ecc) as [ind|e], (bzip2 _ mdf' ecc) as [ind'|e']; cbn [res_rel] in Z5; try contradiction;
    cbn [rbind]; [|congruence].
  assert (Z3 : res_rel (Forall2 (Forall2 (Forall2 carries)))
     (bzip3 (fun v x => vmul v (Pl x)) (newaxis2 ind) (n_dependent (hc_dep jv gi) n ecc))
     (bzip3 nmul (newaxis2 ind') (n_dependent (hc_dep jv gi) n ecc))).
  { eapply rel_bzip3 with (RB := eq); [apply rel_newaxis2; exact Z5| |].
    - apply forall2_refl. intros. apply forall2_refl. intros. apply forall2_refl. reflexivity.
    - intros x y u v C <-. now apply mul_carries_r. }
  destruct (bzip3 _ (newaxis2 ind) _) as [h|e], (bzip3 _ (newaxis2 ind') _) as [h'|e']; cbn [res_rel] in Z3; try contradiction;
    cbn [rbind]; [|congruence].
  pose proof (modulate_si s t h h' S Z3) as Z4.
  destruct (modulate_q s h) as [k|e], (modulate t h') as [k'|e']; cbn [res_rel] in Z4; try contradiction; cbn [rbind]; [|congruence].
  now apply decompose3.
Qed.

(** *** Consequences *)
Lemma amplitude_wrong lat lon psi inc a b : sky_angle lat a -> angle lon b ->
  is_quantity psi = true /\ dim_of psi <> angle_dim \/
  (exists p, angle psi p) /\ is_quantity inc = true /\ dim_of inc <> angle_dim ->
  amplitude_modulation_q lat lon psi inc = Err UnitError.
Proof.
  assert (W : forall v, is_quantity v = true -> dim_of v <> angle_dim -> to_radians v = Err UnitError).
  { intros v Q D. destruct v as [x|x u]; [discriminate|]. cbn [to_radians]. unfold to_value. now rewrite to_wrong. }
  intros LA LO H. unfold amplitude_modulation_q.
  assert (IR : is_ angle_dim (Fin (PI/2)) (Qy (Fin (PI/2)) radian)).
  { repeat split; [apply radian_pos|apply scale_one]. }
  destruct (is_sub _ _ _ _ _ IR LA) as (t & E & It & _). unfold vsub. rewrite E. cbn [rbind].
  rewrite (to_radians_angle _ _ (sky_angle_angle _ _ It)), (to_radians_angle _ _ LO). cbn [rbind].
  destruct H as [(Q & D)|((p & P) & Q & D)].
  - now rewrite W.
  - rewrite (to_radians_angle _ _ P). cbn [rbind]. now rewrite W.
Qed.

(** What is read from a list of values. *)
Lemma reads_all l : Forall proper l -> Forall2 reads l (map si l).
Proof. intros H. induction H; cbn; constructor; auto. now split. Qed.

Definition no_sky_q : sky_q := mkSkyQ None None None.
Lemma no_sky_reads : sky_reads no_sky_q no_sky.
Proof. repeat split. Qed.

(** A forgotten unit: the number is read in SI base units. *)
Lemma forgotten_distance jv gi m f ecc n x : proper m -> proper f ->
  h_0_n_q jv gi [m] [[f]] ecc n [Pl x] no_sky_q = h_0_n_q jv gi [m] [[f]] ecc n [Qy x meter] no_sky_q /\
  h_c_n_q jv gi [m] [[f]] ecc n [Pl x] no_sky_q = h_c_n_q jv gi [m] [[f]] ecc n [Qy x meter] no_sky_q.
Proof.
  intros M F.
  assert (RM : Forall2 reads [m] [si m]) by (constructor; [split; auto|constructor]).
  assert (RF : Forall2 (Forall2 reads) [[f]] [[si f]]) by (constructor; [constructor; [split; auto|constructor]|constructor]).
  assert (RD : Forall2 reads [Pl x] [x]) by (constructor; [split; [apply proper_pl|apply si_pl]|constructor]).
  assert (RE : Forall2 reads [Qy x meter] [x])
    by (constructor; [split; [unfold proper; cbn; lra|apply scale_one]|constructor]).
  split.
  - rewrite (h_0_n_si jv gi _ _ ecc n _ _ _ _ _ _ RM RF RD no_sky_reads).
    now rewrite (h_0_n_si jv gi _ _ ecc n _ _ _ _ _ _ RM RF RE no_sky_reads).
  - rewrite (h_c_n_si jv gi _ _ ecc n _ _ _ _ _ _ RM RF RD no_sky_reads).
    now rewrite (h_c_n_si jv gi _ _ ecc n _ _ _ _ _ _ RM RF RE no_sky_reads).
Qed.

(** Whatever the dimensions, one source at one time gets an array of strains. *)
Lemma strain_any_dimension jv gi m f e n d : proper m -> proper f -> proper d -> Forall (fun k => (1 <= k)%Z) n ->
  h_0_n_q jv gi [m] [[f]] [[e]] n [d] no_sky_q =
    Ok [[map (fun k => (h0_indep (si m) (si f) (si d) * h0_dep jv gi k e)%num) n]] /\
  h_c_n_q jv gi [m] [[f]] [[e]] n [d] no_sky_q =
    Ok [[map (fun k => (hc_indep (si m) (si f) e (si d) * hc_dep jv gi k e)%num) n]].
Proof.
  intros M F D N.
  assert (RM : Forall2 reads [m] [si m]) by (constructor; [split; auto|constructor]).
  assert (RF : Forall2 (Forall2 reads) [[f]] [[si f]]) by (constructor; [constructor; [split; auto|constructor]|constructor]).
  assert (RD : Forall2 reads [d] [si d]) by (constructor; [split; auto|constructor]).
  assert (NB : existsb (fun k => (k <? 1)%Z) n = false).
  { clear - N. induction N as [|k n K N IH]; [reflexivity|]. cbn [existsb]. rewrite IH.
    replace (k <? 1)%Z with false by (symmetry; apply Z.ltb_ge; lia). reflexivity. }
  rewrite (h_0_n_si jv gi _ _ [[e]] n _ _ _ _ _ _ RM RF RD no_sky_reads).
  rewrite (h_c_n_si jv gi _ _ [[e]] n _ _ _ _ _ _ RM RF RD no_sky_reads).
  unfold h_0_n, h_c_n. rewrite NB.
  split; do 6 (cbn -[h0_indep hc_indep h0_dep hc_dep bzip]; rewrite ?bzip_single_l); rewrite ?map_map; reflexivity.
Qed.
