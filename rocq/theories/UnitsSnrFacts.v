(** UnitsSnrFacts.v -- snr.py on quantities is snr.py on their SI values. *)
From Coq Require Import String Reals ZArith List Bool Lra Lia.
From Verif Require Import Num NumFacts Np NpFacts Utils UtilsFacts Strain Evol EvolFacts Psd Snr Units UnitsSpec UnitsFacts UnitsThms UnitsStrain
  UnitsEvol UnitsEvolSpec UnitsEvolFacts UnitsEvolThms UnitsPsd UnitsPsdSpec UnitsPsdFacts UnitsSnr UnitsSnrSpec.
Import ListNotations.
Open Scope list_scope.
Open Scope R_scope.
Open Scope res_scope.

(** *** Noise *)
Lemma isv_double v x : isv frequency_dim v x -> isv frequency_dim (vmul (lit 2) v) (Fin 2 * x)%num.
Proof. intros I. unfold isv in *. eapply is_dim; [|mean]. dim_eq. Qed.
Lemma isv_times k v x d : isv d v x -> isv d (vmul (Pl k) v) (k * x)%num.
Proof. intros I. unfold isv in *. apply (is_dim (dmul dimensionless d)); [apply dmul_none_l|]. mean. Qed.

Lemma noise_si w kw kw' sc sc' tq t fq f : same_settings kw kw' -> same_curve sc sc' -> isv time_dim tq t -> all_is frequency_dim fq f ->
  res_rel (fun v x => exists s, powers s v x) (noise_q w kw sc tq fq) (noise w kw' sc' t f).
Proof.
  intros (KI & KC & KL & KA & KN) C T F. unfold noise_q, noise. destruct sc as [g|], sc' as [g'|]; try contradiction.
  - destruct C as (s & C). cbn. exists s. induction F as [|v x fq f V F IH]; constructor; auto.
  - clear C. rewrite KI, KA. destruct (string_dec (kw_instrument kw') "custom") as [E|E].
    + rewrite E. unfold power_spectral_density_q, power_spectral_density. cbn [String.eqb Ascii.eqb Bool.eqb].
      destruct (kwq_custom kw) as [p|], (kw_custom kw') as [p'|]; try contradiction; [|reflexivity].
      apply (KC fq f _ _ (Given tq) (Given t)); auto.
    + rewrite (psd_si w fq f _ _ (kw_custom kw') (Given tq) (Given t) _ (kw_L kw') _ _ (kw_confusion kw') F T KL KN E).
      destruct (power_spectral_density _ _ _ _ _ _ _ _) as [x|e]; [|reflexivity]. cbn. exists (u_size per_hertz).
      exact (list_isz _ _ x unit_per_hertz).
Qed.

Lemma rel_firstn {A B} (R : A -> B -> Prop) n l l' : Forall2 R l l' -> Forall2 R (firstn n l) (firstn n l').
Proof. intros H. revert n. induction H; intros [|n]; constructor; auto. Qed.
Lemma rel_skipn {A B} (R : A -> B -> Prop) n l l' : Forall2 R l l' -> Forall2 R (skipn n l) (skipn n l').
Proof. intros H. revert n. induction H as [|x y l l' XY H IH]; intros [|n]; cbn; auto. Qed.
Lemma rel_regroup {A B C D} (R : A -> B -> Prop) (T : C -> D -> Prop) s s' : Forall2 (Forall2 T) s s' -> forall l l', Forall2 R l l' ->
  Forall2 (Forall2 R) (regroup s l) (regroup s' l').
Proof.
  intros H. induction H as [|r r' s s' RR H IH]; intros l l' L; [constructor|]. cbn. rewrite (rel_length _ _ _ RR).
  constructor; [now apply rel_firstn|]. apply IH. now apply rel_skipn.
Qed.
Lemma rel_regroup3 {A B C D} (R : A -> B -> Prop) (T : C -> D -> Prop) s s' : Forall2 (Forall2 (Forall2 T)) s s' -> forall l l', Forall2 R l l' ->
  Forall2 (Forall2 (Forall2 R)) (regroup3 s l) (regroup3 s' l').
Proof.
  intros H. induction H as [|r r' s s' RR H IH]; intros l l' L; [constructor|]. cbn.
  rewrite (rel_length _ _ _ (rel_concat _ _ _ RR)).
  constructor; [now apply (rel_regroup _ _ _ _ RR)|]. apply IH. now apply rel_skipn.
Qed.

Lemma noise2_si w kw kw' sc sc' tq t fq f : same_settings kw kw' -> same_curve sc sc' -> isv time_dim tq t ->
  Forall2 (all_is frequency_dim) fq f ->
  res_rel (fun v x => exists s, Forall2 (powers s) v x) (noise2_q w kw sc tq fq) (noise2 w kw' sc' t f).
Proof.
  intros K C T F. unfold noise2_q, noise2. eapply rel_bind; [apply noise_si; eauto; apply rel_concat; exact F|].
  intros v x (s & P). cbn. exists s. exact (rel_regroup _ _ _ _ F _ _ P).
Qed.
Lemma noise3_si w kw kw' sc sc' tq t fq f : same_settings kw kw' -> same_curve sc sc' -> isv time_dim tq t ->
  Forall2 (Forall2 (all_is frequency_dim)) fq f ->
  res_rel (fun v x => exists s, Forall2 (Forall2 (powers s)) v x) (noise3_q w kw sc tq fq) (noise3 w kw' sc' t f).
Proof.
  intros K C T F. unfold noise3_q, noise3. cbv zeta.
  assert (FL : all_is frequency_dim (concat (map (@concat val) fq)) (concat (map (@concat num) f))).
  { apply rel_concat. eapply rel_map; [exact F|]. intros. now apply rel_concat. }
  eapply rel_bind; [apply noise_si; eauto|]. intros v x (s & P). rewrite (rel_length _ _ _ P), (rel_length _ _ _ FL).
  destruct (_ =? _)%nat; [|reflexivity]. cbn. exists s. exact (rel_regroup3 _ _ _ _ F _ _ P).
Qed.

(** *** Stationary sources *)
Lemma reads_of d v x : isv d v x -> reads v x.
Proof. intros (P & _ & S). now split. Qed.
Lemma all_reads d l l' : all_is d l l' -> Forall2 reads l l'.
Proof. apply forall2_imp. intros. eapply reads_of; eassumption. Qed.
Lemma all_quantities d l l' : d <> dimensionless -> all_is d l l' -> forallb is_quantity l = true.
Proof.
  intros N H. induction H as [|v x l l' V H IH]; [reflexivity|]. cbn. rewrite (not_plain _ _ _ N V). exact IH.
Qed.
Lemma ratio_decompose a b x y : isv time_dim a x -> isv time_dim b y -> decompose_value (vdiv a b) = Ok (x / y)%num.
Proof.
  intros A B. apply carries_decompose. split; [isq; rewrite (not_plain _ _ _ time_not_none A); reflexivity|].
  apply (reads_of (ddiv time_dim time_dim)). unfold isv in *. mean.
Qed.
Lemma root_decompose a b x y : isv time_dim a x -> isv time_dim b y ->
  decompose_value (vpow (vdiv a b) (1/2)) = Ok (nsqrt (x / y)).
Proof.
  intros A B. apply carries_decompose. split; [isq; rewrite (not_plain _ _ _ time_not_none A); reflexivity|].
  apply (reads_of (dpow (ddiv time_dim time_dim) (1/2))). unfold isv, nsqrt in *. mean.
Qed.
Lemma bzip_decompose {A B A' B'} (RA : A -> A' -> Prop) (RB : B -> B' -> Prop) (f : A -> B -> val) (g : A' -> B' -> num) l1 l1' l2 l2' :
  Forall2 RA l1 l1' -> Forall2 RB l2 l2' -> (forall a b x y, RA a x -> RB b y -> decompose_value (f a b) = Ok (g x y)) ->
  (r <- bzip f l1 l2 ;; mapM decompose_value r) = bzip g l1' l2'.
Proof.
  intros H1 H2 F.
  assert (R : res_rel (Forall2 (fun v x => decompose_value v = Ok x)) (bzip f l1 l2) (bzip g l1' l2')).
  { apply (rel_bzip RA RB); auto. }
  destruct (bzip f l1 l2) as [r|e], (bzip g l1' l2') as [r'|e']; cbn [res_rel] in R; try contradiction; [|now subst].
  cbn [rbind]. eapply mapM_of; [exact R|auto].
Qed.
Lemma bzip2_decompose {A B A' B'} (RA : A -> A' -> Prop) (RB : B -> B' -> Prop) (f : A -> B -> val) (g : A' -> B' -> num) l1 l1' l2 l2' :
  Forall2 (Forall2 RA) l1 l1' -> Forall2 (Forall2 RB) l2 l2' -> (forall a b x y, RA a x -> RB b y -> decompose_value (f a b) = Ok (g x y)) ->
  (r <- bzip2 f l1 l2 ;; mapM (mapM decompose_value) r) = bzip2 g l1' l2'.
Proof.
  intros H1 H2 F.
  assert (R : res_rel (Forall2 (Forall2 (fun v x => decompose_value v = Ok x))) (bzip2 f l1 l2) (bzip2 g l1' l2')).
  { apply (rel_bzip2 RA RB); auto. }
  destruct (bzip2 f l1 l2) as [r|e], (bzip2 g l1' l2') as [r'|e']; cbn [res_rel] in R; try contradiction; [|now subst].
  cbn [rbind]. eapply mapM_of; [exact R|]. intros. eapply mapM_of; [eassumption|auto].
Qed.
Lemma isv_strain x tq t : isv time_dim tq t -> isv time_dim (vmul (Pl x) tq) (x * t)%num.
Proof. apply isv_times. Qed.
Lemma forall2_map_l {A B C} (R : B -> C -> Prop) (f : A -> B) (g : A -> C) l : (forall x, R (f x) (g x)) -> Forall2 R (map f l) (map g l).
Proof. intros H. induction l; constructor; auto. Qed.

Theorem circ_stationary_si w jv gi m f d m' f' d' tq t s s' sc sc' kw kw' :
  Forall2 reads m m' -> all_is frequency_dim f f' -> Forall2 reads d d' -> isv time_dim tq t -> sky_reads s s' ->
  same_curve sc sc' -> same_settings kw kw' ->
  snr_circ_stationary_q w jv gi m f d tq s sc kw = snr_circ_stationary w jv gi m' f' d' t s' sc' kw'.
Proof.
  intros M F D T S C K. unfold snr_circ_stationary_q, snr_circ_stationary. rewrite (all_quantities _ _ _ frequency_not_none F). cbn [negb].
  rewrite (h_0_n_si jv gi m (newaxis f) _ [2%Z] d s m' (newaxis f') d' s' M (rel_newaxis _ _ _ (all_reads _ _ _ F)) D S).
  replace (map (fun _ : val => Fin 0) f) with (map (fun _ : num => Fin 0) f') by (clear - F; induction F; cbn; congruence).
  destruct (h_0_n _ _ _ _ _ _ _ _) as [h|e]; [|reflexivity]. cbn [rbind].
  pose proof (noise_si w kw kw' sc sc' tq t (map (vmul (lit 2)) f) (map (nmul (Fin 2)) f') K C T
    (rel_map _ _ _ _ _ _ F (fun v x => isv_double v x))) as N.
  destruct (noise_q _ _ _ _ _) as [n|e], (noise _ _ _ _ _) as [n'|e']; cbn [res_rel] in N; try contradiction; [|now subst].
  destruct N as (z & N). cbn [rbind]. eapply (bzip_decompose (isv time_dim) (isv time_dim)).
  - apply (forall2_map_l (isv time_dim) (fun x => vmul (Pl x) tq) (fun x => (x * t)%num)). intros x. now apply isv_strain.
  - eapply forall2_imp; [|exact N]. now intros v x (V & _).
  - intros. now apply root_decompose.
Qed.

Lemma harmonics_is ks f f' : all_is frequency_dim f f' ->
  Forall2 (all_is frequency_dim) (map (fun f => map (fun k => vmul (Pl (nZ k)) f) ks) f) (map (fun f => map (fun k => nZ k * f)%num ks) f').
Proof.
  intros F. eapply rel_map; [exact F|]. intros v x V. apply forall2_map_l. intros k. now apply isv_times.
Qed.

Theorem ecc_stationary_si w jv gi m f ecc d m' f' d' tq t nh sc sc' rm rs kw kw' :
  Forall2 reads m m' -> all_is frequency_dim f f' -> Forall2 reads d d' -> isv time_dim tq t -> same_curve sc sc' -> same_settings kw kw' ->
  snr_ecc_stationary_q w jv gi m f ecc d tq nh sc rm rs kw = snr_ecc_stationary w jv gi m' f' ecc d' t nh sc' rm rs kw'.
Proof.
  intros M F D T C K. unfold snr_ecc_stationary_q, snr_ecc_stationary. cbv zeta.
  rewrite (h_0_n_si jv gi m (newaxis f) _ _ d no_sky_args m' (newaxis f') d' no_sky M (rel_newaxis _ _ _ (all_reads _ _ _ F)) D no_sky_reads).
  destruct (h_0_n _ _ _ _ _ _ _ _) as [h|e]; [|reflexivity]. cbn [rbind]. rewrite (rel_length _ _ _ M).
  destruct (negb _); [reflexivity|].
  pose proof (noise2_si w kw kw' sc sc' tq t _ _ K C T (harmonics_is (arange1 nh) f f' F)) as N.
  destruct (noise2_q _ _ _ _ _) as [n|e], (noise2 _ _ _ _ _) as [n'|e']; cbn [res_rel] in N; try contradiction; [|now subst].
  destruct N as (z & N). cbn [rbind].
  assert (E : (r <- bzip2 vdiv (map (map (fun x => vmul (Pl (x ^^ 2)%num) tq)) (map (@concat num) h)) n ;; mapM (mapM decompose_value) r)
    = bzip2 ndiv (map (map (fun x => x ^^ 2 * t)%num) (map (@concat num) h)) n').
  { apply (bzip2_decompose (isv time_dim) (isv time_dim)).
    - apply forall2_map_l. intros r. apply forall2_map_l. intros x. now apply isv_strain.
    - eapply forall2_imp; [|exact N]. intros v x. apply forall2_imp. now intros p q (V & _).
    - intros. now apply ratio_decompose. }
  rewrite <- E. destruct (bzip2 vdiv _ n); reflexivity.
Qed.
