(** DrawsThms.v -- what depends on random draws (C100). *)
From Coq Require Import String Reals ZArith List Bool Lra Lia.
From Verif Require Import Num NumFacts Np NpFacts Utils Spec UtilsFacts Strain StrainSpec DetectorFacts Psd Snr SnrSpec Evol EvolSpec Harmonics ScParams Source Index SourceSpec IndexSpec History CurveSpec CurveFacts CurveThms
  InitSpec InitFacts SourceFacts MethodSpec FileIO Verification VerificationSpec FileSpec ReachFacts SkySpec SkyThms DrawsSpec.
Import ListNotations.
Open Scope list_scope.
Open Scope R_scope.

(** Nothing but the constructor draws. *)
Lemma step_redraw x inc pol o s : step (redraw x inc pol) o s = step x o s.
Proof. destruct o; reflexivity. Qed.
Lemma run_redraw x inc pol ops : forall s, run (redraw x inc pol) ops s = run x ops s.
Proof. induction ops as [|o ops IH]; intros s; cbn [run]; auto. rewrite step_redraw. destruct (step x o s) as [s1 r]. now rewrite IH. Qed.
Lemma init_redraw x inc pol k i : angles_given i -> init (redraw x inc pol) k i = init x k i.
Proof.
  intros G. unfold init, angles_given in *. destruct (i_position i) as [p|]; [|reflexivity]. destruct G as [G1 G2]; [discriminate|].
  destruct (i_inclination i); [|congruence]. destruct (i_polarisation i); [|congruence]. reflexivity.
Qed.
Lemma mbind_at {A B} (m : M A) (f f' : A -> M B) s : (forall s' a, m s = (s', Ok a) -> f a s' = f' a s') -> mbind m f s = mbind m f' s.
Proof. intros H. unfold mbind. destruct (m s) as [s' [a|e]]; auto. Qed.
Lemma evolve_redraw strict x inc pol n t s : kept strict x s n -> evolve_new (redraw x inc pol) t s = evolve_new x t s.
Proof.
  intros K. unfold evolve_new. change (ensure_t_merge (redraw x inc pol)) with (ensure_t_merge x). pose proof (sound_ensure strict x n s K) as H. apply mbind_at. intros s1 tm E. rewrite E in H. cbn [fst snd] in H.
  destruct H as [K1 _]. rewrite !mbind_self. apply mbind_at. intros s2 [[mg ec] f] E2. unfold lift in E2. injection E2 as <- _.
  destruct (h_gw_lum_tol (s_harm s1)) as [tol|]; auto. rewrite init_redraw; auto.
  unfold angles_given. cbn [i_position i_inclination i_polarisation]. intros P. destruct (so_sky _ _ _ _ K1) as [(C & _)|(_ & A & B & _)]; [congruence|auto].
Qed.
(** A different draw changes the angles that were drawn, and nothing else. *)
Definition alike {A} (a b : option (list num)) (m m' : M A) : Prop := forall s, m' (with_angles a b s) = (with_angles a b (fst (m s)), snd (m s)).
Lemma alike_bind {A B} a b (m m' : M A) (f f' : A -> M B) : alike a b m m' -> (forall v, alike a b (f v) (f' v)) -> alike a b (mbind m f) (mbind m' f').
Proof. intros H K s. unfold mbind. rewrite H. destruct (m s) as [s1 [v|e]]; cbn [fst snd]; [apply K|reflexivity]. Qed.
Lemma finish_alike x inc pol i a b : alike a b (finish x i) (finish (redraw x inc pol) i).
Proof.
  unfold finish. apply alike_bind; [|intros _; apply alike_bind; [|intros _]].
  - intros s. unfold assign_gw_lum_tol. change (x_jv (redraw x inc pol)) with (x_jv x). change (x_lum (redraw x inc pol)) with (x_lum x). change (s_harm (with_angles a b s)) with (s_harm s).
    destruct (set_gw_lum_tol _ _ _ _) as [h r]. reflexivity.
  - intros s. rewrite !assign_cases. destruct (make_params (i_sc_params i)) as [d|e]; [|reflexivity]. cbn zeta.
    unfold set_sc. change (curve_of (redraw x inc pol)) with (curve_of x). change (s_interpolate_sc (put_params d (with_angles a b s))) with (s_interpolate_sc s).
    change (s_interpolate_sc (put_params d s)) with (s_interpolate_sc s). change (s_params (put_params d (with_angles a b s))) with d. change (s_params (put_params d s)) with d.
    destruct (s_interpolate_sc s); [|reflexivity]. destruct (curve_of x d) as [c|e]; reflexivity.
  - intros s. unfold set_g. destruct (i_interpolate_g i); reflexivity.
Qed.
Lemma finish_angles x inc pol i a b s0 s : finish x i s0 = (s, Ok tt) -> finish (redraw x inc pol) i (with_angles a b s0) = (with_angles a b s, Ok tt).
Proof. intros H. pose proof (finish_alike x inc pol i a b s0) as K. now rewrite H in K. Qed.
Lemma init_angles x inc pol k i s : init x k i = Ok s -> exists a b, init (redraw x inc pol) k i = Ok (with_angles a b s) /\
  (i_inclination i <> None \/ i_position i = None -> a = s_inclination s) /\ (i_polarisation i <> None \/ i_position i = None -> b = s_polarisation s).
Proof.
  intros H. apply init_fwd in H. destruct H as (f & p & a & b & C & F). destruct (finish_arrays _ _ _ _ F) as (_ & _ & _ & _ & _ & _ & _ & EA & EB & _). cbn in EA, EB.
  assert (N : exists a' b', checked (redraw x inc pol) i f p a' b' /\ (i_inclination i <> None \/ i_position i = None -> a' = a) /\ (i_polarisation i <> None \/ i_position i = None -> b' = b)).
  { destruct C as [C1 C2 C3 C4 C5 C6]. destruct (i_position i) as [q|] eqn:Q.
    - destruct C2 as (I1 & I2 & I3 & I4).
      exists (match i_inclination i with Some l => Some l | None => Some (inc (length (list_of (i_m_1 i)))) end), (match i_polarisation i with Some l => Some l | None => Some (pol (length (list_of (i_m_1 i)))) end).
      split; [|split].
      + split; auto. rewrite Q. split; [|split; [|split; auto]].
        * destruct (i_inclination i); auto. destruct I1 as (m & M & _). exists m. split; auto. cbn. destruct (i_m_1 i); cbn in M; try discriminate; injection M as <-; reflexivity.
        * destruct (i_polarisation i); auto. destruct I2 as (m & M & _). exists m. split; auto. cbn. destruct (i_m_1 i); cbn in M; try discriminate; injection M as <-; reflexivity.
      + intros [E|E]; [|discriminate]. destruct (i_inclination i); congruence.
      + intros [E|E]; [|discriminate]. destruct (i_polarisation i); congruence.
    - exists a, b. split; [|auto]. split; auto. rewrite Q. exact C2. }
  destruct N as (a' & b' & C' & A & B). exists a', b'. split.
  - eapply init_bwd; [exact C'|]. exact (finish_angles x inc pol i a' b' _ _ F).
  - split; intros E; [rewrite EA|rewrite EB]; auto.
Qed.
Lemma verification_redraw x inc pol ecl t b : verification_binaries x ecl t = Ok b -> exists pol', verification_binaries (redraw x inc pol) ecl t =
  Ok (mkVB (with_angles (s_inclination (vb_source b)) pol' (vb_source b)) (vb_labels b) (vb_true_snr b)).
Proof.
  unfold verification_binaries. destruct (vb_args ecl t) as [i|e] eqn:EI; cbn [rbind]; [|discriminate]. destruct (init x KVerification i) as [s|e] eqn:E; cbn [rbind]; [|discriminate].
  intros H. injection H as <-. destruct (init_angles x inc pol _ _ _ E) as (a & b & -> & A & _). cbn [rbind]. exists b. unfold vb_args in EI. destruct (bzip _ _ _); [|discriminate]. injection EI as <-.
  rewrite A by (left; discriminate). reflexivity.
Qed.
(** The angles drawn matter. *)
Lemma draws_matter_thm x s1 s2 xs1 xs2 a t n i r1 r2 : computable x s1 xs1 (class_args (s_class s1) a) t n -> computable x s2 xs2 (class_args (s_class s2) a) t n ->
  without_sky s1 = without_sky s2 -> s_position s1 <> None -> s_position s2 <> None -> nth_error xs1 i = Some r1 -> nth_error xs2 i = Some r2 ->
  is_circular s1 r1 /\ treated_stationary s1 t r1 -> is_circular s2 r2 /\ treated_stationary s2 t r2 -> r_merged r1 = false -> r_merged r2 = false ->
  exists s1' s2' s0 v1 v2 u v1i v2i ui, get_snr x a n None s1 = (s1', Ok v1) /\ get_snr x a n None s2 = (s2', Ok v2) /\ get_snr x a n None (without_sky s1) = (s0, Ok u) /\
    nth_error v1 i = Some v1i /\ nth_error v2 i = Some v2i /\ nth_error u i = Some ui /\ modulated (r_sky r1) ui v1i /\ modulated (r_sky r2) ui v2i.
Proof.
  intros C1 C2 W P1 P2 N1 N2 K1 K2 M1 M2. destruct (sky_thm x s1 xs1 a t n C1 P1) as (s1' & v1 & s0 & u & E1 & E0 & _ & _ & H1). destruct (sky_thm x s2 xs2 a t n C2 P2) as (s2' & v2 & s0' & u' & E2 & E0' & _ & _ & H2).
  rewrite <- W, E0 in E0'. injection E0' as <- <-. destruct (H1 i r1 N1) as (v1i & ui & A1 & B1 & D1 & _). destruct (H2 i r2 N2) as (v2i & ui' & A2 & B2 & D2 & _). rewrite B1 in B2. injection B2 as <-.
  exists s1', s2', s0, v1, v2, u, v1i, v2i, ui. auto 12.
Qed.
Lemma evolve_redraw_thm strict x inc pol n t s : reachable strict x s n -> evolve_new (redraw x inc pol) t s = evolve_new x t s.
Proof. intros R. apply (evolve_redraw strict x inc pol n). exact (reachable_kept _ _ _ _ R). Qed.
