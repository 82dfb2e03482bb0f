(** Toy3.v -- short histories of the concrete collections of Toy2.v. *)
From Coq Require Import String Reals ZArith List Lra Lia Bool.
From Verif Require Import Num NumFacts Np NpFacts Utils UtilsFacts Spec Strain StrainSpec StrainFacts Psd Snr SnrSpec SnrFacts Interp Evol EvolSpec EvolFacts MergeFacts CircFacts Harmonics
  ScParams Source Index SourceSpec MethodSpec SourceFacts MethodFacts MethodThms SourceThms SourceThms2 CurveSpec CurveFacts EvolveSpec EvolveFacts EvolveThms Toy Toy2.
Import ListNotations.
Open Scope R_scope.

Definition b1 : row := toy_row 2e30 1e30 1e20 1e-3 0.
Definition b2 : row := toy_row 3e30 1e30 2e20 2e-3 0.
(** An eccentric binary. *)
Definition b3 : row := toy_row 3e30 1e30 2e20 2e-3 (1/10).
Lemma b1_whole : whole b1. Proof. exists 2e30, 1e30, 1e20, 1e-3. repeat (split; [reflexivity|]). lra. Qed.
Lemma b2_whole : whole b2. Proof. exists 3e30, 1e30, 2e20, 2e-3. repeat (split; [reflexivity|]). lra. Qed.
Lemma toy_ecc r : In r [b1; b2; b3] -> exists e, r_e r = Fin e /\ 0 <= e <= 1.
Proof. intros [<-|[<-|[<-|[]]]]; eexists; (split; [reflexivity|]); lra. Qed.

(** Merger times. *)
Lemma whole_merges x s r : s_t_merge s = None -> r_merged r = false -> whole r -> exists tm, 0 < tm /\ circular_binary x s r tm.
Proof.
  intros E M (m1 & m2 & d & f & R1 & R2 & R3 & R4 & R5 & P1 & P2 & P3 & P4).
  pose proof (betaR_pos m1 m2 P1 P2) as Hb. exists (tmR (betaR m1 m2) (aR f m1 m2)). split; [apply tmR_pos; auto; apply aR_pos|].
  split.
  - unfold merges_at. rewrite E. unfold merger_time. rewrite M, R1, R2, R4, R5. unfold get_t_merge_ecc_sc, check_sc, check_mass_freq_input. cbn [rbind fst snd].
    rewrite beta_fin, get_a_fin by auto. unfold get_t_merge_ecc_sc_core. rewrite neqb_t by reflexivity. now rewrite t_merge_circ_fin.
  - right. split; auto. split; auto. exists m1, m2, f. do 6 (split; auto). now apply merge_circ_sc_f.
Qed.
Lemma b3_merges x s : s_t_merge s = None -> exists tm, 0 < tm /\ merges_at x s b3 (Fin tm).
Proof.
  intros E. pose proof (betaR_pos 3e30 1e30 ltac:(lra) ltac:(lra)) as Hb. unfold merges_at. rewrite E. unfold merger_time. cbn [b3 toy_row r_merged r_e r_f r_m1 r_m2].
  unfold get_t_merge_ecc_sc, check_sc, check_mass_freq_input. cbn [rbind fst snd]. rewrite beta_fin, get_a_fin by lra. unfold get_t_merge_ecc_sc_core.
  rewrite neqb_f by lra. unfold small_e_tol_default. rewrite nlt_t by lra. rewrite c_0_fin by (try apply aR_pos; lra). rewrite t_small_fin by lra.
  eexists. split; [|reflexivity]. exact (proj1 (tsmR_bounds (betaR 3e30 1e30) (aR 2e-3 3e30 1e30) (1/10) Hb (aR_pos _ _ _) ltac:(lra))).
Qed.

(** C49: two sources are stored with positive SNRs; after get_snr for the first only, the stored SNR of the second is 0. *)
Lemma zeroed_history : exists s0 s1 v1 s2 v2 y,
  init x_toy KSource (toy_args [Fin 2e30; Fin 3e30] [Fin 1e30; Fin 1e30] [Fin 0; Fin 0] [Fin 1e20; Fin 2e20] [Fin 1e-3; Fin 2e-3] false (custom_params 0)) = Ok s0 /\
  get_snr_stationary x_toy no_args None s0 = (s1, Ok v1) /\ get_snr x_toy no_args 1 (Some [true; false]) s1 = (s2, Ok v2) /\
  stored (Fin 0) (s_snr s1) 1 (Fin y) /\ 0 < y /\ stored (Fin 0) (s_snr s2) 1 (Fin 0).
Proof.
  set (xs := [b1; b2]). assert (HI := toy_of_init xs ltac:(intros r [<-|[<-|[]]]; reflexivity)).
  assert (HE : forall r, In r xs -> exists e, r_e r = Fin e /\ 0 <= e <= 1) by (intros r Hr; apply toy_ecc; destruct Hr as [H|[H|[]]]; cbn; auto).
  destruct (toy_stationary (toy_of xs) xs (toy_of_like xs) (toy_collection xs) HE) as (s1 & vf & hf & E1 & L1 & C1 & _ & S1 & V1).
  destruct (V1 b2 ltac:(cbn; auto) b2_whole) as (y & Y & Yp).
  set (xs1 := map (fun r => with_snr (if r_merged r then old_snr (toy_of xs) r else vf r) (hf r) r) xs) in *.
  assert (HE1 : forall r, In r xs1 -> exists e, r_e r = Fin e /\ 0 <= e <= 1) by (intros r Hr; apply in_map_iff in Hr; destruct Hr as (r0 & <- & Hr0); apply (HE r0 Hr0)).
  pose proof (toy_computable s1 xs1 1 ltac:(lia) L1 C1 HE1) as HC1.
  assert (K : s_class s1 = KSource \/ s_class s1 = KVerification) by (left; apply L1).
  destruct (snr_thm x_toy s1 xs1 no_args toy_time 1 (Some [true; false]) HC1 K eq_refl) as (s2 & v2 & _ & _ & E2 & _).
  exists (toy_of xs), s1, (map (fun r => if r_merged r then Fin 0 else vf r) xs), s2, v2, y. split; [exact HI|]. split; [exact E1|]. split; [exact E2|].
  split; [rewrite S1; cbn; now rewrite Y|]. split; [exact Yp|].
  exact (zeroed_thm x_toy s1 xs1 no_args toy_time 1 (Some [true; false]) 1 _ s2 v2 HC1 K eq_refl E2 eq_refl eq_refl).
Qed.
(** C69: a source is stored with a positive SNR; it merges; its SNR is 0, but the stored SNR is still the positive one, also after
    get_snr_stationary has returned 0. *)
Lemma stale_history : exists s0 s1 v1 te s2 s3 s4 y,
  init x_toy KSource (toy_args [Fin 2e30] [Fin 1e30] [Fin 0] [Fin 1e20] [Fin 1e-3] false (custom_params 0)) = Ok s0 /\
  get_snr_stationary x_toy no_args None s0 = (s1, Ok v1) /\ evolve_sources x_toy te s1 = (s2, Ok tt) /\
  0 < y /\ s_snr s2 = Some [Fin y] /\ get_snr x_toy no_args 1 None s2 = (s3, Ok [Fin 0]) /\
  get_snr_stationary x_toy no_args None s2 = (s4, Ok [Fin 0]) /\ s_snr s4 = Some [Fin y].
Proof.
  set (xs := [b1]). assert (HI := toy_of_init xs ltac:(intros r [<-|[]]; reflexivity)).
  assert (HE : forall r, In r xs -> exists e, r_e r = Fin e /\ 0 <= e <= 1) by (intros r [<-|[]]; apply toy_ecc; cbn; auto).
  destruct (toy_stationary (toy_of xs) xs (toy_of_like xs) (toy_collection xs) HE) as (s1 & vf & hf & E1 & L1 & C1 & T1 & S1 & V1).
  destruct (V1 b1 ltac:(cbn; auto) b1_whole) as (y & Y & Yp).
  set (xs1 := map (fun r => with_snr (if r_merged r then old_snr (toy_of xs) r else vf r) (hf r) r) xs) in *.
  set (r1 := with_snr (vf b1) (hf b1) b1). assert (X1 : xs1 = [r1]) by reflexivity.
  destruct (whole_merges x_toy s1 r1 T1 eq_refl b1_whole) as (tm & Tp & B). destruct B as [B _].
  destruct (evolve_step x_toy (TScalar (Fin tm)) s1 xs1 (fun _ => tm) (fun _ => tm) C1) as [E2 C2].
  { intros _ r Hr _. rewrite X1 in Hr. destruct Hr as [<-|[]]. exists 0. split; [reflexivity|lra]. }
  { intros [|i] r Hr; rewrite X1 in Hr; [injection Hr as <-; exact B|destruct i; discriminate]. }
  { split; [now rewrite map_length, seq_length|]. rewrite X1. cbn. intros u [<-|[]]. reflexivity. }
  set (s2 := evolve_state x_toy s1 xs1 (fun _ => tm) (fun _ => tm)) in *. set (xs2 := evolve_rows x_toy xs1 (fun _ => tm) (fun _ => tm)) in *.
  assert (L2 : toy_like s2) by exact L1.
  assert (X2 : xs2 = [next_row x_toy r1 tm tm]) by reflexivity.
  assert (M2 : r_merged (next_row x_toy r1 tm tm) = true /\ r_e (next_row x_toy r1 tm tm) = Fin 0) by (cbn; unfold new_m, new_e; destruct (Rle_dec tm tm); [auto|lra]).
  assert (HE2 : forall r, In r xs2 -> exists e, r_e r = Fin e /\ 0 <= e <= 1) by (intros r Hr; rewrite X2 in Hr; destruct Hr as [<-|[]]; exists 0; split; [apply M2|lra]).
  pose proof (toy_computable s2 xs2 1 ltac:(lia) L2 C2 HE2) as HC2.
  destruct (toy_stationary s2 xs2 L2 C2 HE2) as (s4 & vf2 & hf2 & E4 & _ & _ & _ & S4 & _).
  assert (S2 : s_snr s2 = Some [Fin y]) by (change (s_snr s2) with (s_snr s1); rewrite S1; cbn; now rewrite Y).
  assert (Kc : s_class s2 = KSource) by apply L2.
  assert (HC2' : computable x_toy s2 xs2 (class_args (s_class s2) no_args) toy_time 1) by (rewrite Kc; exact HC2).
  destruct (all_thm x_toy s2 xs2 no_args toy_time 1 HC2') as (s3 & v3 & sc & kw & E3 & _ & _ & _ & _ & F). rewrite X2 in F. inversion F as [|? v0 ? l0 F1 F2]; subst. inversion F2; subst.
  rewrite (proj1 M2) in F1. subst v0.
  rewrite X2 in E4, S4. cbn [map] in E4, S4. rewrite (proj1 M2) in E4, S4. unfold old_snr in S4. rewrite S2 in S4.
  exists (toy_of xs), s1, (map (fun r => if r_merged r then Fin 0 else vf r) xs), (TScalar (Fin tm)), s2, s3, s4, y. split; [exact HI|]. split; [exact E1|]. split; [exact E2|].
  split; [exact Yp|]. split; [exact S2|]. split; [exact E3|]. split; [exact E4|]. rewrite S4. cbn. now rewrite Y.
Qed.

(** Two histories of evolution. *)
Lemma unmarked_time x r tm : whole r -> circ_row r tm -> r_merged r = false -> exists T, 0 < T /\ T < tm /\ unmarked x r T.
Proof.
  intros (m1 & m2 & d & f & R1 & R2 & R3 & R4 & R5 & P1 & P2 & P3 & P4) [[H _]|(_ & _ & m1' & m2' & f' & Q1 & Q2 & Q3 & Q4 & Q5 & Q6 & ->)] M; [congruence|].
  rewrite R1 in Q1. injection Q1 as <-. rewrite R2 in Q2. injection Q2 as <-. rewrite R4 in Q3. injection Q3 as <-.
  pose proof (betaR_pos m1 m2 P1 P2) as Hb. pose proof (tmR_pos (betaR m1 m2) (aR f m1 m2) Hb (aR_pos _ _ _)) as Tp. set (tm := tmR (betaR m1 m2) (aR f m1 m2)) in *.
  assert (U : forall T, acR (aR f m1 m2) (betaR m1 m2) T <> tiny -> unmarked x r T).
  { intros T NT a b c A B C. rewrite R1 in A. injection A as <-. rewrite R2 in B. injection B as <-. rewrite R4 in C. injection C as <-. rewrite circ_call_freq_a by auto. congruence. }
  destruct (Req_dec (acR (aR f m1 m2) (betaR m1 m2) (tm / 4)) tiny) as [E|E].
  - exists (tm / 2). split; [lra|]. split; [lra|]. apply U. intros E'.
    pose proof (tmR_acR (aR f m1 m2) (betaR m1 m2) (tm / 4) Hb ltac:(fold tm; lra)) as A. pose proof (tmR_acR (aR f m1 m2) (betaR m1 m2) (tm / 2) Hb ltac:(fold tm; lra)) as A'.
    rewrite E in A. rewrite E' in A'. fold tm in A, A'. lra.
  - exists (tm / 4). split; [lra|]. split; [lra|]. now apply U.
Qed.
(** Two circular sources, evolved twice: the second source merges in the second step. *)
Lemma circular_example : exists s xs tm T1 T2, s = toy_of xs /\ collection s xs /\ length xs = 2%nat /\ (forall i r, nth_error xs i = Some r -> circular_binary x_toy s r (tm i)) /\
  history_times (length xs) [TArr (map (fun i => Fin (T1 i)) [0%nat; 1%nat]); TArr (map (fun i => Fin (T2 i)) [0%nat; 1%nat])] [T1; T2] /\
  (forall k i r, (0 < k < 2)%nat -> nth_error xs i = Some r -> r_merged r = false -> unmarked x_toy r (total (firstn k [T1; T2]) i)) /\
  0 < T1 0%nat /\ total [T1; T2] 0%nat < tm 0%nat /\ tm 1%nat <= total [T1; T2] 1%nat.
Proof.
  set (s := toy_of [b1; b2]).
  destruct (whole_merges x_toy s b1 eq_refl eq_refl b1_whole) as (t1 & P1 & B1). destruct (whole_merges x_toy s b2 eq_refl eq_refl b2_whole) as (t2 & P2 & B2).
  destruct (unmarked_time x_toy b1 t1 b1_whole (circ_row_of _ _ _ _ B1) eq_refl) as (u1 & U1 & V1 & W1).
  destruct (unmarked_time x_toy b2 t2 b2_whole (circ_row_of _ _ _ _ B2) eq_refl) as (u2 & U2 & V2 & W2).
  exists s, [b1; b2], (fun i => if (i =? 0)%nat then t1 else t2), (fun i => if (i =? 0)%nat then u1 else u2), (fun i => if (i =? 0)%nat then 0 else t2).
  split; [reflexivity|]. split; [apply toy_collection|]. split; [reflexivity|].
  split; [intros [|[|i]] r Hr; cbn in Hr; [injection Hr as <-; exact B1|injection Hr as <-; exact B2|destruct i; discriminate]|].
  split.
  { constructor; [|constructor; [|constructor]]; (split; [split; [reflexivity|reflexivity]|]); intros [|[|i]] Hi; cbn; try lra; cbn in Hi; lia. }
  split.
  { intros k i r Hk Hr _. assert (k = 1)%nat as -> by lia. cbn [firstn]. unfold total. destruct i as [|[|i]]; cbn in Hr; [injection Hr as <-|injection Hr as <-|destruct i; discriminate];
      unfold Rsum; cbn [map fold_right Nat.eqb]; rewrite Rplus_0_r; assumption. }
  unfold total, Rsum; cbn. split; [lra|]. split; lra.
Qed.
(** A circular and an eccentric source. *)
Lemma evolve_example : exists s xs tm T, s = toy_of xs /\ collection s xs /\ length xs = 2%nat /\ bound xs /\ clock x_toy s xs tm /\ (forall i, (i < 2)%nat -> 0 < tm i) /\
  0 < T < tm 1%nat /\ evolution_times (TScalar (Fin T)) 2 (map (fun _ => T) (seq 0 2)) /\
  history_times 2 [TScalar (Fin T); TScalar (Fin (2 * tm 0%nat))] [(fun _ => T); (fun _ => 2 * tm 0%nat)].
Proof.
  set (s := toy_of [b1; b3]).
  destruct (whole_merges x_toy s b1 eq_refl eq_refl b1_whole) as (t1 & P1 & B1 & _). destruct (b3_merges x_toy s eq_refl) as (t3 & P3 & B3).
  exists s, [b1; b3], (fun i => if (i =? 0)%nat then t1 else t3), (t3 / 2).
  split; [reflexivity|]. split; [apply toy_collection|]. split; [reflexivity|]. split.
  { intros r Hr _. apply toy_ecc. destruct Hr as [H|[H|[]]]; cbn; auto. }
  split; [intros [|[|i]] r Hr; cbn in Hr; [injection Hr as <-; exact B1|injection Hr as <-; exact B3|destruct i; discriminate]|].
  split; [intros [|[|i]] Hi; cbn; auto; lia|]. split; [cbn; lra|].
  split; [split; [reflexivity|]; intros u [<-|[<-|[]]]; reflexivity|].
  constructor; [|constructor; [|constructor]]; (split; [split; [reflexivity|intros u [<-|[<-|[]]]; reflexivity]|]); intros i Hi; cbn; lra.
Qed.
Lemma toy_own xs : own_harmonics x_toy (toy_of xs).
Proof. exists (Fin (1/20)). exact toy_h_ok. Qed.
