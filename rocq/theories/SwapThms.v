(** SwapThms.v -- exchanging the two members of every binary of a collection exchanges the stored masses and nothing else. *)
From Coq Require Import String Reals ZArith List Bool Lra Lia.
From Verif Require Import Num NumFacts Np NpFacts Utils Strain Psd Snr Evol Harmonics ScParams Source Index SourceSpec IndexSpec History CurveSpec InitSpec MethodSpec FileIO FileSpec FileFacts ReachFacts SwapSpec SwapFacts.
Import ListNotations.
Open Scope m_scope.

(** ** Methods that act alike *)
Definition alike {A} (m m' : M A) : Prop :=
  forall s, paired s -> m' (exchanged s) = (exchanged (fst (m s)), snd (m s)) /\ paired (fst (m s)).
Lemma alike_bind {A B} (m m' : M A) (k k' : A -> M B) : alike m m' -> (forall a, alike (k a) (k' a)) -> alike (mbind m k) (mbind m' k').
Proof.
  intros H K s P. destruct (H s P) as [E P']. unfold mbind. rewrite E. destruct (m s) as [s1 [a|e]]; cbn [fst snd] in *; [now apply K|now split].
Qed.
Lemma alike_self {B} (k k' : src -> M B) : (forall s, paired s -> alike (k s) (k' (exchanged s))) -> alike (mbind self k) (mbind self k').
Proof. intros K s P. exact (K s P s P). Qed.
Lemma alike_lift {A} (r r' : res A) : r' = r -> alike (lift r) (lift r').
Proof. intros -> s P. now split. Qed.
Lemma alike_ret {A} (a : A) : alike (ret a) (ret a).
Proof. intros s P. now split. Qed.
Lemma alike_raise {A} e : alike (A := A) (raise e) (raise e).
Proof. intros s P. now split. Qed.
Lemma alike_modify f f' : (forall s, paired s -> f' (exchanged s) = exchanged (f s) /\ paired (f s)) -> alike (modify f) (modify f').
Proof. intros H s P. destruct (H s P) as [E P']. unfold modify. cbn [fst snd]. now rewrite E. Qed.
Lemma alike_if {A} (b : bool) (m1 m2 m1' m2' : M A) : alike m1 m1' -> alike m2 m2' -> alike (if b then m1 else m2) (if b then m1' else m2').
Proof. now destruct b. Qed.

Lemma n_swap s : paired s -> n_sources (exchanged s) = n_sources s.
Proof. intros P. symmetry. exact P. Qed.
Lemma m_c_swap s : m_c (exchanged s) = m_c s.
Proof. exact (bzip_sym chirp_mass _ _ chirp_swap). Qed.
Lemma a_swap s : a_getter (exchanged s) = a_getter s.
Proof. apply get_a_arr_swap. Qed.
Lemma which_swap w s : paired s -> which_or_all w (exchanged s) = which_or_all w s.
Proof. intros P. unfold which_or_all. now rewrite n_swap. Qed.
Lemma mask_swap c st t s : paired s -> get_source_mask c st t (exchanged s) = get_source_mask c st t s.
Proof. intros P. unfold get_source_mask. now rewrite n_swap, m_c_swap. Qed.
Lemma strain_swap f x h w s : paired s -> get_strain f x h w (exchanged s) = get_strain f x h w s.
Proof. intros P. unfold get_strain. now rewrite which_swap, m_c_swap, n_swap. Qed.
Lemma stationary_swap x a insp s : paired s -> stationary_values x a insp (exchanged s) = stationary_values x a insp s.
Proof. intros P. unfold stationary_values. now rewrite m_c_swap, n_swap. Qed.
Lemma run_groups_ext r r' req m snr msh : (forall m u, r m u = r' m u) -> run_groups r req m snr msh = run_groups r' req m snr msh.
Proof.
  intros E. unfold run_groups. generalize (@Ok (list num * list Z) (snr, msh)). induction harmonic_groups as [|g gs IH]; intros acc; [reflexivity|].
  cbn [fold_left]. rewrite IH. f_equal. destruct acc as [st|]; cbn [rbind]; [|reflexivity]. cbv zeta. now rewrite E.
Qed.
Lemma evolving_swap x a n insp s : paired s -> evolving_values x a n insp (exchanged s) = evolving_values x a n insp s.
Proof.
  intros P. unfold evolving_values. rewrite n_swap by exact P. cbn [exchanged s_m_1 s_m_2 s_dist s_f_orb s_ecc s_g s_t_merge s_n_proc s_harm s_sc].
  change (ecc_tol (exchanged s)) with (ecc_tol s).
  destruct (time_of _) as [t|]; cbn [rbind]; [|reflexivity]. destruct (ecc_tol s) as [tol|]; cbn [rbind]; [|reflexivity].
  destruct (logical_and _ insp) as [em|]; cbn [rbind]; [|reflexivity]. destruct (logical_and _ insp) as [cm|]; cbn [rbind]; [|reflexivity].
  destruct (kw_of _ _) as [kw|]; cbn [rbind]; [|reflexivity]. cbv zeta.
  assert (C : (if any cm then (t_merge <- take_opt cm (s_t_merge s) ;;
            v <- snr_circ_evolving (x_psd x) (x_jv x) (s_g s) (x_quad x) (select cm (s_m_2 s)) (select cm (s_m_1 s))
                                   (select cm (s_f_orb s)) (select cm (s_dist s)) t n t_merge (s_sc s) kw ;;
            Ok (scatter cm v (np_repeat (Fin 0) (n_sources s))))%res else Ok (np_repeat (Fin 0) (n_sources s))) =
         (if any cm then (t_merge <- take_opt cm (s_t_merge s) ;;
            v <- snr_circ_evolving (x_psd x) (x_jv x) (s_g s) (x_quad x) (select cm (s_m_1 s)) (select cm (s_m_2 s))
                                   (select cm (s_f_orb s)) (select cm (s_dist s)) t n t_merge (s_sc s) kw ;;
            Ok (scatter cm v (np_repeat (Fin 0) (n_sources s))))%res else Ok (np_repeat (Fin 0) (n_sources s)))).
  { destruct (any cm); [|reflexivity]. destruct (take_opt cm _); cbn [rbind]; [|reflexivity]. now rewrite snr_circ_swap. }
  rewrite C. clear C. destruct (if any cm then _ else _) as [v|]; cbn [rbind]; [|reflexivity].
  destruct (any em); [|reflexivity]. apply run_groups_ext. intros. apply snr_ecc_swap.
Qed.
Lemma evolved_swap x t tm s : paired s -> evolved x t tm (exchanged s) = evolved x t tm s.
Proof.
  intros P. unfold evolved. rewrite n_swap by exact P. cbn [exchanged s_m_1 s_m_2 s_f_orb s_ecc].
  destruct (times_of _ _) as [ts|]; cbn [rbind]; [|reflexivity]. destruct (bzip nge ts tm) as [mg|]; cbn [rbind]; [|reflexivity].
  destruct (logical_and _ (map negb mg)) as [cm|]; cbn [rbind]; [|reflexivity]. destruct (logical_and _ (map negb mg)) as [em|]; cbn [rbind]; [|reflexivity].
  destruct (take_times cm t) as [tc|]; cbn [rbind]; [|reflexivity]. destruct (take_times em t) as [te|]; cbn [rbind]; [|reflexivity]. cbv zeta.
  destruct (take_mask mg _) as [am|]; cbn [rbind]; [|reflexivity].
  rewrite (evol_circ_swap _ _ _ _ _ (PQArr (select cm (s_m_2 s)) tt)). destruct (if any cm then _ else _) as [f|]; cbn [rbind]; [|reflexivity].
  now rewrite (evol_ecc_swap _ _ _ _ _ _ _ _ (PQArr (select em (s_m_2 s)) tt)).
Qed.

(** ** Operations *)
Lemma set_sc_alike x : alike (set_sc x) (set_sc x).
Proof.
  intros s P. unfold set_sc. change (s_interpolate_sc (exchanged s)) with (s_interpolate_sc s). change (s_params (exchanged s)) with (s_params s).
  destruct (s_interpolate_sc s); [|now split]. destruct (curve_of _ _); now split.
Qed.
Lemma tolerance_alike x tol : alike (assign_gw_lum_tol x tol) (assign_gw_lum_tol x tol).
Proof.
  intros s P. unfold assign_gw_lum_tol. change (s_harm (exchanged s)) with (s_harm s). destruct (set_gw_lum_tol _ _ _ _) as [h r]. now split.
Qed.
Ltac same := intros ? ?; split; [reflexivity|assumption].
Lemma assign_alike x new cur : alike (assign_params x new cur) (assign_params x new cur).
Proof.
  apply alike_bind; [now apply alike_lift|]. intros d. cbv zeta. apply alike_bind; [apply alike_modify; same|]. intros _.
  apply alike_if; [apply set_sc_alike|apply alike_ret].
Qed.
Lemma update_alike x new : alike (params_update x new) (params_update x new).
Proof.
  apply alike_bind; [now apply alike_lift|]. intros _. apply alike_self. intros s P. cbv zeta. apply alike_bind; [apply alike_modify; same|]. intros _.
  apply alike_if; [apply set_sc_alike|apply alike_ret].
Qed.
Lemma setitem_alike x k v : alike (params_setitem x k v) (params_setitem x k v).
Proof.
  apply alike_bind; [now apply alike_lift|]. intros _. apply alike_self. intros s P. cbv zeta. apply alike_bind; [apply alike_modify; same|]. intros _.
  apply alike_if; [apply set_sc_alike|apply alike_ret].
Qed.
Lemma a_setter_alike a : alike (a_setter a) (a_setter a).
Proof.
  destruct a; cbn [a_setter]; try apply alike_raise; apply alike_self; intros s P; (apply alike_bind; [apply alike_lift, get_f_arr_swap|]); intros f; apply alike_modify; same.
Qed.
Lemma record_alike insp snr msh : alike (record_snr insp snr msh) (record_snr insp snr msh).
Proof.
  apply alike_bind; [|intros _]; apply alike_modify; intros s P; (split; [|exact P]); rewrite n_swap by exact P; reflexivity.
Qed.
Lemma snr_method_alike x values a which : (forall a insp s, paired s -> values a insp (exchanged s) = values a insp s) ->
  alike (snr_method x values a which) (snr_method x values a which).
Proof.
  intros V. apply alike_self. intros s P. cbv zeta. rewrite which_swap by exact P. apply alike_bind; [apply update_alike|]. intros _.
  apply alike_self. intros s1 P1. apply alike_bind; [now apply alike_lift|]. intros insp. apply alike_bind; [now apply alike_lift, V|]. intros v.
  apply alike_bind; [apply record_alike|]. intros _. now apply alike_lift.
Qed.
Lemma get_snr_stationary_alike x a w : alike (get_snr_stationary x a w) (get_snr_stationary x a w).
Proof. apply snr_method_alike. intros. now apply stationary_swap. Qed.
Lemma get_snr_evolving_alike x a n w : alike (get_snr_evolving x a n w) (get_snr_evolving x a n w).
Proof. apply snr_method_alike. intros. now apply evolving_swap. Qed.
Lemma get_snr_source_alike x a n w : alike (get_snr_source x a n w) (get_snr_source x a n w).
Proof.
  apply alike_self. intros s P. cbv zeta. apply alike_bind; [apply update_alike|]. intros _. apply alike_self. intros s1 P1.
  rewrite n_swap, which_swap, !mask_swap by exact P1.
  apply alike_bind; [now apply alike_lift|]. intros st. apply alike_bind; [now apply alike_lift|]. intros sm.
  apply alike_bind; [now apply alike_lift|]. intros ev. apply alike_bind; [now apply alike_lift|]. intros em.
  apply alike_bind. { apply alike_if; [|apply alike_ret]. apply alike_bind; [apply get_snr_stationary_alike|]. intros. apply alike_ret. }
  intros snr. apply alike_bind. { apply alike_if; [|apply alike_ret]. apply alike_bind; [apply get_snr_evolving_alike|]. intros. apply alike_ret. }
  intros snr'. apply alike_bind; [apply alike_modify; same|]. intros _. apply alike_ret.
Qed.
Lemma get_snr_alike x a n w : alike (get_snr x a n w) (get_snr x a n w).
Proof.
  apply alike_self. intros s P. change (s_class (exchanged s)) with (s_class s). destruct (s_class s); try apply get_snr_source_alike.
  - apply alike_bind; [apply get_snr_stationary_alike|]. intros v. apply alike_bind; [apply alike_modify; same|]. intros _. apply alike_ret.
  - apply alike_bind; [apply get_snr_evolving_alike|]. intros v. apply alike_bind; [apply alike_modify; same|]. intros _. apply alike_ret.
Qed.
Lemma merger_alike x save w exact : alike (get_merger_time x save w exact) (get_merger_time x save w exact).
Proof.
  apply alike_self. intros s P. cbv zeta. rewrite n_swap, which_swap by exact P.
  apply alike_bind; [now apply alike_lift|]. intros insp. apply alike_bind; [now apply alike_lift|]. intros ecc.
  apply alike_bind; [apply alike_lift, t_merge_ecc_swap|]. intros t.
  apply alike_bind; [apply alike_if; [apply alike_modify; same|apply alike_ret]|]. intros _. now apply alike_lift.
Qed.
Lemma ensure_alike x : alike (ensure_t_merge x) (ensure_t_merge x).
Proof.
  apply alike_self. intros s P. change (s_t_merge (exchanged s)) with (s_t_merge s). destruct (s_t_merge s); [apply alike_ret|].
  apply alike_bind; [apply merger_alike|]. intros _. apply alike_self. intros s1 P1. change (s_t_merge (exchanged s1)) with (s_t_merge s1).
  destruct (s_t_merge s1); [apply alike_ret|apply alike_raise].
Qed.
Lemma evolve_alike x t : alike (evolve_sources x t) (evolve_sources x t).
Proof.
  apply alike_bind; [apply ensure_alike|]. intros tm. apply alike_self. intros s P. apply alike_bind; [now apply alike_lift, evolved_swap|].
  intros [[mg ecc] f]. apply alike_bind; [apply alike_modify; same|]. intros _. rewrite n_swap by exact P.
  apply alike_bind; [now apply alike_lift|]. intros ts. apply alike_bind; [now apply alike_lift|]. intros l. apply alike_modify; same.
Qed.
Lemma step_alike x o : alike (step x o) (step x o).
Proof.
  destruct o; cbn [step]; unfold discard.
  - apply setitem_alike.
  - apply update_alike.
  - apply alike_self. intros s P. apply assign_alike.
  - apply alike_bind; [apply alike_modify; same|]. intros _. apply alike_self. intros s P. apply assign_alike.
  - apply alike_modify. intros s P. change (s_params (exchanged s)) with (s_params s). destruct (lookup k (s_params s)); now split.
  - apply alike_raise.
  - apply alike_modify; same.
  - apply set_sc_alike.
  - apply alike_modify; same.
  - apply tolerance_alike.
  - apply a_setter_alike.
  - apply alike_bind; [apply get_snr_alike|]. intros; apply alike_ret.
  - apply alike_bind; [apply get_snr_stationary_alike|]. intros; apply alike_ret.
  - apply alike_bind; [apply get_snr_evolving_alike|]. intros; apply alike_ret.
  - apply alike_bind; [apply merger_alike|]. intros; apply alike_ret.
  - apply evolve_alike.
Qed.
Lemma run_swap x ops : forall s, paired s ->
  run x ops (exchanged s) = (exchanged (fst (run x ops s)), snd (run x ops s)) /\ paired (fst (run x ops s)).
Proof.
  induction ops as [|o ops IH]; intros s P; cbn [run]; [now split|]. destruct (step_alike x o s P) as [E P1]. rewrite E.
  destruct (step x o s) as [s1 r]. cbn [fst snd] in *. destruct (IH s1 P1) as [E2 P2]. rewrite E2.
  destruct (run x ops s1) as [s2 rs]. cbn [fst snd] in *. now split.
Qed.

(** ** Construction *)
Lemma start_alike x tol d g : alike (_ <<- assign_gw_lum_tol x tol ;; _ <<- assign_params x d None ;; set_g x g) (_ <<- assign_gw_lum_tol x tol ;; _ <<- assign_params x d None ;; set_g x g).
Proof.
  apply alike_bind; [apply tolerance_alike|]. intros _. apply alike_bind; [apply assign_alike|]. intros _. apply alike_modify; same.
Qed.
Lemma init_swap x k i m1 m2 : i_m_1 i = PQArr m1 tt -> i_m_2 i = PQArr m2 tt -> length m1 = length m2 ->
  init x k (exchanged_args i) = match init x k i with Ok s => Ok (exchanged s) | Err e => Err e end.
Proof.
  intros E1 E2 L. unfold init. cbn [exchanged_args i_m_1 i_m_2 i_ecc i_dist i_n_proc i_f_orb i_a i_position i_polarisation i_inclination i_weights i_gw_lum_tol i_stat_tol i_interpolate_g i_interpolate_sc i_sc_params].
  rewrite E1, E2. cbn [len_of rbind]. rewrite L. destruct (_ && _)%bool; [reflexivity|].
  match goal with |- rbind ?X _ = _ => destruct X as [[[pos inc] pol]|] end; cbn [rbind]; [|reflexivity].
  assert (F : f_orb_from_a (i_a i) (PQArr m2 tt) (PQArr m1 tt) = f_orb_from_a (i_a i) (PQArr m1 tt) (PQArr m2 tt)).
  { unfold f_orb_from_a. cbn [py_has_units list_of is_scalar]. now rewrite get_f_arr_swap. }
  rewrite F. destruct (if py_exists (i_f_orb i) then _ else _) as [f|]; cbn [rbind]; [|reflexivity].
  replace (forallb py_has_units [PQArr m2 tt; PQArr m1 tt; i_dist i; f]) with (forallb py_has_units [PQArr m1 tt; PQArr m2 tt; i_dist i; f]) by reflexivity.
  destruct (negb _); [reflexivity|].
  destruct (ensure_array [i_dist i; f; i_ecc i; i_weights i]) as [ws fl] eqn:W.
  assert (EA : forall a b : list num, fst (ensure_array [PQArr a tt; PQArr b tt; i_dist i; f; i_ecc i; i_weights i]) = PQArr a tt :: PQArr b tt :: ws).
  { intros a b. change (fst (let '(w1, f1) := ensure_array_one (PQArr a tt) in let '(rest, fl1) := (let '(w2, f2) := ensure_array_one (PQArr b tt) in let '(rest2, fl2) := ensure_array [i_dist i; f; i_ecc i; i_weights i] in (w2 :: rest2, (f2 || fl2)%bool)) in (w1 :: rest, (f1 || fl1)%bool)) = PQArr a tt :: PQArr b tt :: ws). rewrite W. reflexivity. }
  rewrite !EA. clear EA W fl F. destruct ws as [|d [|f' [|e [|w [|]]]]]; try reflexivity.
  destruct (len_of e) as [le|]; cbn [rbind]; [|reflexivity]. cbn [list_of existsb]. rewrite L, Nat.eqb_refl. cbn [negb orb].
  match goal with |- (if ?b then _ else _) = _ => destruct b end; [reflexivity|].
  pose proof (start_alike x (i_gw_lum_tol i) (i_sc_params i) (i_interpolate_g i)) as S.
  match goal with |- _ = match match ?m ?s with _ => _ end with _ => _ end => destruct (S s L) as [E _] end.
  unfold exchanged in E at 1. cbn [s_class s_m_1 s_m_2 s_dist s_f_orb s_ecc s_weights s_position s_inclination s_polarisation s_t_merge s_snr s_max_snr_harmonic s_merged s_stat_tol s_n_proc s_harm s_g s_interpolate_sc s_sc s_params] in E.
  rewrite E. match goal with |- context [match ?m ?s with _ => _ end] => destruct (m s) as [s' [u|er]] end; reflexivity.
Qed.
Lemma evolve_new_swap x t s : paired s -> exists s' r, evolve_new x t s = (s', r) /\
  evolve_new x t (exchanged s) = (exchanged s', match r with Ok new => Ok (exchanged new) | Err e => Err e end).
Proof.
  intros P. unfold evolve_new. unfold mbind at 1. unfold mbind at 6. destruct (ensure_alike x s P) as [E P1]. rewrite E.
  destruct (ensure_t_merge x s) as [s1 [tm|e]]; cbn [fst snd] in *; [|now do 2 eexists; split].
  unfold mbind, self, lift, ret. rewrite evolved_swap by exact P1. destruct (evolved x t tm s1) as [[[mg ecc] f]|e]; [|now do 2 eexists; split].
  cbn [exchanged s_m_1 s_m_2 s_dist s_harm s_n_proc s_position s_polarisation s_inclination s_stat_tol s_params s_sc s_g].
  destruct (h_gw_lum_tol (s_harm s1)) as [tol|]; [|now do 2 eexists; split].
  set (i := mkInit (PQArr (s_m_1 s1) tt) (PQArr (s_m_2 s1) tt) (PArr ecc) (PQArr (s_dist s1) tt) (s_n_proc s1)
                (PQArr f tt) PNone (s_position s1) (s_polarisation s1) (s_inclination s1) PNone tol (s_stat_tol s1)
                false false (s_params s1)).
  pose proof (init_swap x KSource i (s_m_1 s1) (s_m_2 s1) eq_refl eq_refl P1) as I. unfold exchanged_args in I. cbn [i i_m_1 i_m_2 i_ecc i_dist i_n_proc i_f_orb i_a i_position i_polarisation i_inclination i_weights i_gw_lum_tol i_stat_tol i_interpolate_g i_interpolate_sc i_sc_params] in I.
  rewrite I. destruct (init x KSource i) as [new|e]; [|now do 2 eexists; split]. rewrite n_swap by exact P1.
  destruct (times_of t (n_sources s1)) as [ts|e]; [|now do 2 eexists; split]. destruct (remaining tm ts) as [l|e]; [|now do 2 eexists; split].
  do 2 eexists. split; reflexivity.
Qed.
Lemma results_swap x s : paired s ->
  m_c (exchanged s) = m_c s /\ a_getter (exchanged s) = a_getter s /\
  (forall c st t, get_source_mask c st t (exchanged s) = get_source_mask c st t s) /\
  (forall h w, get_h_0_n x h w (exchanged s) = get_h_0_n x h w s /\ get_h_c_n x h w (exchanged s) = get_h_c_n x h w s) /\
  (forall a n w, snd (get_snr x a n w (exchanged s)) = snd (get_snr x a n w s)) /\
  (forall a w, snd (get_snr_stationary x a w (exchanged s)) = snd (get_snr_stationary x a w s)) /\
  (forall a n w, snd (get_snr_evolving x a n w (exchanged s)) = snd (get_snr_evolving x a n w s)) /\
  (forall save w exact, snd (get_merger_time x save w exact (exchanged s)) = snd (get_merger_time x save w exact s)).
Proof.
  intros P. split; [apply m_c_swap|]. split; [apply a_swap|]. split; [intros; now apply mask_swap|].
  split; [intros; split; now apply strain_swap|]. split; [intros; now rewrite (proj1 (get_snr_alike x a n w s P))|].
  split; [intros; now rewrite (proj1 (get_snr_stationary_alike x a w s P))|]. split; [intros; now rewrite (proj1 (get_snr_evolving_alike x a n w s P))|].
  intros. now rewrite (proj1 (merger_alike x save w exact s P)).
Qed.
Lemma reachable_paired x s n : reachable false x s n -> paired s.
Proof. intros H. destruct (aligned_thm x s n H) as [A _]. unfold paired. now rewrite (al_m_1 s n A), (al_m_2 s n A). Qed.
