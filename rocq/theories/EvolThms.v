(** EvolThms.v -- proofs in the exact form used by PropEvol.v. *)
From Coq Require Import String Reals ZArith List Bool Lra Lia.
From Coquelicot Require Import Coquelicot.
From Verif Require Import Num NumFacts Np NpFacts Utils Spec UtilsFacts Evol EvolSpec EvolFacts MergeFacts OdeFacts ArrEvolFacts CircFacts EccEvolFacts LocalFacts.
Import ListNotations.
Open Scope R_scope.

Lemma trajectory_rates_thm m1 m2 b T c0 e : 0 < m1 -> 0 < m2 -> 0 < c0 -> beta (Fin m1) (Fin m2) = Fin b ->
  follows_de_dt b c0 T e ->
  exists a : R -> R,
    (forall t, 0 <= t <= T -> get_a_from_ecc (Fin (e t)) (Fin c0) = Fin (a t)) /\
    peters_inspiral m1 m2 T a e /\
    (forall s t, 0 <= s -> s < t -> t <= T -> e t < e s /\ a t < a s).
Proof.
  intros H1 H2 Hc Hb. rewrite beta_fin in Hb by auto. apply Fin_inj in Hb. subst b. now apply trajectory_rates.
Qed.

(** trajectories exist up to the merger time returned by the code *)
Lemma trajectory_exists_thm quad m1 m2 b a e0 T tm :
  quad_exact quad -> 0 < m1 -> 0 < m2 -> 0 < a -> 0 < e0 < 1 -> 0 <= T -> beta (Fin m1) (Fin m2) = Fin b ->
  get_t_merge_ecc_sc quad (Fin e0) (Some (Fin a)) None (Some (Fin b)) None None (Fin 0) (Fin 1) true = Ok (Fin tm) ->
  T < tm ->
  exists c0 e, c_0 (Fin a) (Fin e0) = Fin c0 /\ e 0 = e0 /\ follows_de_dt b c0 T e.
Proof.
  intros HQ H1 H2 Ha He HT Hb Htm HL. rewrite beta_fin in Hb by auto. apply Fin_inj in Hb. subst b.
  pose proof (betaR_pos m1 m2 H1 H2) as Hb. rewrite merge_sc_exact in Htm by (auto; lra). inversion Htm; subst tm.
  exists (c0R a e0). destruct (trajectory_exists (betaR m1 m2) (c0R a e0) e0 T) as [e [E0 HF]]; auto.
  - now apply c0R_pos.
  - exists e. split; [now apply c_0_fin|]. auto.
Qed.

Lemma countdown_thm quad b c0 T e small large t : quad_exact quad -> 0 < b -> 0 < c0 -> follows_de_dt b c0 T e ->
  (forall s, 0 <= s <= T -> small <= e s <= large) -> 0 <= t <= T ->
  exists tm : R -> R,
    (forall s, 0 <= s <= T -> exists a, get_a_from_ecc (Fin (e s)) (Fin c0) = Fin a /\
       get_t_merge_ecc_sc quad (Fin (e s)) (Some (Fin a)) None (Some (Fin b)) None None (Fin small) (Fin large) true
       = Ok (Fin (tm s))) /\
    is_derive tm t (-1) /\ tm t = tm 0 - t.
Proof.
  intros HQ Hb Hc HF HS Ht. exists (fun s => 12/19 * c0 ^ 4 / b * I514 (e s)). split; [|split].
  - intros s Hs. destruct (HF s Hs) as [He _]. exists (aeR (e s) c0). split; [now apply get_a_from_ecc_fin|].
    rewrite merge_sc_exact; auto; [|now apply aeR_pos]. now rewrite texR_traj.
  - apply (texR_rate b c0 T); auto.
  - apply (texR_countdown b c0 T); auto.
Qed.

(** C17 on populations *)
Lemma stat_elem_eq f mc t e tol :
  nle (ndiv (nsub (circ_f_elem f mc t e merge_f_default) f) f) tol = stat_elem f mc t e tol.
Proof. reflexivity. Qed.
Lemma stationarity_sound X (xs : list X) (f mc T : X -> R) (e0 : X -> R) tol labels i x :
  determine_stationarity (map (fun x => Fin (f x)) xs) (map (fun x => Fin (T x)) xs) (map (fun x => Fin (e0 x)) xs)
     None None (Some (map (fun x => Fin (mc x)) xs)) (Fin tol) = Ok labels ->
  nth_error xs i = Some x -> nth_error labels i = Some true -> f x * (1 + tol) < 1000000000 -> 0 <= T x ->
  forall m1 m2 a e fT, 0 < m1 -> 0 < m2 -> chirp_mass (Fin m1) (Fin m2) = Fin (mc x) ->
  peters_inspiral m1 m2 (T x) a e -> e 0 = e0 x ->
  get_f_orb_from_a (Fin (a 0)) (Fin m1) (Fin m2) = Fin (f x) ->
  get_f_orb_from_a (Fin (a (T x))) (Fin m1) (Fin m2) = Fin fT ->
  0 <= (fT - f x) / f x <= tol.
Proof.
  intros HD Hx Hl Hm HT m1 m2 a e fT H1 H2 Hc HI He E0 ET.
  rewrite determine_stationarity_map in HD. inversion HD; subst labels. rewrite nth_error_map, Hx in Hl. simpl in Hl.
  inversion Hl as [Hl']. rewrite stat_elem_eq in Hl'. rewrite <- He in Hl'. 
  eapply (stationary_bound m1 m2 (T x) a e tol); eauto.
Qed.
Lemma estimate_sound m1 m2 T a e merge_f f0 fT mc est :
  0 < m1 -> 0 < m2 -> 0 <= T -> peters_inspiral m1 m2 T a e ->
  get_f_orb_from_a (Fin (a 0)) (Fin m1) (Fin m2) = Fin f0 ->
  get_f_orb_from_a (Fin (a T)) (Fin m1) (Fin m2) = Fin fT ->
  chirp_mass (Fin m1) (Fin m2) = Fin mc ->
  evolve_f_orb_circ [Fin f0] [Fin mc] [Fin T] [Fin (e 0)] merge_f = Ok [est] ->
  f0 <= fT /\ (est = merge_f \/ nle (Fin fT) est = true).
Proof.
  intros H1 H2 HT HI E0 ET Em HE. rewrite evolve_one in HE. inversion HE as [HE'].
  destruct (inspiral_frequency m1 m2 T a e merge_f f0 fT mc _ H1 H2 HT HI E0 ET Em HE') as [L [A|[A|[x [A B]]]]]; rewrite HE'.
  - auto.
  - split; auto. right. rewrite A. reflexivity.
  - split; auto. right. rewrite A. now apply nle_fin.
Qed.

(** C18 *)
Lemma stationarity_mono X (xs : list X) (f mc mc' t t' e e' : X -> R) tol tol' :
  (forall x, In x xs -> 0 < f x /\ 0 < mc x <= mc' x /\ 0 <= t x <= t' x /\ 0 <= e x <= e' x /\ e' x < 1
                        /\ f x * (1 + tol) < 1000000000) -> -1 < tol' <= tol ->
  let run mc t e tol := determine_stationarity (map (fun x => Fin (f x)) xs) (map (fun x => Fin (t x)) xs)
     (map (fun x => Fin (e x)) xs) None None (Some (map (fun x => Fin (mc x)) xs)) (Fin tol) in
  exists l l', run mc t e tol = Ok l /\ run mc' t' e' tol' = Ok l' /\ length l = length xs /\ length l' = length xs /\
    forall i, nth_error l' i = Some true -> nth_error l i = Some true.
Proof.
  intros H Ht run. unfold run. rewrite !determine_stationarity_map. do 2 eexists. split; [reflexivity|].
  split; [reflexivity|]. rewrite !map_length. split; auto. split; auto. intros i.
  rewrite !nth_error_map. destruct (nth_error xs i) as [x|] eqn:E; [|discriminate]. simpl. rewrite !stat_elem_eq.
  apply nth_error_In in E. destruct (H x E) as [A [B [C [D [F G]]]]].
  intros HH. inversion HH as [HH']. rewrite HH'. f_equal.
  eapply (stat_elem_mono (f x) (mc x) (mc' x) (t x) (t' x) (e x) (e' x) tol tol'); try lra; auto.
Qed.
Lemma merged_not_stationary_thm quad m1 m2 a e f mc T t tol : quad_exact quad -> 0 < m1 -> 0 < m2 -> 0 < a -> 0 <= e < 1 ->
  get_f_orb_from_a (Fin a) (Fin m1) (Fin m2) = Fin f -> chirp_mass (Fin m1) (Fin m2) = Fin mc ->
  get_t_merge_ecc_sc quad (Fin e) (Some (Fin a)) None None (Some (Fin m1)) (Some (Fin m2))
                    small_e_tol_default large_e_tol_default true = Ok (Fin t) ->
  t <= T -> f * (1 + tol) < 1000000000 ->
  determine_stationarity [Fin f] [Fin T] [Fin e] None None (Some [Fin mc]) (Fin tol) = Ok [false].
Proof.
  intros. pose proof (merged_not_stationary quad m1 m2 a e f mc T t tol) as M.
  pose proof (determine_stationarity_map (fun _ : unit => Fin f) (fun _ => Fin mc) (fun _ => Fin T) (fun _ => Fin e) None None (Fin tol) [tt]) as D.
  cbn [map] in D. rewrite D, stat_elem_eq, M; auto.
Qed.
Lemma stationarity_no_masses f t e m1 m2 tol : m1 = None \/ m2 = None ->
  determine_stationarity f t e m1 m2 None tol = Err ValueError.
Proof. intros [-> | ->]; unfold determine_stationarity; auto. destruct m1; reflexivity. Qed.
Lemma stationarity_masses_thm X (xs : list X) (f t e m1 m2 : X -> num) tol :
  determine_stationarity (map f xs) (map t xs) (map e xs) (Some (map m1 xs)) (Some (map m2 xs)) None tol =
  determine_stationarity (map f xs) (map t xs) (map e xs) None None
                         (Some (map (fun x => chirp_mass (m1 x) (m2 x)) xs)) tol.
Proof. apply determine_stationarity_masses. Qed.

(** C19 *)
Lemma merge_bounds_thm quad m1 m2 a e : quad_exact quad -> 0 < m1 -> 0 < m2 -> 0 < a -> 0 <= e < 1 ->
  exists t tc, get_t_merge_ecc_sc quad (Fin e) (Some (Fin a)) None None (Some (Fin m1)) (Some (Fin m2))
                    small_e_tol_default large_e_tol_default true = Ok (Fin t) /\
    get_t_merge_circ_sc None (Some (Fin m1)) (Some (Fin m2)) (Some (Fin a)) None = Ok (Fin tc) /\
    0 < t <= tc /\ tc / enhancement e <= t /\ (e = 0 -> t = tc).
Proof.
  intros HQ H1 H2 Ha He. destruct (merge_ecc_default quad m1 m2 a e HQ H1 H2 Ha He) as [t [A [B [C D]]]].
  exists t, (tmR (betaR m1 m2) a). rewrite merge_circ_sc by auto. auto.
Qed.

(** C21: crossed tolerances *)
Lemma crossed_tolerances quad : exists t t',
  get_t_merge_ecc quad [Fin (3/10)] (Some [Fin 1]) None (Some [Fin 1]) None None (Fin (1/2)) (Fin (1/10)) true = Ok [Fin t] /\
  get_t_merge_ecc_sc quad (Fin (3/10)) (Some (Fin 1)) None (Some (Fin 1)) None None (Fin (1/2)) (Fin (1/10)) true = Ok (Fin t') /\
  t' < t.
Proof.
  exists (tlgR 1 1 (3/10)), (tsmR 1 1 (3/10)).
  assert (He : 0 < 3/10 < 1) by lra. destruct (e_facts _ He) as [A B].
  unfold get_t_merge_ecc, get_t_merge_ecc_sc, check_arr, check_sc, check_mass_freq_input. cbn [rbind fst snd].
  unfold get_t_merge_ecc_sc_core, get_t_merge_ecc_core. cbn [forallb map length Nat.eqb andb negb select scatter map2 fst snd].
  unfold ngt, nge. rewrite !(neqb_f (3/10) 0) by lra. cbn [andb negb select scatter map2 fst snd].
  rewrite !(nlt_t 0 (3/10)), !(nlt_t (3/10) (1/2)), !(nlt_t (1/10) (3/10)), !(nle_f (1/2) (3/10)) by lra.
  cbn [andb negb select scatter map2 fst snd].
  rewrite c_0_fin by auto. rewrite t_large_fin, t_small_fin by lra.
  repeat split; auto. unfold tsmR, tlgR. pose proof (c0R_pos 1 (3/10) ltac:(lra) He) as Hc.
  assert (P : 0 < c0R 1 (3/10) ^ 4 / (4 * 1) * Rpower (3/10) (48/19)) by pos.
  set (k := c0R 1 (3/10) ^ 4 / (4 * 1) * Rpower (3/10) (48/19)) in *.
  assert (X : Rpower 1 (-1/2) < Rpower (1 - (3/10) ^ 2) (-1/2)) by (apply Rpower_anti_base; lra).
  rewrite Rpower_1_base in X.
  assert (Y : Rpower (1 + 121/304 * (3/10) ^ 2) 0 < Rpower (1 + 121/304 * (3/10) ^ 2) (3480/2299)) by (apply Rpower_lt; lra).
  rewrite Rpower_O in Y by lra.
  set (u := Rpower (1 - (3/10) ^ 2) (-1/2)) in *. set (v := Rpower (1 + 121/304 * (3/10) ^ 2) (3480/2299)) in *.
  clearbody u v k. assert (1 < u * v) by nra. nra.
Qed.

(** C22 *)
Lemma check_accepts beta m1 m2 a f :
  (exists r, check_sc beta m1 m2 a f = Ok r) <->
  ((beta <> None \/ (m1 <> None /\ m2 <> None)) /\ (a <> None \/ (f <> None /\ m1 <> None /\ m2 <> None))).
Proof.
  rewrite check_sc_table. destruct beta, m1, m2, a, f; cbn [isSome orb andb];
    (split; [intros [r H]; try discriminate; repeat split; try (left; congruence); try (right; repeat split; congruence)
            | intros [[A|[A B]] [C|[C [D E]]]]; try congruence; eauto ]).
Qed.
Lemma check_rejects beta m1 m2 a f : (forall r, check_sc beta m1 m2 a f <> Ok r) -> check_sc beta m1 m2 a f = Err ValueError.
Proof. rewrite check_sc_table. destruct (_ && _); auto. intros H. exfalso. eapply H; eauto. Qed.
Lemma check_values b m1 m2 a f r : check_sc b m1 m2 a f = Ok r ->
  (forall x, b = Some x -> fst r = x) /\ (forall x, a = Some x -> snd r = x) /\
  (forall x y, b = None -> m1 = Some x -> m2 = Some y -> fst r = beta x y) /\
  (forall g x y, a = None -> f = Some g -> m1 = Some x -> m2 = Some y -> snd r = get_a_from_f_orb g x y).
Proof.
  rewrite check_sc_table. destruct b, m1, m2, a, f; cbn [isSome orb andb]; intros H; inversion H; subst; cbn [fst snd];
    repeat split; intros; congruence.
Qed.
Lemma check_population X (xs : list X) beta m1 m2 a f : xs <> [] ->
  check_arr (omap xs beta) (omap xs m1) (omap xs m2) (omap xs a) (omap xs f) =
  match mapM (fun x => check_sc (oget x beta) (oget x m1) (oget x m2) (oget x a) (oget x f)) xs with
  | Ok l => Ok (map fst l, map snd l)
  | Err er => Err er
  end.
Proof.
  intros Hn. destruct (check_arr_map xs beta m1 m2 a f) as [[b' [a' [-> S]]]|[-> S]].
  - erewrite mapM_ext; [|intros x Hx; apply S]. rewrite mapM_ok. now rewrite !map_map.
  - rewrite (mapM_err _ ValueError) by auto. reflexivity.
Qed.

(** C23 *)
Lemma linspace0_spaced n T : (2 <= n)%nat -> equally_spaced n T (linspace0 (Fin T) n).
Proof. intros Hn. split; [apply linspace0_length|]. intros k Hk. now apply linspace0_nth. Qed.
Lemma steps_rows quad a b e n (T : list R) : (2 <= n)%nat ->
  exists rows, create_timesteps_array quad a b e (TArr (map Fin T)) n SNone = Ok rows /\
    Forall2 (equally_spaced n) T rows.
Proof.
  intros Hn. eexists. split; [reflexivity|]. rewrite map_map. induction T; simpl; constructor; auto.
  now apply linspace0_spaced.
Qed.
Lemma spaced_facts n T row : (2 <= n)%nat -> equally_spaced n T row ->
  nth_error row 0 = Some (Fin 0) /\ nth_error row (n - 1) = Some (Fin T) /\
  (0 <= T -> forall i j x y, (i <= j)%nat -> nth_error row i = Some (Fin x) -> nth_error row j = Some (Fin y) -> x <= y).
Proof.
  intros Hn [HL HN]. pose proof (INR_pred_pos n Hn) as HP. split; [|split].
  - rewrite HN by lia. do 2 f_equal. simpl. unfold Rdiv. ring.
  - rewrite HN by lia. do 2 f_equal. field. lra.
  - intros HT i j x y Hij Hi Hj.
    assert (Hjn : (j < n)%nat) by (rewrite <- HL; apply nth_error_Some; congruence).
    rewrite HN in Hi, Hj by lia. inversion Hi; inversion Hj. apply Rmult_le_compat_r; auto.
    apply Rmult_le_compat_r; [left; now apply Rinv_0_lt_compat|]. now apply le_INR.
Qed.
Lemma steps_scalar quad a b e n t :
  create_timesteps_array quad a b e (TScalar t) n SNone = create_timesteps_array quad a b e (TArr (repeat t (length a))) n SNone.
Proof. reflexivity. Qed.
Lemma steps_default quad a b e n tm :
  get_t_merge_ecc quad e (Some a) None (Some b) None None small_e_tol_default large_e_tol_default true = Ok tm ->
  create_timesteps_array quad a b e TNone n SNone = create_timesteps_array quad a b e (TArr tm) n SNone.
Proof. intros H. unfold create_timesteps_array. rewrite H. reflexivity. Qed.
Lemma steps_given quad a b e te n l1 l2 :
  create_timesteps_array quad a b e te n (S1 l1) = Ok (repeat l1 (length a)) /\
  create_timesteps_array quad a b e te n (S2 l2) = Ok l2.
Proof. split; reflexivity. Qed.

(** C24 *)
Lemma avoid_merger_thm quad odeint sched n_proc n X (xs : list X) (e a b : X -> num) (tm : X -> R) tb (r : X -> list R) ex :
  complete_schedule (length xs) sched -> (forall x, In x xs -> sorted (0 :: r x)) ->
  exists r' : X -> list R,
    (exists caller, evol_ecc quad odeint sched (PArr (map e xs)) TNone n (S2 (map (fun x => map Fin (0 :: r x)) xs))
      (PQArr (map b xs) tt) PNone PNone (PQArr (map a xs) tt) PNone ["timesteps"%string] n_proc true ex (Fin tb)
      (Some (map (fun x => Fin (tm x)) xs))
    = Ok (Single (E2 (map (fun x => map Fin (r' x)) xs)), caller)) /\
    forall x, In x xs -> kept_before (tm x - tb) (0 :: r x) (r' x).
Proof.
  intros HS HR. exists (fun x => clampR (tm x - tb) (r x)). split.
  - eexists. erewrite (evol_ecc_eval quad odeint sched n_proc TNone n (S2 (map (fun x => map Fin (0 :: r x)) xs))
      _ _ _ _ _ _ _ _ _ _ _ _ _ ["timesteps"%string] true ex (Fin tb) (Some (map (fun x => Fin (tm x)) xs)) X xs e b a
      None None _ (fun x => map Fin (clampR (tm x - tb) (r x)))); try reflexivity.
    + cbn -[clampR]. reflexivity.
    + unfold final_steps. cbn [rbind]. apply avoid_clamp_map. intros x t Hx Ht.
      destruct (In_nth _ _ 0 Ht) as [i [Hi E]]. rewrite <- E. apply (HR x Hx 0%nat (S i)); simpl; lia.
    + intros _. exact HS.
  - intros x Hx. exact (clampR_spec (tm x - tb) (r x) (HR x Hx)).
Qed.

(** C27 *)
Lemma circ_outputs_arr quad t_evol n ts X (m1 m2 a : X -> num) (xs : list X) : shared_steps t_evol ts ->
  exists (value : string -> option evo) (steps seps freqs : list (list num)),
    (forall vars, evol_circ quad t_evol n ts PNone (PQArr (map m1 xs) tt) (PQArr (map m2 xs) tt) (PQArr (map a xs) tt) PNone vars
                  = collect value vars) /\
    value "timesteps"%string = Some (E2 steps) /\ value "a"%string = Some (E2 seps) /\
    value "f_orb"%string = Some (E2 freqs) /\ value "f_GW"%string = Some (double_evo (E2 freqs)) /\
    (forall v, ~ In v ["timesteps"; "a"; "f_orb"; "f_GW"]%string -> value v = None).
Proof.
  intros HS. destruct (steps_local quad t_evol n ts HS) as [fr [_ HF]].
  set (fb := fun x => beta (m1 x) (m2 x)).
  destruct (circ_outputs quad t_evol n ts PNone (PQArr (map m1 xs) tt) (PQArr (map m2 xs) tt) (PQArr (map a xs) tt) PNone
     _ _ _ _ _ false X xs fb a m1 m2 (fun x => fr (Fin 0) (a x) (fb x)) eq_refl) as [v [A [B [[s C] [[g [D D']] F]]]]].
  - unfold check_arr, check_mass_freq_input; cbn; unfold beta_arr; now rewrite bzip_map.
  - reflexivity.
  - reflexivity.
  - rewrite map_map. apply (HF X (fun _ => Fin 0) a fb xs). intros x _. exists 0. split; auto; lra.
  - exists v, (map (fun x => fr (Fin 0) (a x) (fb x)) xs), s, g. auto 10.
Qed.
Lemma circ_outputs_sc quad t_evol n ts (m1 m2 a : num) : shared_steps t_evol ts ->
  exists (value : string -> option evo) (steps seps freqs : list num),
    (forall vars, evol_circ quad t_evol n ts PNone (PQScalar m1 tt) (PQScalar m2 tt) (PQScalar a tt) PNone vars
                  = collect value vars) /\
    value "timesteps"%string = Some (E1 steps) /\ value "a"%string = Some (E1 seps) /\
    value "f_orb"%string = Some (E1 freqs) /\ value "f_GW"%string = Some (double_evo (E1 freqs)) /\
    (forall v, ~ In v ["timesteps"; "a"; "f_orb"; "f_GW"]%string -> value v = None).
Proof.
  intros HS. destruct (steps_local quad t_evol n ts HS) as [fr [_ HF]].
  destruct (circ_outputs quad t_evol n ts PNone (PQScalar m1 tt) (PQScalar m2 tt) (PQScalar a tt) PNone
     _ _ _ _ _ true unit [tt] (fun _ => beta m1 m2) (fun _ => a) (fun _ => m1) (fun _ => m2)
     (fun x => fr (Fin 0) a (beta m1 m2)) eq_refl eq_refl eq_refl eq_refl) as [v [A [B [[s C] [[g [D D']] F]]]]].
  - apply (HF unit (fun _ => Fin 0) (fun _ => a) (fun _ => beta m1 m2) [tt]). intros x _. exists 0. split; auto; lra.
  - exists v. do 3 eexists. split; [exact A|]. split; [exact B|]. split; [exact C|]. split; [exact D|]. split; [exact D'|exact F].
Qed.
Lemma ecc_outputs_arr quad odeint sched n_proc t_evol n ts am ex tb X (ec m1 m2 a : X -> num) (xs : list X) :
  shared_steps t_evol ts -> (1 <= n)%nat -> ts <> S1 [] -> (forall x, exists r, ec x = Fin r /\ 0 <= r <= 1) ->
  complete_schedule (length xs) sched ->
  exists (value : string -> option evo) (steps eccs seps freqs : list (list num)),
    (forall vars, (r <- evol_ecc quad odeint sched (PArr (map ec xs)) t_evol n ts PNone (PQArr (map m1 xs) tt)
                    (PQArr (map m2 xs) tt) (PQArr (map a xs) tt) PNone vars n_proc am ex tb None ;; Ok (fst r))%res
                  = collect value vars) /\
    value "timesteps"%string = Some (E2 steps) /\ value "ecc"%string = Some (E2 eccs) /\
    value "a"%string = Some (E2 seps) /\
    value "f_orb"%string = Some (E2 freqs) /\ value "f_GW"%string = Some (double_evo (E2 freqs)) /\
    (forall v, ~ In v ["timesteps"; "ecc"; "a"; "f_orb"; "f_GW"]%string -> value v = None).
Proof.
  intros HS Hn Hts He HC. destruct (steps_local quad t_evol n ts HS) as [fr [FL HF]].
  set (fb := fun x => beta (m1 x) (m2 x)). set (rr := fun x => fr (ec x) (a x) (fb x)).
  set (tmx := fun x => get_t_merge_ecc_sc_core quad (ec x) (a x) (fb x) small_e_tol_default large_e_tol_default ex).
  set (gr := fun x => if am then clamp_row (too_close_row (tmx x) tb (rr x)) (rr x) else rr x).
  assert (NE : forall x, rr x <> []).
  { intros x E. specialize (FL (ec x) (a x) (fb x)). fold (rr x) in FL. rewrite E in FL.
    destruct ts; simpl in FL; try lia. congruence. }
  assert (FS : forall l : list X, final_steps quad (map ec l) (map a l) (map fb l) am ex tb None (map rr l) = Ok (map gr l)).
  { intros l. unfold final_steps, gr. destruct am; auto.
    unfold get_t_merge_ecc, check_arr, check_mass_freq_input. cbn [rbind fst snd].
    unfold small_e_tol_default, large_e_tol_default. rewrite merge_core_map; [|lra|intros; apply He].
    cbn [rbind]. apply avoid_clamp_local. intros x _. apply NE. }
  destruct (ecc_outputs quad odeint sched n_proc t_evol n ts PNone (PQArr (map m1 xs) tt) (PQArr (map m2 xs) tt)
     (PQArr (map a xs) tt) PNone (PArr (map ec xs))
     _ _ _ _ _ _ false am ex tb None X xs ec fb a m1 m2 (map rr xs) gr eq_refl) as [v [A [B [[q Q] [[s C] [[g [D D']] F]]]]]].
  - unfold check_arr, check_mass_freq_input; cbn; unfold beta_arr; now rewrite bzip_map.
  - reflexivity.
  - reflexivity.
  - reflexivity.
  - apply HF; intros; apply He.
  - apply FS.
  - auto.
  - exists v, (map gr xs), q, s, g. auto 12.
Qed.
