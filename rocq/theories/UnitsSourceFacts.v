(** UnitsSourceFacts.v -- the methods of Source with quantities against SI values: parameters, masks, strains, SNRs. *)
From Coq Require Import String Reals ZArith List Bool Lra Lia.
From Verif Require Import Num NumFacts Np NpFacts Utils Strain Psd Evol Snr Interp Harmonics ScParams Source History Units UnitsSpec UnitsFacts UnitsThms
  UnitsStrain UnitsEvol UnitsEvolSpec UnitsEvolFacts UnitsEvolThms UnitsEvolRuns UnitsEccRuns UnitsPsd UnitsPsdSpec UnitsPsdFacts UnitsPsdThms UnitsSnr
  UnitsSnrSpec UnitsSnrFacts UnitsSnrEvol UnitsSnrEcc UnitsSnrThms UnitsSource UnitsSourceSpec UnitsSourceParams.
Import ListNotations.
Open Scope list_scope.
Open Scope R_scope.
Open Scope res_scope.

(** *** Arrays *)
Lemma select_of_map {A B} (g : A -> B) m l : select m (map g l) = map g (select m l).
Proof. revert l. induction m as [|b m IH]; intros [|x l]; cbn; try reflexivity; destruct b; cbn; now rewrite IH. Qed.
Lemma scatter_of_map {A B} (g : A -> B) m v l : scatter m (map g v) (map g l) = map g (scatter m v l).
Proof.
  revert v l. induction m as [|b m IH]; intros v [|x l]; cbn; try reflexivity; destruct b, v; cbn; try reflexivity; f_equal; try apply IH.
  all: first [exact (IH [] l)|exact (IH (_ :: _) l)].
Qed.
Lemma take_mask_of_map {A B} (g : A -> B) m l : take_mask m (map g l) = rmap (map g) (take_mask m l).
Proof. unfold take_mask. rewrite map_length, select_of_map. destruct (length m =? length l)%nat; reflexivity. Qed.
Lemma repeat_of_map {A B} (g : A -> B) x n : np_repeat (g x) n = map g (np_repeat x n).
Proof. unfold np_repeat. induction n; cbn; congruence. Qed.
Lemma some_length d v x : in_some_unit d v x -> length v = length x.
Proof. intros (u & _ & ->). apply map_length. Qed.
Lemma some_select d m v x : in_some_unit d v x -> in_some_unit d (select m v) (select m x).
Proof. intros (u & U & ->). exists u. split; [exact U|apply select_of_map]. Qed.

(** *** Methods *)
Lemma agree_bind {A B C D} (R : A -> B -> Prop) (T : C -> D -> Prop) m n f g : agree R m n ->
  (forall a b, R a b -> agree T (f a) (g b)) -> agree T (mbind_q m f) (mbind n g).
Proof.
  intros H K q s S. unfold mbind_q, mbind. specialize (H q s S). destruct (m q) as [q' [a|e]], (n s) as [s' [b|e']]; cbn in H; destruct H as (H & E);
    try contradiction; [now apply K|now split].
Qed.
Lemma agree_self : agree same_source self_q self.
Proof. intros q s S. now split. Qed.
Lemma agree_lift {A B} (R : A -> B -> Prop) r t : res_rel R r t -> agree R (lift_q r) (lift t).
Proof. intros H q s S. now split. Qed.
Lemma agree_lift_eq {A} (r t : res A) : r = t -> agree eq (lift_q r) (lift t).
Proof. intros -> q s S. split; [exact S|]. cbn. destruct t; reflexivity. Qed.
Lemma agree_ret {A B} (R : A -> B -> Prop) a b : R a b -> agree R (ret_q a) (ret b).
Proof. intros H q s S. now split. Qed.
Lemma agree_raise {A B} (R : A -> B -> Prop) e : agree R (raise_q e) (raise e).
Proof. intros q s S. now split. Qed.
Lemma agree_modify f g : (forall q s, same_source q s -> same_source (f q) (g s)) -> agree eq (modify_q f) (modify g).
Proof. intros H q s S. split; [now apply H|reflexivity]. Qed.

(** *** Attribute assignment *)
Ltac setter := let S := fresh in intros S; destruct S; constructor; cbn; auto.
Lemma same_set_snr v q s : same_source q s -> same_source (setq_snr v q) (set_snr v s).
Proof. setter. Qed.
Lemma same_set_max v q s : same_source q s -> same_source (setq_max_snr_harmonic v q) (set_max_snr_harmonic v s).
Proof. setter. Qed.
Lemma same_set_t_merge v w q s : v = option_map (map (in_unit gigayear)) w -> same_source q s -> same_source (setq_t_merge v q) (set_t_merge w s).
Proof. intros E. setter. Qed.
Lemma same_set_orbit e f g m q s : in_some_unit frequency_dim f g -> same_source q s -> same_source (setq_orbit e f m q) (set_orbit e g m s).
Proof. intros E. setter. Qed.
Lemma same_set_f_orb f g q s : in_some_unit frequency_dim f g -> same_source q s -> same_source (setq_f_orb f q) (set_f_orb g s).
Proof. intros E S. unfold setq_f_orb, set_f_orb. rewrite (ss_ecc _ _ S), (ss_merged _ _ S). now apply same_set_orbit. Qed.
Lemma same_set_harm h q s : same_source q s -> same_source (setq_harm h q) (set_harm h s).
Proof. setter. Qed.
Lemma same_set_g g q s : same_source q s -> same_source (setq_g g q) (set_g_attr g s).
Proof. setter. Qed.
Lemma same_put_params d e q s : same_params d e -> same_source q s -> same_source (putq_params d q) (put_params e s).
Proof. intros E. setter. Qed.
Lemma same_put_sc c c' q s : c = option_map source_curve_q c' -> same_source q s -> same_source (putq_sc c q) (put_sc c' s).
Proof. intros E. setter. Qed.
Lemma same_interpolate b q s : same_source q s -> same_source (setq_interpolate_sc b q) (set_interpolate_sc b s).
Proof. setter. Qed.

(** *** Properties *)
Lemma n_sources_si q s : same_source q s -> n_sources_q q = n_sources s.
Proof. intros S. unfold n_sources_q, n_sources. eapply some_length, ss_m_1, S. Qed.
Lemma m_c_si q s : same_source q s -> m_c_q q = rmap (map (in_unit msun)) (m_c s).
Proof.
  intros S. unfold m_c_q, m_c. destruct (ss_m_1 _ _ S) as (u1 & U1 & ->), (ss_m_2 _ _ S) as (u2 & U2 & ->). now apply chirp_masses.
Qed.
Lemma rel_rmap {A B} (g : A -> B) (r : res (list B)) (t : res (list A)) : res_rel (Forall2 (fun v x => v = g x)) r t -> r = rmap (map g) t.
Proof.
  destruct r as [l|e], t as [l'|e']; cbn; try contradiction; [|congruence]. intros F. f_equal. induction F; cbn; congruence.
Qed.
Lemma pairs_rel d e l l' m m' : Forall2 (isv d) l l' -> Forall2 (isv e) m m' ->
  res_rel (Forall2 (fun v x => isv d (fst v) (fst x) /\ isv e (snd v) (snd x))) (bzip (fun x y => (x, y)) l m) (bzip (fun x y => (x, y)) l' m').
Proof. intros L M. eapply rel_bzip; [exact L|exact M|]. intros. now split. Qed.
Lemma a_arr_si f m1 m2 f' m1' m2' : in_some_unit frequency_dim f f' -> in_some_unit mass_dim m1 m1' -> in_some_unit mass_dim m2 m2' ->
  get_a_arr_q f m1 m2 = rmap (map (in_unit au)) (get_a_arr f' m1' m2').
Proof.
  intros (u & U & ->) (u1 & U1 & ->) (u2 & U2 & ->). apply rel_rmap. unfold get_a_arr_q, get_a_arr.
  eapply rel_bind; [apply (pairs_rel mass_dim mass_dim); apply list_isv; eassumption|]. intros mm mm' P. unfold bzip.
  eapply rel_bzipM; [exact P|apply list_isv; exact U|]. intros [v w] [x y] z z' (V & W) Z. cbn in V, W |- *.
  rewrite (a_from_f_si _ _ _ _ _ _ Z V W). reflexivity.
Qed.
Lemma f_arr_si a m1 m2 a' m1' m2' : Forall2 (isv length_dim) a a' -> in_some_unit mass_dim m1 m1' -> in_some_unit mass_dim m2 m2' ->
  get_f_arr_q a m1 m2 = rmap (map (in_unit hertz)) (get_f_arr a' m1' m2').
Proof.
  intros A (u1 & U1 & ->) (u2 & U2 & ->). apply rel_rmap. unfold get_f_arr_q, get_f_arr.
  eapply rel_bind; [apply (pairs_rel mass_dim mass_dim); apply list_isv; eassumption|]. intros mm mm' P. unfold bzip.
  eapply rel_bzipM; [exact P|exact A|]. intros [v w] [x y] z z' (V & W) Z. cbn in V, W |- *.
  rewrite (f_from_a_si _ _ _ _ _ _ Z V W). reflexivity.
Qed.
Lemma a_si q s : same_source q s -> a_getter_q q = rmap (map (in_unit au)) (a_getter s).
Proof. intros S. apply a_arr_si; apply S. Qed.
Lemma ecc_tol_si q s : same_source q s -> ecc_tol_q q = ecc_tol s.
Proof. intros S. unfold ecc_tol_q, ecc_tol. now rewrite (ss_harm _ _ S). Qed.
Lemma some_in_unit d u l : unit_for d u -> in_some_unit d (map (in_unit u) l) l.
Proof. intros U. now exists u. Qed.
Lemma a_setter_si a b : same_arg length_dim a b -> agree eq (a_setter_q a) (a_setter b).
Proof.
  intros A. destruct a, b; cbn in A; try contradiction; cbn [a_setter_q a_setter]; try apply agree_raise.
  - apply agree_bind with same_source; [exact agree_self|]. intros q s S. destruct A as (uu & U & ->).
    rewrite (f_arr_si _ _ _ l0 _ _ (list_isv _ _ l0 U) (ss_m_1 _ _ S) (ss_m_2 _ _ S)).
    apply agree_bind with (fun v x => v = map (in_unit hertz) x); [apply agree_lift; destruct (get_f_arr _ _ _); reflexivity|].
    intros v x ->. apply agree_modify. intros. apply same_set_f_orb; [|assumption]. apply some_in_unit, unit_hertz.
  - apply agree_bind with same_source; [exact agree_self|]. intros q s S.
    rewrite (f_arr_si [x] _ _ [x0] _ _ (Forall2_cons (R := isv length_dim) x x0 A (Forall2_nil _)) (ss_m_1 _ _ S) (ss_m_2 _ _ S)).
    apply agree_bind with (fun v x => v = map (in_unit hertz) x); [apply agree_lift; destruct (get_f_arr _ _ _); reflexivity|].
    intros v y ->. apply agree_modify. intros. apply same_set_f_orb; [|assumption]. apply some_in_unit, unit_hertz.
Qed.

(** *** Parameters *)
Lemma x_si_eq X y : same_world X y -> x_si X = y.
Proof. now intros (E & _). Qed.
Lemma set_sc_si X y : same_world X y -> agree eq (set_sc_q X) (set_sc y).
Proof.
  intros W q s S. unfold set_sc_q, set_sc. rewrite (ss_interpolate_sc _ _ S). destruct (s_interpolate_sc s).
  - rewrite (curve_si X y _ _ W (ss_params _ _ S)). destruct (curve_of y (s_params s)) as [c|e]; cbn.
    + split; [now apply same_put_sc|reflexivity].
    + now split.
  - split; [now apply same_put_sc|reflexivity].
Qed.
Lemma agree_if {A B} (R : A -> B -> Prop) (b : bool) m m' n n' : agree R m n -> agree R m' n' -> agree R (if b then m else m') (if b then n else n').
Proof. intros H K. now destruct b. Qed.
Lemma assign_si X y dq d cq c : same_world X y -> same_params dq d -> opt_rel same_params cq c ->
  agree eq (assign_params_q X dq cq) (assign_params y d c).
Proof.
  intros W F C. unfold assign_params_q, assign_params. eapply agree_bind; [apply agree_lift, make_params_si, F|]. intros nq n N.
  eapply agree_bind; [apply agree_modify; intros; now apply same_put_params|]. intros _ _ _.
  assert (E : match cq with None => true | Some e => negb (dict_eqb_q nq e) end = match c with None => true | Some e => negb (dict_eqb n e) end).
  { destruct cq, c; cbn in C; try contradiction; [|reflexivity]. f_equal. now apply dict_eqb_si. }
  cbv zeta. rewrite E. apply agree_if; [now apply set_sc_si|now apply agree_ret].
Qed.
Lemma setitem_si X y k v x : same_world X y -> same_pval k v x -> agree eq (params_setitem_q X k v) (params_setitem y k x).
Proof.
  intros W V. unfold params_setitem_q, params_setitem. eapply agree_bind; [now apply agree_lift_eq|]. intros _ _ _.
  eapply agree_bind; [exact agree_self|]. intros q s S. cbv zeta.
  eapply agree_bind; [apply agree_modify; intros; apply same_put_params; [|assumption]; apply put_si; [exact V|exact (ss_params _ _ S)]|]. intros _ _ _.
  rewrite (peqb_si k _ _ _ _ (get_or_none_si k _ _ (ss_params _ _ S)) V). apply agree_if; [now apply set_sc_si|now apply agree_ret].
Qed.
Lemma update_si X y dq d : same_world X y -> same_params dq d -> agree eq (params_update_q X dq) (params_update y d).
Proof.
  intros W F. unfold params_update_q, params_update. rewrite (keys_si _ _ F). eapply agree_bind; [now apply agree_lift_eq|]. intros _ _ _.
  eapply agree_bind; [exact agree_self|]. intros q s S. cbv zeta.
  eapply agree_bind; [apply agree_modify; intros; apply same_put_params; [|assumption]; apply put_all_si; [exact F|exact (ss_params _ _ S)]|]. intros _ _ _.
  assert (E : existsb (fun kv => negb (peqb_q (get_or_none_q (fst kv) (q_params q)) (snd kv))) dq =
              existsb (fun kv => negb (peqb (get_or_none (fst kv) (s_params s)) (snd kv))) d).
  { clear W. induction F as [|[k v] [l x] dq d (E & H) F IH]; [reflexivity|]. cbn [existsb fst snd] in *. subst k. rewrite IH. f_equal. f_equal.
    eapply peqb_si; [apply get_or_none_si, S|exact H]. }
  rewrite E. apply agree_if; [now apply set_sc_si|now apply agree_ret].
Qed.
Lemma ior_si X y dq d : same_world X y -> same_params dq d -> agree eq (params_ior_q X dq) (params_ior y d).
Proof.
  intros W F. unfold params_ior_q, params_ior. eapply agree_bind.
  - apply agree_modify. intros q s S. apply same_put_params; [|exact S]. apply put_all_si; [exact F|exact (ss_params _ _ S)].
  - intros _ _ _. eapply agree_bind; [exact agree_self|]. intros q s S. apply assign_si; [exact W|apply S|cbn; apply S].
Qed.
Lemma setdefault_si k v x : same_pval k v x -> agree eq (params_setdefault_q k v) (params_setdefault k x).
Proof.
  intros V. apply agree_modify. intros q s S. pose proof (lookup_si k _ _ (ss_params _ _ S)) as L.
  destruct (lookup_q k (q_params q)), (lookup k (s_params s)); cbn in L; try contradiction; [exact S|].
  apply same_put_params; [|exact S]. apply put_si; [exact V|exact (ss_params _ _ S)].
Qed.
Lemma tolerance_si X y tol : same_world X y -> agree eq (assign_gw_lum_tol_q X tol) (assign_gw_lum_tol y tol).
Proof.
  intros W q s S. unfold assign_gw_lum_tol_q, assign_gw_lum_tol. rewrite (x_si_eq _ _ W), (ss_harm _ _ S).
  destruct (set_gw_lum_tol _ _ _ _) as [h r]. cbn. split; [now apply same_set_harm|]. destruct r; reflexivity.
Qed.
Lemma set_g_si X y b : same_world X y -> agree eq (set_g_q X b) (set_g y b).
Proof. intros W. unfold set_g_q, set_g. rewrite (x_si_eq _ _ W). apply agree_modify. intros. now apply same_set_g. Qed.

(** *** Masks *)
Lemma or_default_si k v w x y : same_pval k v x -> same_pval k w y -> same_pval k (or_default_q v w) (or_default x y).
Proof. intros V W. destruct v, x; cbn in V; try contradiction; cbn; auto. Qed.
Lemma auto_t_obs_si k v x : same_pval k v x -> is_ time_dim (auto_t_obs x) (auto_t_obs_q v).
Proof.
  intros V. unfold auto_t_obs, auto_t_obs_q. rewrite (peqb_si k v (PStrQ "LISA") x (PStr "LISA") V eq_refl).
  destruct (peqb x (PStr "LISA")); unfold years; apply years_is.
Qed.
Lemma resolve_t_obs_si k v w x y : same_pval "t_obs" v x -> same_pval k w y -> same_pval "t_obs" (resolve_t_obs_q v w) (resolve_t_obs x y).
Proof.
  intros V W. unfold resolve_t_obs_q, resolve_t_obs. rewrite (peqb_si "t_obs" v (PStrQ "auto") x (PStr "auto") V eq_refl).
  destruct (peqb x (PStr "auto")); [|exact V]. cbn. left. split; [reflexivity|]. eapply auto_t_obs_si, W.
Qed.
Lemma time_of_si v x : same_pval "t_obs" v x -> res_rel (isv time_dim) (time_of_q v) (time_of x).
Proof. destruct v, x; cbn; try contradiction; auto. intros [(_ & H)|(K & _)]; [exact H|discriminate]. Qed.

Lemma source_mask_si c st t t' q s : same_source q s -> same_pval "t_obs" t t' ->
  get_source_mask_q c st t q = get_source_mask c st t' s.
Proof.
  intros S T. unfold get_source_mask_q, get_source_mask. rewrite (n_sources_si _ _ S), (ecc_tol_si _ _ S), (ss_ecc _ _ S), (m_c_si _ _ S), (ss_stat_tol _ _ S).
  set (r := resolve_t_obs_q _ _). set (r' := resolve_t_obs _ _).
  assert (R : same_pval "t_obs" r r').
  { apply (resolve_t_obs_si "instrument"); [apply or_default_si; [exact T|]|]; apply get_or_none_si, S. }
  apply time_of_si in R. cbv zeta.
  assert (E : match st with
    | TriNone => Ok (np_repeat true (n_sources s))
    | TriOther => Err ValueError
    | _ => t0 <- time_of_q r;; mc <- rmap (map (in_unit msun)) (m_c s);;
           mask <- determine_stationarity_q (q_f_orb q) (np_repeat t0 (n_sources s)) (s_ecc s) None None (Some mc) (s_stat_tol s);;
           Ok match st with TriFalse => map negb mask | _ => mask end
    end = match st with
    | TriNone => Ok (np_repeat true (n_sources s))
    | TriOther => Err ValueError
    | _ => t0 <- time_of r';; mc <- m_c s;;
           mask <- determine_stationarity (s_f_orb s) (np_repeat t0 (n_sources s)) (s_ecc s) None None (Some mc) (s_stat_tol s);;
           Ok match st with TriFalse => map negb mask | _ => mask end
    end).
  { destruct (time_of_q r) as [v|e], (time_of r') as [x|e']; cbn in R; try contradiction; [|now subst].
    destruct (as_some _ _ _ time_not_none R) as (ut & UT & ->). destruct (m_c s) as [mc|e]; [|now destruct st].
    cbn [rbind rmap]. destruct (ss_f_orb _ _ S) as (uf & UF & ->). rewrite repeat_of_map.
    pose proof (stationarity_si (s_f_orb s) (np_repeat x (n_sources s)) (s_ecc s) None None (Some mc) (s_stat_tol s) uf ut msun msun msun UF UT
      UnitsEvolFacts.unit_msun UnitsEvolFacts.unit_msun UnitsEvolFacts.unit_msun) as Z. cbn [list_in option_map] in Z. rewrite Z. reflexivity. }
  rewrite E. reflexivity.
Qed.
