(** SwapFacts.v -- exchanging the two members of every binary changes nothing. *)
From Coq Require Import String Reals ZArith List Bool Lra Lia.
From Verif Require Import Num NumFacts Np NpFacts Utils Strain Psd Snr Evol Harmonics ScParams Source History SwapSpec.
Import ListNotations.
Open Scope R_scope.

(** ** Arithmetic *)
Lemma nadd_comm x y : (x + y = y + x)%num.
Proof. destruct x, y; cbn; try reflexivity. f_equal. ring. Qed.
Lemma nmul_comm x y : (x * y = y * x)%num.
Proof. destruct x, y; cbn; try reflexivity. f_equal. ring. Qed.
Lemma inf_times_scale k r : 0 < k -> inf_times (Fin (k * r)) = inf_times (Fin r).
Proof.
  intros K. cbn. destruct (Rtotal_order r 0) as [H|[->|H]].
  - rewrite !(proj2 (Rltb_false 0 _)) by nra. now rewrite !(proj2 (Rltb_true _ 0)) by nra.
  - now rewrite Rmult_0_r.
  - now rewrite !(proj2 (Rltb_true 0 _)) by nra.
Qed.
Lemma nmul_assoc_fin k x y : 0 < k -> (Fin k * x * y = Fin k * (x * y))%num.
Proof.
  intros K. assert (P : Rltb 0 k = true) by now apply Rltb_true. assert (N : Rltb k 0 = false) by (apply Rltb_false; lra).
  destruct x as [a| | |], y as [b| | |]; cbn -[inf_times]; rewrite ?P, ?N; try reflexivity.
  - f_equal. ring.
  - rewrite inf_times_scale by auto. cbn. destruct (Rltb 0 a); cbn; rewrite ?P, ?N; try reflexivity. destruct (Rltb a 0); cbn; rewrite ?P, ?N; reflexivity.
  - rewrite inf_times_scale by auto. cbn. destruct (Rltb 0 a); cbn; rewrite ?P, ?N; try reflexivity. destruct (Rltb a 0); cbn; rewrite ?P, ?N; reflexivity.
  - cbn. rewrite P. cbn. destruct (Rltb 0 b); cbn; rewrite ?P, ?N; try reflexivity. destruct (Rltb b 0); cbn; rewrite ?P, ?N; reflexivity.
  - cbn. now rewrite P.
  - cbn. now rewrite P.
  - cbn. now rewrite P.
  - cbn. rewrite P. cbn. destruct (Rltb 0 b); cbn; rewrite ?P, ?N; try reflexivity. destruct (Rltb b 0); cbn; rewrite ?P, ?N; reflexivity.
  - cbn. now rewrite P.
  - cbn. now rewrite P.
  - cbn. now rewrite P.
Qed.
Lemma chirp_swap x y : chirp_mass x y = chirp_mass y x.
Proof. unfold chirp_mass. now rewrite (nmul_comm x y), (nadd_comm x y). Qed.
Lemma get_a_swap f x y : get_a_from_f_orb f x y = get_a_from_f_orb f y x.
Proof. unfold get_a_from_f_orb. now rewrite (nadd_comm x y). Qed.
Lemma get_f_swap a x y : get_f_orb_from_a a x y = get_f_orb_from_a a y x.
Proof. unfold get_f_orb_from_a. now rewrite (nadd_comm x y). Qed.
Lemma beta_swap x y : beta x y = beta y x.
Proof.
  unfold beta. pose proof Ggrav_pos. pose proof clight_pos.
  assert (E : exists k, 0 < k /\ (Fin (64 / 5) * Fin Ggrav ^^ 3 / Fin clight ^^ 5)%num = Fin k).
  { rewrite npowi3, npowi5, nmul_fin, ndiv_fin by nz. eexists. split; [|reflexivity]. pos. }
  destruct E as (k & K & ->). rewrite !nmul_assoc_fin by auto. now rewrite (nmul_comm x y), (nadd_comm x y).
Qed.
Lemma freq_swap x y a : freq_of_a x y a = freq_of_a y x a.
Proof. unfold freq_of_a. cbv zeta. now rewrite get_f_swap. Qed.

(** ** Arrays *)
Lemma mapM_ext {A B} (f g : A -> res B) l : (forall x, f x = g x) -> mapM f l = mapM g l.
Proof. intros E. induction l as [|x l IH]; cbn; [reflexivity|]. rewrite E, IH. reflexivity. Qed.
Lemma bzipM_flip {A B C} (f : A -> B -> res C) l1 : forall l2, bzipM f l1 l2 = bzipM (fun y x => f x y) l2 l1.
Proof.
  intros l2. unfold bzipM. rewrite (Nat.eqb_sym (length l2)). destruct (length l1 =? length l2)%nat eqn:E.
  - clear E. revert l2. induction l1 as [|x l1 IH]; intros [|y l2]; cbn; try reflexivity. now rewrite IH.
  - apply Nat.eqb_neq in E. destruct l1 as [|x [|x' l1]], l2 as [|y [|y' l2]]; cbn in E; try lia; reflexivity.
Qed.
Lemma bzipM_ext {A B C} (f g : A -> B -> res C) l1 l2 : (forall x y, f x y = g x y) -> bzipM f l1 l2 = bzipM g l1 l2.
Proof.
  intros E. unfold bzipM. destruct (length l1 =? length l2)%nat.
  - revert l2. induction l1 as [|x l1 IH]; intros [|y l2]; cbn; try reflexivity. now rewrite E, IH.
  - destruct l1 as [|x [|x' l1]], l2 as [|y [|y' l2]]; try reflexivity; apply mapM_ext; intros; apply E.
Qed.
Lemma bzip_sym {A C} (f : A -> A -> C) l1 l2 : (forall x y, f x y = f y x) -> bzip f l1 l2 = bzip f l2 l1.
Proof. intros E. unfold bzip. rewrite bzipM_flip. apply bzipM_ext. intros. now rewrite E. Qed.
(** Pairs, exchanged. *)
Definition flip_pair (q : num * num) := (snd q, fst q).
Lemma mapM_map {A B C} (f : B -> C) (g : A -> res B) l : mapM (fun x => y <- g x ;; Ok (f y))%res l = (r <- mapM g l ;; Ok (map f r))%res.
Proof. induction l as [|x l IH]; cbn; [reflexivity|]. rewrite IH. destruct (g x); cbn; [|reflexivity]. destruct (mapM g l); reflexivity. Qed.
Lemma pairs_swap l1 l2 : bzip (fun x y : num => (x, y)) l2 l1 = (r <- bzip (fun x y : num => (x, y)) l1 l2 ;; Ok (map flip_pair r))%res.
Proof.
  unfold bzip. rewrite bzipM_flip. unfold bzipM. destruct (length l1 =? length l2)%nat.
  - revert l2. induction l1 as [|x l1 IH]; intros [|y l2]; cbn; try reflexivity. rewrite IH. destruct (map2M _ l1 l2); reflexivity.
  - destruct l1 as [|x [|x' l1]], l2 as [|y [|y' l2]]; try reflexivity; symmetry; rewrite <- mapM_map; reflexivity.
Qed.
Lemma bzipM_map_l {A A' B C} (f : A' -> B -> res C) (g : A -> A') l1 l2 : bzipM f (map g l1) l2 = bzipM (fun x y => f (g x) y) l1 l2.
Proof.
  unfold bzipM. rewrite map_length. destruct (length l1 =? length l2)%nat.
  - revert l2. induction l1 as [|x l1 IH]; intros [|y l2]; cbn; try reflexivity. now rewrite IH.
  - assert (D : forall (h : A' -> res C) l, mapM h (map g l) = mapM (fun x => h (g x)) l).
    { intros h l. induction l as [|x l IH]; cbn; [reflexivity|]. now rewrite IH. }
    destruct l1 as [|x [|x' l1]], l2 as [|y [|y' l2]]; cbn [map]; try reflexivity; exact (D _ (x :: x' :: l1)).
Qed.
Lemma get_a_arr_swap f l1 l2 : get_a_arr f l1 l2 = get_a_arr f l2 l1.
Proof.
  unfold get_a_arr. rewrite (pairs_swap l1 l2). destruct (bzip _ l1 l2) as [mm|]; cbn [rbind]; [|reflexivity].
  unfold bzip. rewrite bzipM_map_l. apply bzipM_ext. intros. cbn. now rewrite get_a_swap.
Qed.
Lemma get_f_arr_swap a l1 l2 : get_f_arr a l1 l2 = get_f_arr a l2 l1.
Proof.
  unfold get_f_arr. rewrite (pairs_swap l1 l2). destruct (bzip _ l1 l2) as [mm|]; cbn [rbind]; [|reflexivity].
  unfold bzip. rewrite bzipM_map_l. apply bzipM_ext. intros. cbn. now rewrite get_f_swap.
Qed.
Lemma freq_rows_swap l1 l2 a : freq_rows l1 l2 a = freq_rows l2 l1 a.
Proof.
  unfold freq_rows. rewrite (pairs_swap l1 l2). destruct (bzip _ l1 l2) as [mm|]; cbn [rbind]; [|reflexivity].
  unfold bzip2. replace (newaxis (map flip_pair mm)) with (map (map flip_pair) (newaxis mm)) by (unfold newaxis; now rewrite !map_map).
  rewrite bzipM_map_l. apply bzipM_ext. intros x y. unfold bzip. rewrite bzipM_map_l. apply bzipM_ext. intros. cbn. now rewrite freq_swap.
Qed.

(** ** Functions *)
Lemma check_swap {A} (b_of : A -> A -> res A) (a_of : A -> A -> A -> res A) b m1 m2 a f :
  (forall x y, b_of x y = b_of y x) -> (forall f x y, a_of f x y = a_of f y x) ->
  check_mass_freq_input b_of a_of b m1 m2 a f = check_mass_freq_input b_of a_of b m2 m1 a f.
Proof.
  intros B F. unfold check_mass_freq_input. destruct b, m1 as [x|], m2 as [y|], a, f; try reflexivity; rewrite ?(B x y), ?(F _ x y); reflexivity.
Qed.
Lemma check_arr_swap b m1 m2 a f : check_arr b m1 m2 a f = check_arr b m2 m1 a f.
Proof. apply check_swap; [intros; apply bzip_sym, beta_swap|apply get_a_arr_swap]. Qed.
Lemma check_sc_swap b m1 m2 a f : check_sc b m1 m2 a f = check_sc b m2 m1 a f.
Proof. apply check_swap; intros; f_equal; [apply beta_swap|apply get_a_swap]. Qed.
Lemma t_merge_circ_swap b m1 m2 a f : get_t_merge_circ b m1 m2 a f = get_t_merge_circ b m2 m1 a f.
Proof. unfold get_t_merge_circ. now rewrite check_arr_swap. Qed.
Lemma t_merge_circ_sc_swap b m1 m2 a f : get_t_merge_circ_sc b m1 m2 a f = get_t_merge_circ_sc b m2 m1 a f.
Proof. unfold get_t_merge_circ_sc. now rewrite check_sc_swap. Qed.
Lemma t_merge_ecc_swap quad e a f b m1 m2 small large exact : get_t_merge_ecc quad e a f b m1 m2 small large exact = get_t_merge_ecc quad e a f b m2 m1 small large exact.
Proof. unfold get_t_merge_ecc. now rewrite check_arr_swap. Qed.
Lemma t_merge_ecc_sc_swap quad e a f b m1 m2 small large exact : get_t_merge_ecc_sc quad e a f b m1 m2 small large exact = get_t_merge_ecc_sc quad e a f b m2 m1 small large exact.
Proof. unfold get_t_merge_ecc_sc. now rewrite check_sc_swap. Qed.
Lemma ensure_swap {A U} (m1 m2 : pyval A U) rest : exists w1 w2 ws fl,
  ensure_array (m1 :: m2 :: rest) = (w1 :: w2 :: ws, fl) /\ ensure_array (m2 :: m1 :: rest) = (w2 :: w1 :: ws, fl).
Proof.
  cbn [ensure_array]. destruct (ensure_array_one m1) as [w1 f1], (ensure_array_one m2) as [w2 f2], (ensure_array rest) as [ws fl].
  exists w1, w2, ws, (f1 || (f2 || fl))%bool. split; [reflexivity|]. f_equal. now destruct f1, f2, fl.
Qed.
Lemma evol_circ_swap quad t n ts b m1 m2 a f vars : evol_circ quad t n ts b m1 m2 a f vars = evol_circ quad t n ts b m2 m1 a f vars.
Proof.
  unfold evol_circ. destruct (ensure_swap m1 m2 [b; a; f]) as (w1 & w2 & ws & fl & -> & ->).
  destruct ws as [|b' [|a' [|f' [|]]]]; try reflexivity. rewrite (check_arr_swap (arr_of b') (arr_of w1)).
  destruct (check_arr _ _ _ _ _) as [[bb aa]|]; cbn [rbind fst snd]; [|reflexivity].
  destruct (arr_of w1) as [x|], (arr_of w2) as [y|]; try reflexivity.
  destruct (any_in _ vars); cbn [negb andb]; [|reflexivity].
  destruct (create_timesteps_array _ _ _ _ _ _ _); cbn [rbind]; [|reflexivity].
  destruct (bzip2 _ (newaxis bb) _); cbn [rbind]; [|reflexivity].
  destruct (bzip2 _ (newaxis aa) _); cbn [rbind]; [|reflexivity]. now rewrite (freq_rows_swap x y).
Qed.
Lemma evol_ecc_swap quad ode sched e t n ts b m1 m2 a f vars np avoid exact tb tm :
  evol_ecc quad ode sched e t n ts b m1 m2 a f vars np avoid exact tb tm = evol_ecc quad ode sched e t n ts b m2 m1 a f vars np avoid exact tb tm.
Proof.
  unfold evol_ecc. destruct (ensure_swap m1 m2 [b; a; f; e]) as (w1 & w2 & ws & fl & -> & ->).
  destruct ws as [|b' [|a' [|f' [|e' [|]]]]]; try reflexivity. rewrite (check_arr_swap (arr_of b') (arr_of w1)).
  destruct (check_arr _ _ _ _ _) as [[bb aa]|]; cbn [rbind fst snd]; [|reflexivity].
  assert (W : match arr_of w1, arr_of w2 with Some _, Some _ => true | _, _ => false end = match arr_of w2, arr_of w1 with Some _, Some _ => true | _, _ => false end)
    by now destruct (arr_of w1), (arr_of w2).
  assert (F : forall av, match arr_of w1, arr_of w2 with Some x, Some y => freq_rows x y av | _, _ => Err ValueError end =
                         match arr_of w2, arr_of w1 with Some x, Some y => freq_rows x y av | _, _ => Err ValueError end).
  { intros av. destruct (arr_of w1), (arr_of w2); try reflexivity. apply freq_rows_swap. }
  rewrite W. destruct (_ && _)%bool; [reflexivity|]. destruct (arr_of e') as [ecc|]; [|reflexivity].
  destruct (bzip c_0 aa ecc) as [c0|]; cbn [rbind]; [|reflexivity].
  destruct (create_timesteps_array _ _ _ _ _ _ _) as [ts0|]; cbn [rbind]; [|reflexivity].
  match goal with |- context [rbind (if avoid then ?X else Ok ts0) _] => set (clamped := if avoid then X else Ok ts0) end.
  destruct clamped as [ts1|]; cbn [rbind]; [|reflexivity].
  match goal with |- context [rbind (if (1 <? np)%nat then ?X else ?Y) _] => set (done := if (1 <? np)%nat then X else Y) end.
  destruct done as [ev|]; cbn [rbind]; [|reflexivity]. cbv zeta.
  match goal with |- context [rbind (if any_in ?v vars then bzip2 ?g ?x ?y else Ok []) _] => set (aev := if any_in v vars then bzip2 g x y else Ok []) end.
  destruct aev as [av|]; cbn [rbind]; [|reflexivity]. now rewrite F.
Qed.
Lemma stationarity_swap f t e m1 m2 mc tol : determine_stationarity f t e m1 m2 mc tol = determine_stationarity f t e m2 m1 mc tol.
Proof.
  unfold determine_stationarity. destruct mc, m1 as [x|], m2 as [y|]; try reflexivity. now rewrite (bzip_sym chirp_mass x y chirp_swap).
Qed.
Lemma snr_circ_swap w jv gi quad m1 m2 f d t n tm sc kw : snr_circ_evolving w jv gi quad m1 m2 f d t n tm sc kw = snr_circ_evolving w jv gi quad m2 m1 f d t n tm sc kw.
Proof.
  unfold snr_circ_evolving. rewrite (bzip_sym chirp_mass m1 m2 chirp_swap), (t_merge_circ_swap None (Some m1)).
  destruct (bzip chirp_mass m2 m1) as [mc|]; cbn [rbind]; [|reflexivity].
  destruct (match tm with None => _ | Some _ => _ end) as [tms|]; cbn [rbind]; [|reflexivity].
  cbv zeta. now rewrite evol_circ_swap.
Qed.
Lemma snr_ecc_swap w jv gi quad ode sched m1 m2 f d e h t n tm sc np rm r2 kw :
  snr_ecc_evolving w jv gi quad ode sched m1 m2 f d e h t n tm sc np rm r2 kw = snr_ecc_evolving w jv gi quad ode sched m2 m1 f d e h t n tm sc np rm r2 kw.
Proof.
  unfold snr_ecc_evolving. rewrite (bzip_sym chirp_mass m1 m2 chirp_swap), (t_merge_ecc_swap quad e None (Some f) None (Some m1)).
  destruct (bzip chirp_mass m2 m1) as [mc|]; cbn [rbind]; [|reflexivity].
  destruct (match tm with None => _ | Some _ => _ end) as [tms|]; cbn [rbind]; [|reflexivity].
  cbv zeta. now rewrite evol_ecc_swap.
Qed.
