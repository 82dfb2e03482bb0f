(** SourceFacts.v -- the methods of a Source, source by source. *)
From Coq Require Import String Reals ZArith List Bool Lra Lia.
From Verif Require Import Num NumFacts Np NpFacts Utils Spec UtilsFacts Strain Evol EvolSpec EvolFacts MergeFacts ArrEvolFacts StrainSpec StrainFacts Psd PsdSpec
  Snr SnrSpec SnrFacts SnrThms2 Interp Harmonics ScParams Source Index SourceSpec History CurveSpec CurveFacts CurveThms.
Import ListNotations.
Open Scope R_scope.

(** ** numpy operations on arrays given by functions of a common list *)
Lemma logical_and_map {X} (p q : X -> bool) xs : logical_and (map p xs) (map q xs) = Ok (map (fun y => p y && q y) xs).
Proof. apply bzip_map. Qed.
Lemma logical_and3_map {X} (p q r : X -> bool) xs : logical_and3 (map p xs) (map q xs) (map r xs) = Ok (map (fun y => p y && q y && r y) xs).
Proof. unfold logical_and3. rewrite !map_length, Nat.eqb_refl. cbn [andb]. now rewrite !map2_map. Qed.
Lemma take_mask_map {X A} (p : X -> bool) (g : X -> A) xs : take_mask (map p xs) (map g xs) = Ok (map g (filter p xs)).
Proof. unfold take_mask. rewrite !map_length, Nat.eqb_refl. now rewrite select_map. Qed.
Lemma any_map {X} (p : X -> bool) xs : any (map p xs) = false -> forall y, In y xs -> p y = false.
Proof.
  unfold any. induction xs as [|y xs IH]; cbn; [easy|]. intros H. apply orb_false_elim in H. destruct H as [A B].
  intros z [<-|Hz]; auto.
Qed.
Lemma any_map_t {X} (p : X -> bool) xs : any (map p xs) = true -> exists y, In y xs /\ p y = true.
Proof.
  unfold any. induction xs as [|y xs IH]; cbn; [easy|]. intros H. apply orb_true_iff in H. destruct H as [A|A]; [exists y; auto|].
  destruct (IH A) as (z & B & C). exists z. auto.
Qed.
(** [x[mask] = f(...)], skipped when the mask is empty. *)
Lemma if_any_scatter {X B} (p : X -> bool) (f g : X -> B) xs (r : res (list B)) :
  (any (map p xs) = true -> r = Ok (map f (filter p xs))) ->
  (if any (map p xs) then v <- r ;; Ok (scatter (map p xs) v (map g xs)) else Ok (map g xs))%res = Ok (map (fun y => if p y then f y else g y) xs).
Proof.
  intros H. destruct (any (map p xs)) eqn:E.
  - rewrite H by auto. cbn [rbind]. now rewrite scatter_map.
  - f_equal. apply map_ext_in. intros y Hy. now rewrite (any_map p xs E y Hy).
Qed.
Lemma which_map {X} (xs : list X) w : length w = length xs -> exists ys : list (X * bool), map fst ys = xs /\ map snd ys = w.
Proof. intros H. exists (combine xs w). split; [now apply combine_fst|now apply combine_snd]. Qed.

(** ** The groups of harmonics *)
Definition group_of (hr : Z) : option nat :=
  if in_group (1, 10)%Z hr then Some (Z.to_nat 10) else if in_group (10, 100)%Z hr then Some (Z.to_nat 100)
  else if in_group (100, 1000)%Z hr then Some (Z.to_nat 1000) else if in_group (1000, 10000)%Z hr then Some (Z.to_nat 10000) else None.
Lemma run_groups_map {X} (run : list bool -> nat -> res snr_ret) (req : X -> Z) (em : X -> bool) (v0 : X -> num) (h0 : X -> Z)
    (v : nat -> X -> num) (h : nat -> X -> Z) ys :
  (forall q u, In u [Z.to_nat 10; Z.to_nat 100; Z.to_nat 1000; Z.to_nat 10000] ->
     run (map q ys) u = Ok (SnrMax (map (v u) (filter q ys)) (map (h u) (filter q ys)))) ->
  run_groups run (map req ys) (map em ys) (map v0 ys) (map h0 ys) =
  Ok (map (fun y => if em y then match group_of (req y) with Some u => v u y | None => v0 y end else v0 y) ys,
      map (fun y => if em y then match group_of (req y) with Some u => h u y | None => h0 y end else h0 y) ys).
Proof.
  intros H. set (g1 := (1, 10)%Z). set (g2 := (10, 100)%Z). set (g3 := (100, 1000)%Z). set (g4 := (1000, 10000)%Z).
  assert (S : forall g (va : X -> num) (ha : X -> Z), In (Z.to_nat (snd g)) [Z.to_nat 10; Z.to_nat 100; Z.to_nat 1000; Z.to_nat 10000] ->
    (let matching := map2 andb (map (in_group g) (map req ys)) (map em ys) in
     if any matching then
       (r <- run matching (Z.to_nat (snd g)) ;;
       match r with
       | SnrMax v h => Ok (scatter matching v (map va ys), scatter matching h (map ha ys))
       | _ => Err TypeError
       end)%res
     else Ok (map va ys, map ha ys)) =
    Ok (map (fun y => if in_group g (req y) && em y then v (Z.to_nat (snd g)) y else va y) ys,
        map (fun y => if in_group g (req y) && em y then h (Z.to_nat (snd g)) y else ha y) ys)).
  { intros g va ha Hu. cbv zeta. rewrite map_map, map2_map. destruct (any _) eqn:E.
    - rewrite H by exact Hu. cbn [rbind]. rewrite !scatter_map. reflexivity.
    - f_equal. f_equal; apply map_ext_in; intros y Hy; now rewrite (any_map _ ys E y Hy). }
  unfold run_groups, harmonic_groups. fold g1 g2 g3 g4. cbn [fold_left]. cbn [rbind].
  cbn [fst snd] in *. cbv zeta in S.
  rewrite (S g1) by (cbn; auto). cbn [rbind fst snd].
  rewrite (S g2) by (cbn; auto). cbn [rbind fst snd].
  rewrite (S g3) by (cbn; auto). cbn [rbind fst snd].
  rewrite (S g4) by (cbn; auto).
  f_equal. unfold group_of. fold g1 g2 g3 g4.
  assert (D : forall hr, (in_group g1 hr = true -> in_group g2 hr = false /\ in_group g3 hr = false /\ in_group g4 hr = false) /\
     (in_group g2 hr = true -> in_group g3 hr = false /\ in_group g4 hr = false) /\ (in_group g3 hr = true -> in_group g4 hr = false)).
  { intros hr. unfold in_group, g1, g2, g3, g4. cbn [fst snd]. rewrite !andb_true_iff, !andb_false_iff, !Z.ltb_lt, !Z.leb_le, !Z.ltb_ge, !Z.leb_gt. lia. }
  f_equal; apply map_ext; intros y; destruct (D (req y)) as (D1 & D2 & D3);
    (destruct (em y); rewrite ?andb_false_r; [|reflexivity]); rewrite !andb_true_r;
    (destruct (in_group g1 (req y)); [destruct D1 as (-> & -> & ->); auto|]);
    (destruct (in_group g2 (req y)); [destruct D2 as (-> & ->); auto|]);
    (destruct (in_group g3 (req y)); [rewrite D3; auto|]); destruct (in_group g4 (req y)); reflexivity.
Qed.

(** ** One source *)
Definition row_mc (r : row) : num := chirp_mass (r_m1 r) (r_m2 r).
Definition sky_opt (s : src) : option (row -> angles) := match s_position s with Some _ => Some r_sky | None => None end.
Definition tm_opt (s : src) : option (row -> num) := match s_t_merge s with Some _ => Some r_tm | None => None end.
Lemma sky_of s xs : collection s xs -> mkSky (s_position s) (s_polarisation s) (s_inclination s) = pop_sky xs (sky_opt s).
Proof. intros C. destruct (col_sky _ _ C) as [E|E]; rewrite E; unfold sky_opt; cbn in E; injection E as -> _ _; reflexivity. Qed.
Lemma tm_of s xs : collection s xs -> s_t_merge s = otm xs (tm_opt s).
Proof. intros C. unfold tm_opt, otm. destruct (col_tm _ _ C) as [->| ->]; reflexivity. Qed.
Lemma pop_sky_g {X Y} (g : X -> Y) ys o : pop_sky (map g ys) o = pop_sky ys (option_map (fun a x => a (g x)) o).
Proof. destruct o; cbn; [rewrite !map_map|]; reflexivity. Qed.
Lemma masked_sky_map {Y} (g : Y -> row) s ys q : collection s (map g ys) ->
  masked_sky (map q ys) s = Ok (pop_sky (filter q ys) (option_map (fun a y => a (g y)) (sky_opt s))).
Proof.
  intros C. pose proof (sky_of _ _ C) as E. rewrite pop_sky_g in E. unfold masked_sky. destruct (sky_opt s) as [a|] eqn:S; cbn in E; injection E as E1 E2 E3.
  - rewrite E1, E2, E3. cbn [take_opt]. rewrite !take_mask_map. reflexivity.
  - rewrite E1. reflexivity.
Qed.
Lemma n_sources_map s xs : collection s xs -> n_sources s = length xs.
Proof. intros C. unfold n_sources. now rewrite (col_m1 _ _ C), map_length. Qed.
Lemma m_c_map {Y} (g : Y -> row) s ys : collection s (map g ys) -> m_c s = Ok (map (fun y => row_mc (g y)) ys).
Proof. intros C. unfold m_c. rewrite (col_m1 _ _ C), (col_m2 _ _ C), !map_map. apply bzip_map. Qed.
Lemma col_map {Y} (g : Y -> row) s ys : collection s (map g ys) ->
  s_m_1 s = map (fun y => r_m1 (g y)) ys /\ s_m_2 s = map (fun y => r_m2 (g y)) ys /\ s_dist s = map (fun y => r_d (g y)) ys /\
  s_f_orb s = map (fun y => r_f (g y)) ys /\ s_ecc s = map (fun y => r_e (g y)) ys /\ s_merged s = map (fun y => r_merged (g y)) ys.
Proof. intros C. rewrite (col_m1 _ _ C), (col_m2 _ _ C), (col_d _ _ C), (col_f _ _ C), (col_e _ _ C), (col_merged _ _ C), !map_map. auto 10. Qed.
Lemma repeat_g {Y A} (a : A) (ys : list Y) n : n = length ys -> np_repeat a n = map (fun _ => a) ys.
Proof. intros ->. apply np_repeat_map. Qed.

(** Which value is computed for a source: [cv] for circular ones, [ev u] with the u of its group for eccentric ones. *)
Definition by_class {A} (tol : num) (req : num -> Z) (zero : A) (cv : row -> A) (ev : nat -> row -> A) (r : row) : A :=
  if ngt (r_e r) tol then match group_of (req (r_e r)) with Some u => ev u r | None => if nle (r_e r) tol then cv r else zero end
  else if nle (r_e r) tol then cv r else zero.

Section Values.
  Variables (x : ext) (s : src) (t : R) (p : num -> num).
  Definition st_circ (r : row) : num :=
    nsqrt (st_elem (x_jv x) (s_g s) (Fin t) p (row_mc r) (r_f r) (Fin 0) (r_d r) (pop_amp (sky_opt s) r) 2).
  Definition st_row (u : nat) (r : row) : list num :=
    map (st_elem (x_jv x) (s_g s) (Fin t) p (row_mc r) (r_f r) (r_e r) (r_d r) None) (arange1 u).
  Definition ev_circ (n : nat) (r : row) : num :=
    nsqrt (ev_snr2 (x_jv x) (s_g s) p (row_mc r) (r_d r)
      (circ_track (r_m1 r) (r_m2 r) (r_f r) (match tm_opt s with Some g => g r | None => circ_tm (r_m1 r) (r_m2 r) (r_f r) end) (Fin t) n) 2).
  Definition ev_row (n u : nat) (r : row) : list num :=
    map (ev_snr2 (x_jv x) (s_g s) p (row_mc r) (r_d r)
      (ecc_track (x_odeint x) (r_m1 r) (r_m2 r) (r_f r) (r_e r) (ecc_tm (x_quad x) (r_m1 r) (r_m2 r) (r_f r) (r_e r)) (Fin t) n)) (arange1 u).
End Values.
Definition st_val x s t p tol : row -> num := by_class tol (h_required (s_harm s)) (Fin 0) (st_circ x s t p) (fun u r => nsqrt (nsum (st_row x s t p u r))).
Definition st_msh x s t p tol : row -> Z := by_class tol (h_required (s_harm s)) 2%Z (fun _ => 2%Z) (fun u r => loudest (st_row x s t p u r)).
Definition ev_val x s t p tol n : row -> num := by_class tol (h_required (s_harm s)) (Fin 0) (ev_circ x s t p n) (fun u r => nsqrt (nsum (ev_row x s t p n u r))).
Definition ev_msh x s t p tol n : row -> Z := by_class tol (h_required (s_harm s)) 2%Z (fun _ => 2%Z) (fun u r => loudest (ev_row x s t p n u r)).

Lemma groups_pos u : In u [Z.to_nat 10; Z.to_nat 100; Z.to_nat 1000; Z.to_nat 10000] -> (1 <= u)%nat.
Proof. cbn [In]. lia. Qed.

(** A computation skipped when no source is eccentric. *)
Lemma if_any_groups {X} (run : list bool -> nat -> res snr_ret) (req : X -> Z) (em : X -> bool) (v0 : X -> num) (h0 : X -> Z)
    (v : nat -> X -> num) (h : nat -> X -> Z) ys :
  (forall q u, In u [Z.to_nat 10; Z.to_nat 100; Z.to_nat 1000; Z.to_nat 10000] ->
     run (map q ys) u = Ok (SnrMax (map (v u) (filter q ys)) (map (h u) (filter q ys)))) ->
  (if any (map em ys) then run_groups run (map req ys) (map em ys) (map v0 ys) (map h0 ys) else Ok (map v0 ys, map h0 ys)) =
  Ok (map (fun y => if em y then match group_of (req y) with Some u => v u y | None => v0 y end else v0 y) ys,
      map (fun y => if em y then match group_of (req y) with Some u => h u y | None => h0 y end else h0 y) ys).
Proof.
  intros H. destruct (any (map em ys)) eqn:E; [now apply run_groups_map|].
  f_equal. f_equal; apply map_ext_in; intros y Hy; now rewrite (any_map _ ys E y Hy).
Qed.
Lemma by_class_insp {A} tol req (zero : A) (cv : row -> A) (ev : nat -> row -> A) (q : bool) r :
  (if ngt (r_e r) tol && q then match group_of (req (r_e r)) with Some u => ev u r | None => if nle (r_e r) tol && q then cv r else zero end
   else if nle (r_e r) tol && q then cv r else zero) = if q then by_class tol req zero cv ev r else zero.
Proof. unfold by_class. destruct q; rewrite ?andb_true_r, ?andb_false_r; reflexivity. Qed.

Lemma stationary_values_map {Y} (g : Y -> row) x a s ys (q : Y -> bool) t kw p tol :
  collection s (map g ys) -> a_t_obs a = PVal (Fin t) -> kw_of x (args_dict a) = Ok kw -> h_ecc_tol (s_harm s) = Some tol ->
  noise_curve (x_psd x) kw (s_sc s) t p ->
  stationary_values x a (map q ys) s =
  Ok (map (fun y => if q y then st_val x s t p tol (g y) else Fin 0) ys, map (fun y => if q y then st_msh x s t p tol (g y) else 2%Z) ys).
Proof.
  intros C T K E P. destruct (col_map g s ys C) as (C1 & C2 & C3 & C4 & C5 & C6). unfold stationary_values. rewrite T. cbn [time_of rbind].
  unfold ecc_tol. rewrite E. cbn [rbind]. rewrite C3, C4, C5, !map_map. rewrite !logical_and_map. cbn [rbind]. rewrite K. cbn [rbind].
  rewrite (masked_sky_map g s ys _ C). cbn [rbind]. rewrite (m_c_map g s ys C). cbn [rbind]. cbv zeta.
  assert (N : n_sources s = length ys) by (rewrite (n_sources_map _ _ C); apply map_length).
  rewrite !(repeat_g _ ys _ N).
  rewrite (if_any_scatter _ (fun y => st_circ x s t p (g y))).
  2:{ intros _. rewrite !select_map. 
      rewrite (circ_stationary_map (x_psd x) (x_jv x) (s_g s) (fun y => row_mc (g y)) (fun y => r_f (g y)) (fun y => r_d (g y)) _ t _ _ kw p P).
      f_equal. apply map_ext. intros y. unfold st_circ. do 2 f_equal. destruct (sky_opt s); reflexivity. }
  cbn [rbind]. rewrite (if_any_groups _ _ _ _ _ (fun u y => nsqrt (nsum (st_row x s t p u (g y)))) (fun u y => loudest (st_row x s t p u (g y)))).
  - f_equal. f_equal; apply map_ext; intros y; [apply (by_class_insp tol (h_required (s_harm s)) (Fin 0) (st_circ x s t p) (fun u r => nsqrt (nsum (st_row x s t p u r))))|].
    unfold st_msh. rewrite <- (by_class_insp tol (h_required (s_harm s)) 2%Z (fun _ => 2%Z) (fun u r => loudest (st_row x s t p u r)) (q y) (g y)).
    destruct (ngt _ _ && _); destruct (nle _ _ && _); reflexivity.
  - intros q' u Hu. rewrite !select_map.
    rewrite (ecc_stationary_map (x_psd x) (x_jv x) (s_g s) (fun y => row_mc (g y)) (fun y => r_f (g y)) (fun y => r_e (g y)) (fun y => r_d (g y)) _ t u _ _ _ kw p P).
    apply (returned_local true false (fun y => st_row x s t p u (g y))); auto.
    intros y. apply map_ne, arange1_ne, groups_pos, Hu.
Qed.
Lemma evolving_values_map {Y} (g : Y -> row) x a n s ys (q : Y -> bool) t kw p tol :
  collection s (map g ys) -> a_t_obs a = PVal (Fin t) -> kw_of x (args_dict a) = Ok kw -> h_ecc_tol (s_harm s) = Some tol ->
  noise_curve (x_psd x) kw (s_sc s) t p -> (1 <= n)%nat -> odeint_shape (x_odeint x) -> (forall k, complete_schedule k (x_sched x k)) ->
  (forall y, In y ys -> exists r, r_e (g y) = Fin r /\ 0 <= r <= 1) ->
  evolving_values x a n (map q ys) s =
  Ok (map (fun y => if q y then ev_val x s t p tol n (g y) else Fin 0) ys, map (fun y => if q y then ev_msh x s t p tol n (g y) else 2%Z) ys).
Proof.
  intros C T K E P Hn Ho Hs He. destruct (col_map g s ys C) as (C1 & C2 & C3 & C4 & C5 & C6). unfold evolving_values. rewrite T. cbn [time_of rbind].
  unfold ecc_tol. rewrite E. cbn [rbind]. rewrite C1, C2, C3, C4, C5, !map_map. rewrite !logical_and_map. cbn [rbind]. rewrite K. cbn [rbind]. cbv zeta.
  assert (N : n_sources s = length ys) by (rewrite (n_sources_map _ _ C); apply map_length).
  rewrite !(repeat_g _ ys _ N).
  rewrite (tm_of _ _ C). set (c := fun y => nle (r_e (g y)) tol && q y).
  assert (TM : take_opt (map c ys) (otm (map g ys) (tm_opt s)) = Ok (otm (filter c ys) (option_map (fun h y => h (g y)) (tm_opt s)))).
  { unfold otm. destruct (tm_opt s); cbn; [|reflexivity]. now rewrite map_map, take_mask_map. }
  change (map (fun y : Y => nle (r_e (g y)) tol && q y) ys) with (map c ys). rewrite TM. cbn [rbind].
  rewrite (if_any_scatter c (fun y => ev_circ x s t p n (g y))).
  2:{ intros _. rewrite !select_map. 
      rewrite (circ_evolving_map (x_psd x) (x_jv x) (s_g s) (x_quad x) (fun y => r_m1 (g y)) (fun y => r_m2 (g y)) (fun y => r_f (g y)) (fun y => r_d (g y)) _ t n _ _ kw p P Hn).
      f_equal. apply map_ext. intros y. unfold ev_circ. destruct (tm_opt s); reflexivity. }
  cbn [rbind]. rewrite (if_any_groups _ _ _ _ _ (fun u y => nsqrt (nsum (ev_row x s t p n u (g y)))) (fun u y => loudest (ev_row x s t p n u (g y)))).
  - f_equal. f_equal; apply map_ext; intros y; [apply (by_class_insp tol (h_required (s_harm s)) (Fin 0) (ev_circ x s t p n) (fun u r => nsqrt (nsum (ev_row x s t p n u r))))|].
    unfold ev_msh. rewrite <- (by_class_insp tol (h_required (s_harm s)) 2%Z (fun _ => 2%Z) (fun u r => loudest (ev_row x s t p n u r)) (q y) (g y)).
    unfold c. destruct (ngt _ _ && _); destruct (nle _ _ && _); reflexivity.
  - intros q' u Hu. rewrite !select_map. rewrite map_length.
    rewrite (ecc_evolving_map (x_psd x) (x_jv x) (s_g s) (x_quad x) (x_odeint x) _ (s_n_proc s) (fun y => r_m1 (g y)) (fun y => r_m2 (g y)) (fun y => r_f (g y)) (fun y => r_d (g y)) (fun y => r_e (g y)) _ u t n None _ _ _ kw p P Hn Ho).
    + apply (returned_local true false (fun y => ev_row x s t p n u (g y))); auto.
      intros y. apply map_ne, arange1_ne, groups_pos, Hu.
    + intros _. apply Hs.
    + intros y Hy. apply He. now apply filter_In in Hy.
Qed.
