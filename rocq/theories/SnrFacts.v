(** SnrFacts.v -- evaluation of the SNR functions on populations and homogeneity. *)
From Coq Require Import String Reals ZArith List Bool Lra Lia.
From Verif Require Import Num NumFacts Np NpFacts Utils Spec UtilsFacts Strain DetectorFacts Evol EvolSpec EvolFacts MergeFacts ArrEvolFacts EccEvolFacts LocalFacts
  StrainSpec StrainFacts Psd ArgFacts Snr SnrSpec.
Import ListNotations.
Open Scope R_scope.

(** *** Reshaping *)
Lemma regroup_app {A B} (p : A -> B) (r : list (list A)) l : regroup r (map p (concat r) ++ l) = map (map p) r.
Proof.
  revert l. induction r as [|x r IH]; intros l; cbn; auto. rewrite map_app, <- app_assoc.
  rewrite firstn_app, skipn_app, map_length, Nat.sub_diag.
  rewrite (firstn_all2 (map p x)) by (rewrite map_length; lia). rewrite (skipn_all2 (map p x)) by (rewrite map_length; lia).
  cbn. now rewrite app_nil_r, IH.
Qed.
Lemma regroup_map {A B} (p : A -> B) (r : list (list A)) : regroup r (map p (concat r)) = map (map p) r.
Proof. rewrite <- (app_nil_r (map p (concat r))). apply regroup_app. Qed.
Lemma regroup3_map {A B} (p : A -> B) (r : list (list (list A))) : regroup3 r (map p (concat (map (@concat A) r))) = map (map (map p)) r.
Proof.
  induction r as [|x r IH]; cbn; auto. rewrite map_app, regroup_app. f_equal.
  rewrite skipn_app, map_length, Nat.sub_diag. rewrite (skipn_all2 (map p (concat x))) by (rewrite map_length; lia). apply IH.
Qed.
Lemma noise_is w kw sc t p f : noise_curve w kw sc t p -> noise w kw sc (Fin t) f = Ok (map p f).
Proof. intros H. exact (H f). Qed.
Lemma noise2_map w kw sc t p f : noise_curve w kw sc t p -> noise2 w kw sc (Fin t) f = Ok (map (map p) f).
Proof. intros H. unfold noise2. rewrite (noise_is _ _ _ _ _ _ H). cbn. now rewrite regroup_map. Qed.
Lemma noise3_map w kw sc t p f : noise_curve w kw sc t p -> noise3 w kw sc (Fin t) f = Ok (map (map (map p)) f).
Proof.
  intros H. unfold noise3. cbv zeta. rewrite (noise_is _ _ _ _ _ _ H). cbn [rbind]. rewrite map_length, Nat.eqb_refl. now rewrite regroup3_map.
Qed.

Lemma arange1_ok k : existsb (fun k => (k <? 1)%Z) (arange1 k) = false.
Proof.
  apply Forall_ok. apply Forall_forall. intros x H. unfold arange1 in H. apply in_map_iff in H. destruct H as [y [<- H]].
  apply in_seq in H. lia.
Qed.
Lemma arange1_in k n : In n (arange1 k) <-> (1 <= n <= Z.of_nat k)%Z.
Proof.
  unfold arange1. rewrite in_map_iff. split.
  - intros [y [<- H]]. apply in_seq in H. lia.
  - intros H. exists (Z.to_nat n). split; [lia|]. apply in_seq. lia.
Qed.
Lemma arange1_length k : length (arange1 k) = k.
Proof. unfold arange1. now rewrite map_length, seq_length. Qed.
Lemma newaxis_rows {X} (f e : X -> num) xs :
  newaxis (map f xs) = f_rows (fun x => [(f x, e x)]) xs /\ newaxis (map e xs) = e_rows (fun x => [(f x, e x)]) xs.
Proof. unfold newaxis, f_rows, e_rows. rewrite !map_map. auto. Qed.

(** *** Stationary *)
Definition st_elem jv gi (t : num) (p : num -> num) (m f e d : num) (amp : option num) (n : Z) : num :=
  ndiv (nmul (npowi (h0_elem jv gi m f e n d amp) 2) t) (p (nmul (nZ n) f)).

Lemma concat_map_map {X A} (g : X -> A) (l : list X) : concat (map (fun x => [g x]) l) = map g l.
Proof. induction l; cbn; congruence. Qed.
Lemma circ_stationary_map w jv gi {X} (m f d : X -> num) xs t o sc kw p : noise_curve w kw sc t p ->
  snr_circ_stationary w jv gi (map m xs) (map f xs) (map d xs) (Fin t) (pop_sky xs o) sc kw =
  Ok (map (fun x => nsqrt (st_elem jv gi (Fin t) p (m x) (f x) (Fin 0) (d x) (pop_amp o x) 2)) xs).
Proof.
  intros Hp. unfold snr_circ_stationary. rewrite map_map.
  destruct (newaxis_rows f (fun _ => Fin 0) xs) as [-> ->].
  rewrite h_0_n_map by reflexivity. cbn [rbind map fst snd]. rewrite !map_map, (noise_is _ _ _ _ _ _ Hp). cbn [rbind concat app].
  rewrite (concat_map_map (fun x => h0_elem jv gi (m x) (f x) (Fin 0) 2 (d x) (pop_amp o x))). rewrite !map_map, bzip_map. reflexivity.
Qed.
Lemma ecc_stationary_map w jv gi {X} (m f e d : X -> num) xs t hr sc rm r2 kw p : noise_curve w kw sc t p ->
  snr_ecc_stationary w jv gi (map m xs) (map f xs) (map e xs) (map d xs) (Fin t) hr sc rm r2 kw =
  returned rm r2 (map (fun x => map (st_elem jv gi (Fin t) p (m x) (f x) (e x) (d x) None) (arange1 hr)) xs).
Proof.
  intros Hp. unfold snr_ecc_stationary. destruct (newaxis_rows f e xs) as [-> ->].
  change no_sky with (pop_sky xs None). rewrite h_0_n_map by apply arange1_ok. cbn [rbind map fst snd].
  rewrite !map_length, Nat.eqb_refl. cbn [negb]. rewrite (noise2_map _ _ _ _ p) by auto. cbn [rbind]. rewrite !map_map.
  unfold bzip2. rewrite bzipM_map. erewrite mapM_ext; [rewrite mapM_ok; cbn [rbind]; reflexivity|].
  intros x _. cbn [concat]. rewrite app_nil_r, !map_map. rewrite bzip_map. reflexivity.
Qed.

(** *** Evolving, circular *)
Definition circ_freqs (m1 m2 f te : num) (n : nat) : list num :=
  map (fun t => freq_of_a m1 m2 (circ_a_elem (get_a_from_f_orb f m1 m2) (beta m1 m2) t)) (linspace0 te n).
Lemma evol_circ_rows quad {X} (m1 m2 f te : X -> num) xs n :
  evol_circ quad (TArr (map te xs)) n SNone PNone (PQArr (map m1 xs) tt) (PQArr (map m2 xs) tt) PNone (PQArr (map f xs) tt) ["f_orb"%string]
  = Ok (Single (E2 (map (fun x => circ_freqs (m1 x) (m2 x) (f x) (te x) n) xs))).
Proof.
  rewrite (evol_circ_eval quad (TArr (map te xs)) n SNone _ _ _ _ _ PNone (PQArr (map m1 xs) tt) (PQArr (map m2 xs) tt) PNone (PQArr (map f xs) tt) false _ X xs
    (fun x => beta (m1 x) (m2 x)) (fun x => get_a_from_f_orb (f x) (m1 x) (m2 x)) m1 m2 (fun x => linspace0 (te x) n)); try reflexivity.
  - cbn. unfold check_arr, check_mass_freq_input. cbn. unfold beta_arr. rewrite bzip_map. cbn. rewrite get_a_arr_map. reflexivity.
  - unfold create_timesteps_array. cbn [rbind]. now rewrite map_map.
Qed.
Lemma no_empty_row {X A} (r : X -> list A) xs : (forall x, r x <> []) -> has_empty_row (map r xs) = false.
Proof.
  intros H. unfold has_empty_row. induction xs; cbn; auto. destruct (r a) eqn:E; auto. exfalso. eapply H; eauto.
Qed.
Lemma circ_freqs_ne m1 m2 f te n : (1 <= n)%nat -> circ_freqs m1 m2 f te n <> [].
Proof.
  intros Hn E. apply (f_equal (@length num)) in E. unfold circ_freqs in E. rewrite map_length, linspace0_length in E. cbn in E. lia.
Qed.
Lemma get_t_merge_circ_map {X} (m1 m2 f : X -> num) xs :
  get_t_merge_circ None (Some (map m1 xs)) (Some (map m2 xs)) None (Some (map f xs)) =
  Ok (map (fun x => t_merge_circ_elem (beta (m1 x) (m2 x)) (get_a_from_f_orb (f x) (m1 x) (m2 x))) xs).
Proof.
  unfold get_t_merge_circ, check_arr, check_mass_freq_input. cbn. unfold beta_arr. rewrite bzip_map. cbn. rewrite get_a_arr_map. cbn.
  now rewrite bzip_map.
Qed.
Definition unmerged (f : list num) : list num := replace_merged (map (fun x => neqb x f_merged) f) f.
Definition ev_elem jv gi (p : num -> num) (m d : num) (n : Z) (q : num * num) : num :=
  ndiv (npowi (hc_elem jv gi m (fst q) (snd q) n d None) 2) (nmul (npowi (nmul (nZ n) (fst q)) 2) (p (nmul (nZ n) (fst q)))).
(** SNR^2 of harmonic [n] along the track [q] of (frequency, eccentricity) pairs. *)
Definition ev_snr2 jv gi p m d (q : list (num * num)) (n : Z) : num :=
  trapz (map (ev_elem jv gi p m d n) q) (map (fun z => nmul (nZ n) (fst z)) q).
Definition otm {X} (xs : list X) (tm : option (X -> num)) : option (list num) := option_map (fun g => map g xs) tm.
Definition circ_tm (m1 m2 f : num) : num := t_merge_circ_elem (beta m1 m2) (get_a_from_f_orb f m1 m2).
Definition circ_track (m1 m2 f tm t : num) (n : nat) : list (num * num) :=
  map (fun x => (x, Fin 0)) (unmerged (circ_freqs m1 m2 f (nmin (nsub tm (Fin 1)) t) n)).

Lemma circ_evolving_map w jv gi quad {X} (m1 m2 f d : X -> num) xs t n (tm : option (X -> num)) sc kw p :
  noise_curve w kw sc t p -> (1 <= n)%nat ->
  snr_circ_evolving w jv gi quad (map m1 xs) (map m2 xs) (map f xs) (map d xs) (Fin t) n (otm xs tm) sc kw =
  Ok (map (fun x => nsqrt (ev_snr2 jv gi p (chirp_mass (m1 x) (m2 x)) (d x)
        (circ_track (m1 x) (m2 x) (f x) (match tm with Some g => g x | None => circ_tm (m1 x) (m2 x) (f x) end) (Fin t) n) 2)) xs).
Proof.
  intros Hp Hn. unfold snr_circ_evolving. rewrite bzip_map. cbn [rbind].
  set (tmx := fun x => match tm with Some g => g x | None => circ_tm (m1 x) (m2 x) (f x) end).
  replace (match otm xs tm with Some t0 => Ok t0 | None => get_t_merge_circ None (Some (map m1 xs)) (Some (map m2 xs)) None (Some (map f xs)) end)
    with (@Ok (list num) (map tmx xs)) by (unfold otm, tmx; destruct tm; cbn [option_map]; [reflexivity|now rewrite get_t_merge_circ_map]).
  cbn [rbind]. rewrite map_map. rewrite (evol_circ_rows quad m1 m2 f (fun x => nmin (nsub (tmx x) (Fin 1)) (Fin t)) xs n). cbn [rbind].
  rewrite no_empty_row by (intros; now apply circ_freqs_ne). rewrite !map_map.
  set (fr := fun x => unmerged (circ_freqs (m1 x) (m2 x) (f x) (nmin (nsub (tmx x) (Fin 1)) (Fin t)) n)).
  change (map (fun x => replace_merged (map (fun x0 => neqb x0 f_merged) (circ_freqs (m1 x) (m2 x) (f x) (nmin (nsub (tmx x) (Fin 1)) (Fin t)) n))
            (circ_freqs (m1 x) (m2 x) (f x) (nmin (nsub (tmx x) (Fin 1)) (Fin t)) n)) xs) with (map fr xs).
  assert (E1 : map fr xs = f_rows (fun x => map (fun z => (z, Fin 0)) (fr x)) xs).
  { unfold f_rows. apply map_ext. intros x. rewrite map_map. cbn. now rewrite map_id. }
  assert (E2 : map (map (fun _ => Fin 0)) (map fr xs) = e_rows (fun x => map (fun z => (z, Fin 0)) (fr x)) xs).
  { unfold e_rows. rewrite map_map. apply map_ext. intros x. rewrite map_map. reflexivity. }
  match goal with |- context[h_c_n _ _ _ ?a ?b _ _ no_sky] => 
    replace (h_c_n jv gi (map (fun x => chirp_mass (m1 x) (m2 x)) xs) a b [2%Z] (map d xs) no_sky) with
     (h_c_n jv gi (map (fun x => chirp_mass (m1 x) (m2 x)) xs) (f_rows (fun x => map (fun z => (z, Fin 0)) (fr x)) xs) (e_rows (fun x => map (fun z => (z, Fin 0)) (fr x)) xs) [2%Z] (map d xs) (pop_sky xs None)) end.
  2:{ rewrite <- E1, <- E2. f_equal. now rewrite map_map. }
  rewrite h_c_n_map by reflexivity. cbn [rbind]. rewrite !map_length, Nat.eqb_refl. cbn [negb].
  rewrite (noise2_map _ _ _ _ p) by auto. cbn [rbind]. rewrite !map_map.
  unfold bzip2. rewrite bzipM_map. erewrite mapM_ext; [|intros x _; rewrite map_map, bzip_map; reflexivity]. rewrite mapM_ok. cbn [rbind].
  rewrite bzipM_map. erewrite mapM_ext.
  2:{ intros x _. rewrite !map_map. cbn [map fst snd]. rewrite (concat_map_map (fun z => hc_elem jv gi (chirp_mass (m1 x) (m2 x)) z (Fin 0) 2 (d x) None)).
      rewrite !map_map. rewrite bzip_map. reflexivity. }
  rewrite mapM_ok. cbn [rbind]. rewrite bzip_map. f_equal. apply map_ext. intros x. unfold ev_snr2, circ_track. fold (fr x).
  rewrite !map_map. reflexivity.
Qed.

(** *** Evolving, eccentric *)
Definition ecc_tm quad (m1 m2 f e : num) : num :=
  get_t_merge_ecc_sc_core quad e (get_a_from_f_orb f m1 m2) (beta m1 m2) small_e_tol_default large_e_tol_default true.
Definition ecc_steps (tm t : num) (n : nat) : list num :=
  let row := linspace0 (nmin (nsub tm t_before_ecc) t) n in clamp_row (too_close_row tm t_before_ecc row) row.
Definition ecc_es odeint (m1 m2 f e tm t : num) (n : nat) : list num :=
  ecc_row odeint e (get_a_from_f_orb f m1 m2) (beta m1 m2) (ecc_steps tm t n).
Definition ecc_fs odeint (m1 m2 f e tm t : num) (n : nat) : list num :=
  freq_row odeint m1 m2 e (get_a_from_f_orb f m1 m2) (beta m1 m2) (ecc_steps tm t n).
Definition unmerged_ecc (e f : list num) : list num :=
  replace_merged (map2 (fun e x => neqb e (Fin 0) && neqb x f_merged) e f) f.
Definition ecc_track odeint m1 m2 f e tm t n : list (num * num) :=
  let es := ecc_es odeint m1 m2 f e tm t n in
  combine (unmerged_ecc es (ecc_fs odeint m1 m2 f e tm t n)) es.

Lemma get_t_merge_ecc_map quad {X} (m1 m2 f e : X -> num) xs : (forall x, In x xs -> exists r, e x = Fin r /\ 0 <= r <= 1) ->
  get_t_merge_ecc quad (map e xs) None (Some (map f xs)) None (Some (map m1 xs)) (Some (map m2 xs)) small_e_tol_default large_e_tol_default true =
  Ok (map (fun x => ecc_tm quad (m1 x) (m2 x) (f x) (e x)) xs).
Proof.
  intros He. unfold get_t_merge_ecc, check_arr, check_mass_freq_input. cbn [rbind]. unfold beta_arr. rewrite bzip_map. cbn [rbind].
  rewrite get_a_arr_map. cbn [rbind fst snd]. unfold small_e_tol_default, large_e_tol_default. rewrite merge_core_map; auto. lra.
Qed.
Lemma evol_ecc_rows quad odeint sched n_proc {X} (m1 m2 f e tm : X -> num) xs t n : (1 <= n)%nat ->
  ((1 < n_proc)%nat -> complete_schedule (length xs) sched) ->
  exists ts, evol_ecc quad odeint sched (PArr (map e xs)) (TArr (map (fun x => nmin (nsub (tm x) t_before_ecc) t) xs)) n SNone PNone
    (PQArr (map m1 xs) tt) (PQArr (map m2 xs) tt) PNone (PQArr (map f xs) tt) ["ecc"%string; "f_orb"%string] n_proc true true
    t_before_ecc (Some (map tm xs)) =
  Ok (Many [E2 (map (fun x => ecc_es odeint (m1 x) (m2 x) (f x) (e x) (tm x) t n) xs);
            E2 (map (fun x => ecc_fs odeint (m1 x) (m2 x) (f x) (e x) (tm x) t n) xs)], ts).
Proof.
  intros Hn Hs. eexists.
  erewrite (evol_ecc_eval quad odeint sched n_proc (TArr (map (fun x => nmin (nsub (tm x) t_before_ecc) t) xs)) n SNone _ _ _ _ _ _
    PNone (PQArr (map m1 xs) tt) (PQArr (map m2 xs) tt) PNone (PQArr (map f xs) tt) (PArr (map e xs)) false _ true true t_before_ecc
    (Some (map tm xs)) X xs e (fun x => beta (m1 x) (m2 x)) (fun x => get_a_from_f_orb (f x) (m1 x) (m2 x)) (Some m1) (Some m2)
    (map (fun x => linspace0 (nmin (nsub (tm x) t_before_ecc) t) n) xs) (fun x => ecc_steps (tm x) t n)); try reflexivity; auto.
  - cbn. unfold check_arr, check_mass_freq_input. cbn. unfold beta_arr. rewrite bzip_map. cbn. rewrite get_a_arr_map. reflexivity.
  - unfold create_timesteps_array. cbn [rbind]. now rewrite map_map.
  - unfold final_steps. cbn [rbind]. apply avoid_clamp_local. intros x _ E. apply (f_equal (@length num)) in E.
    rewrite linspace0_length in E. cbn in E. lia.
Qed.
Lemma column_map {T} (v : T -> Z -> num) hr k tr : (k < hr)%nat ->
  column NaN k (map (fun q => map (v q) (arange1 hr)) tr) = map (fun q => v q (Z.of_nat (S k))) tr.
Proof.
  intros Hk. unfold column. rewrite map_map. apply map_ext. intros q. unfold arange1. rewrite map_map.
  rewrite (nth_map_in _ _ _ 0%nat) by (now rewrite seq_length). now rewrite seq_nth.
Qed.
Lemma trapz_axis1_map {T} (v u : T -> Z -> num) hr tr :
  trapz_axis1 hr (map (fun q => map (v q) (arange1 hr)) tr) (map (fun q => map (u q) (arange1 hr)) tr) =
  map (fun k => trapz (map (fun q => v q k) tr) (map (fun q => u q k) tr)) (arange1 hr).
Proof.
  unfold trapz_axis1. unfold arange1 at 3. rewrite <- seq_shift, !map_map. apply map_ext_in. intros k Hk. apply in_seq in Hk.
  rewrite !column_map by lia. reflexivity.
Qed.
Lemma unmerged_ecc_length e f : length (unmerged_ecc e f) = length f.
Proof. unfold unmerged_ecc, replace_merged. now rewrite map_length. Qed.
Lemma ecc_fs_length odeint m1 m2 f e tm t n : length (ecc_fs odeint m1 m2 f e tm t n) = length (ecc_es odeint m1 m2 f e tm t n).
Proof. unfold ecc_fs, ecc_es, freq_row, sep_row. now rewrite !map_length. Qed.

Lemma clamp_row_length mask row : length (clamp_row mask row) = Nat.min (length mask) (length row).
Proof. unfold clamp_row. rewrite !map2_length. lia. Qed.
Lemma ecc_steps_length tm t n : length (ecc_steps tm t n) = n.
Proof.
  unfold ecc_steps. rewrite clamp_row_length, linspace0_length.
  assert (length (too_close_row tm t_before_ecc (linspace0 (nmin (nsub tm t_before_ecc) t) n)) = length (linspace0 (nmin (nsub tm t_before_ecc) t) n)).
  { destruct (linspace0 _ n); cbn; auto. now rewrite map_length. }
  rewrite H, linspace0_length. lia.
Qed.
Lemma ecc_es_length odeint m1 m2 f e tm t n : odeint_shape odeint -> length (ecc_es odeint m1 m2 f e tm t n) = n.
Proof. intros H. unfold ecc_es, ecc_row. now rewrite map_length, H, ecc_steps_length. Qed.

Lemma ecc_evolving_map w jv gi quad odeint sched n_proc {X} (m1 m2 f d e : X -> num) xs hr t n (tm : option (X -> num)) sc rm r2 kw p :
  noise_curve w kw sc t p -> (1 <= n)%nat -> odeint_shape odeint -> ((1 < n_proc)%nat -> complete_schedule (length xs) sched) ->
  (forall x, In x xs -> exists r, e x = Fin r /\ 0 <= r <= 1) ->
  snr_ecc_evolving w jv gi quad odeint sched (map m1 xs) (map m2 xs) (map f xs) (map d xs) (map e xs) hr (Fin t) n (otm xs tm) sc n_proc rm r2 kw =
  returned rm r2 (map (fun x => map (ev_snr2 jv gi p (chirp_mass (m1 x) (m2 x)) (d x)
        (ecc_track odeint (m1 x) (m2 x) (f x) (e x) (match tm with Some g => g x | None => ecc_tm quad (m1 x) (m2 x) (f x) (e x) end) (Fin t) n))
     (arange1 hr)) xs).
Proof.
  intros Hp Hn Hod Hs He. unfold snr_ecc_evolving. rewrite bzip_map. cbn [rbind].
  set (tmx := fun x => match tm with Some g => g x | None => ecc_tm quad (m1 x) (m2 x) (f x) (e x) end).
  replace (match otm xs tm with Some t0 => Ok t0 | None => get_t_merge_ecc quad (map e xs) None (Some (map f xs)) None (Some (map m1 xs)) (Some (map m2 xs)) small_e_tol_default large_e_tol_default true end)
    with (@Ok (list num) (map tmx xs)) by (unfold otm, tmx; destruct tm; cbn [option_map]; [reflexivity|now rewrite get_t_merge_ecc_map]).
  cbn [rbind]. rewrite map_map. destruct (evol_ecc_rows quad odeint sched n_proc m1 m2 f e tmx xs (Fin t) n Hn Hs) as [ts ->].
  cbn [rbind fst].
  set (es := fun x => ecc_es odeint (m1 x) (m2 x) (f x) (e x) (tmx x) (Fin t) n).
  set (fs := fun x => ecc_fs odeint (m1 x) (m2 x) (f x) (e x) (tmx x) (Fin t) n).
  assert (L : forall x, length (es x) = n) by (intros; now apply ecc_es_length).
  assert (L' : forall x, length (fs x) = n) by (intros; unfold fs; rewrite ecc_fs_length; apply L).
  rewrite (no_empty_row fs) by (intros x E; specialize (L' x); rewrite E in L'; cbn in L'; lia).
  rewrite map2_map.
  set (tr := fun x => combine (unmerged_ecc (es x) (fs x)) (es x)).
  assert (E1 : map (fun x => replace_merged (map2 (fun e x0 => neqb e (Fin 0) && neqb x0 f_merged) (es x) (fs x)) (fs x)) xs = f_rows tr xs).
  { unfold f_rows. apply map_ext. intros x. unfold tr. rewrite combine_fst; [reflexivity|]. rewrite unmerged_ecc_length, L, L'. reflexivity. }
  assert (E2 : map es xs = e_rows tr xs).
  { unfold e_rows. apply map_ext. intros x. unfold tr. rewrite combine_snd; [reflexivity|]. rewrite unmerged_ecc_length, L, L'. reflexivity. }
  rewrite E1, E2. change no_sky with (pop_sky xs None). rewrite h_c_n_map by apply arange1_ok. cbn [rbind].
  rewrite (noise3_map _ _ _ _ p) by auto. cbn [rbind]. unfold f_rows. rewrite !map_map.
  unfold bzip3. rewrite bzipM_map. erewrite mapM_ext.
  2:{ intros x _. unfold bzip2. rewrite !map_map, bzipM_map. erewrite mapM_ext; [|intros q _; rewrite map_map, bzip_map; reflexivity]. rewrite mapM_ok. reflexivity. }
  rewrite mapM_ok. cbn [rbind]. rewrite bzipM_map. erewrite mapM_ext.
  2:{ intros x _. unfold bzip2. rewrite !map_map, bzipM_map. erewrite mapM_ext; [|intros q _; rewrite map_map, bzip_map; reflexivity]. rewrite mapM_ok. reflexivity. }
  rewrite mapM_ok. cbn [rbind]. rewrite bzip_map. cbn [rbind]. f_equal. apply map_ext. intros x.
  rewrite map_map.
  rewrite (trapz_axis1_map (fun q k => ndiv (npowi (hc_elem jv gi (chirp_mass (m1 x) (m2 x)) (fst q) (snd q) k (d x) None) 2)
     (nmul (npowi (nmul (nZ k) (fst q)) 2) (p (nmul (nZ k) (fst q))))) (fun q k => nmul (nZ k) (fst q))).
  reflexivity.
Qed.
