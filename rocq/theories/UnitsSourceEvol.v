(** UnitsSourceEvol.v -- merger times, evolution, construction and histories of Source with quantities against SI values. *)
From Coq Require Import String Reals ZArith List Bool Lra Lia.
From Verif Require Import Num NumFacts Np NpFacts Utils Strain Psd Evol Snr Interp Harmonics ScParams Source History Units UnitsSpec UnitsFacts UnitsThms
  UnitsStrain UnitsEvol UnitsEvolSpec UnitsEvolFacts UnitsEvolThms UnitsEvolRuns UnitsEccRuns UnitsPsd UnitsPsdSpec UnitsPsdFacts UnitsPsdThms UnitsSnr
  UnitsSnrSpec UnitsSnrFacts UnitsSnrEvol UnitsSnrEcc UnitsSnrThms UnitsSource UnitsSourceSpec UnitsSourceParams UnitsSourceFacts UnitsSourceSnr.
Import ListNotations.
Open Scope list_scope.
Open Scope R_scope.
Open Scope res_scope.

Lemma store_same u d x y : unit_for d u -> d <> dimensionless -> UnitsEvol.store (Qy y u) (in_unit u x) = Ok (in_unit u x).
Proof. intros U N. cbn [UnitsEvol.store]. exact (to_in d u (in_unit u x) x U N (isv_in d u x U)). Qed.
Lemma store_list u d l y : unit_for d u -> d <> dimensionless -> mapM (UnitsEvol.store (Qy y u)) (map (in_unit u) l) = Ok (map (in_unit u) l).
Proof.
  intros U N. induction l as [|x l IH]; [reflexivity|]. cbn [map mapM]. rewrite (store_same u d x y U N). cbn [rbind]. rewrite IH. reflexivity.
Qed.
Lemma zero_in d u : unit_for d u -> Qy (Fin 0) u = in_unit u (Fin 0).
Proof.
  intros (P & D). apply (as_in_unit d); [|reflexivity|reflexivity]. split; [exact P|]. split; [exact D|]. unfold si. cbn. f_equal. ring.
Qed.
Definition gyr := in_unit gigayear.
Lemma agree_skip {A C D} (T : C -> D -> Prop) (v : A) f n : agree T (f v) n -> agree T (mbind_q (lift_q (Ok v)) f) n.
Proof. intros H. exact H. Qed.
Lemma agree_lift_map {A B} (g : A -> B) (r : res (list B)) t : r = rmap (map g) t -> agree (fun v x => v = map g x) (lift_q r) (lift t).
Proof. intros ->. apply agree_lift. destruct t; reflexivity. Qed.
Lemma merger_si X y save w exact : same_world X y ->
  agree (fun v x => v = map gyr x) (get_merger_time_q X save w exact) (get_merger_time y save w exact).
Proof.
  intros W. unfold get_merger_time_q, get_merger_time. eapply agree_bind; [exact agree_self|]. intros q s S. cbv zeta.
  rewrite (n_sources_si _ _ S), (which_si _ _ _ S), (ss_merged _ _ S), (ss_ecc _ _ S), (x_si_eq _ _ W).
  set (wh := if save then _ else _). eapply agree_bind; [now apply agree_lift_eq|]. intros insp ? <-.
  eapply agree_bind; [now apply agree_lift_eq|]. intros ecc ? <-.
  destruct (ss_f_orb _ _ S) as (uf & UF & ->), (ss_m_1 _ _ S) as (u1 & U1 & ->), (ss_m_2 _ _ S) as (u2 & U2 & ->). rewrite !select_of_map.
  pose proof (t_merge_ecc_si (x_quad y) ecc None (Some (select insp (s_m_1 s))) (Some (select insp (s_m_2 s))) None (Some (select insp (s_f_orb s)))
    small_e_tol_default large_e_tol_default exact m4_per_s u1 u2 au uf UnitsEvolFacts.unit_m4s U1 U2 UnitsEvolFacts.unit_au UF) as E.
  cbn [list_in option_map] in E. rewrite E.
  apply (agree_bind (fun v x => v = map gyr x)); [now apply agree_lift_map|]. intros v t ->.
  unfold gyr. rewrite (store_list gigayear time_dim t (Fin 0) UnitsEvolFacts.unit_gigayear time_not_none). apply agree_skip.
  rewrite (zero_in time_dim _ UnitsEvolFacts.unit_gigayear), repeat_of_map, scatter_of_map.
  apply (agree_bind eq).
  - apply agree_if; [|now apply agree_ret]. apply agree_modify. intros. now apply same_set_t_merge.
  - intros _ _ _. apply agree_lift_map. apply take_mask_of_map.
Qed.
Lemma ensure_si X y : same_world X y -> agree (fun v x => v = map gyr x) (ensure_t_merge_q X) (ensure_t_merge y).
Proof.
  intros W. unfold ensure_t_merge_q, ensure_t_merge. eapply agree_bind; [exact agree_self|]. intros q s S. rewrite (ss_t_merge _ _ S).
  destruct (s_t_merge s) as [l|]; cbn [option_map]; [now apply agree_ret|].
  eapply agree_bind; [now apply merger_si|]. intros _ _ _. eapply agree_bind; [exact agree_self|]. intros q2 s2 S2. rewrite (ss_t_merge _ _ S2).
  destruct (s_t_merge s2) as [l|]; cbn [option_map]; [now apply agree_ret|apply agree_raise].
Qed.

(** *** Evolution *)
Lemma final_hz rows : final_q (map (map (in_unit hertz)) rows) = map (in_unit hertz) (final rows).
Proof.
  unfold final_q, final. rewrite !map_map. apply map_ext. intros r.
  assert (D : Qy NaN hertz = in_unit hertz NaN) by (now rewrite in_hz).
  rewrite D. induction r as [|x [|z r] IH]; [reflexivity|reflexivity|]. exact IH.
Qed.
Lemma last_pl r : mag (last (map Pl r) (Qy NaN hertz)) = last r NaN.
Proof. induction r as [|x [|z r] IH]; [reflexivity|reflexivity|]. exact IH. Qed.
Lemma final_plain rows : map mag (final_q (map (map Pl) rows)) = final rows.
Proof. unfold final_q, final. rewrite !map_map. apply map_ext. intros r. apply last_pl. Qed.
Lemma unit_megayear : unit_for time_dim megayear.
Proof. split; [|reflexivity]. cbn. pose proof year_pos as P. cbn in P. lra. Qed.
Lemma one_megayear : Qy (Fin 1) megayear = in_unit megayear (years 1e6).
Proof.
  apply (as_in_unit time_dim); [|reflexivity|reflexivity]. split; [apply unit_megayear|]. split; [reflexivity|]. unfold si, years. cbn. f_equal. lra.
Qed.

Lemma as_time t t' : same_time t t' -> exists u, unit_for time_dim u /\ t = t_evol_in u t'.
Proof.
  destruct t, t'; cbn; try contradiction.
  - intros _. exists second. split; [exact UnitsEvolFacts.unit_second|reflexivity].
  - intros T. destruct (as_some _ _ _ time_not_none T) as (u & U & ->). now exists u.
  - intros (u & U & ->). now exists u.
Qed.
Lemma times_si u t n : times_of_q (t_evol_in u t) n = rmap (map (in_unit u)) (times_of t n).
Proof. destruct t; cbn; [reflexivity|now rewrite repeat_of_map|reflexivity]. Qed.
Lemma all_quantity u l : forallb is_quantity (map (in_unit u) l) = true.
Proof. induction l; cbn; auto. Qed.
Lemma take_times_si u m t : take_times_q m (t_evol_in u t) = rmap (t_evol_in u) (take_times m t).
Proof.
  destruct t as [|x|l]; cbn; try reflexivity. rewrite all_quantity, take_mask_of_map. destruct (take_mask m l); reflexivity.
Qed.
Lemma merged_si u ts tm : unit_for time_dim u -> bzipM vge (map (in_unit u) ts) (map gyr tm) = bzip nge ts tm.
Proof.
  intros U. assert (R : res_rel (Forall2 eq) (bzipM vge (map (in_unit u) ts) (map gyr tm)) (bzip nge ts tm)).
  { unfold bzip. eapply rel_bzipM; [exact (list_isv time_dim u ts U)|exact (list_isv time_dim gigayear tm UnitsEvolFacts.unit_gigayear)|].
    intros v x w z V Z. unfold vge. rewrite (compare_scale nge ge_scale v w time_dim x z V Z time_not_none). reflexivity. }
  destruct (bzipM _ _ _) as [l|e], (bzip _ _ _) as [l'|e']; cbn in R; try contradiction; [|now subst]. f_equal. induction R; congruence.
Qed.
Lemma remaining_si u tm ts : unit_for time_dim u -> remaining_q (map gyr tm) (map (in_unit u) ts) = rmap (map gyr) (remaining tm ts).
Proof.
  intros U. apply rel_rmap. unfold remaining_q, remaining, bzip.
  eapply (rel_bzipM (fun v x => v = gyr x)); [|exact (list_isv time_dim u ts U)|].
  - induction tm; constructor; auto.
  - intros v x w z -> Z. unfold vsub, gyr.
    rewrite (vsum_in nsub sub_scale time_dim gigayear x w z UnitsEvolFacts.unit_gigayear time_not_none Z). cbn [rbind].
    rewrite (zero_in time_dim _ UnitsEvolFacts.unit_gigayear).
    rewrite (vsum_in nmax max_scale time_dim gigayear (Fin 0) _ (x - z)%num UnitsEvolFacts.unit_gigayear time_not_none
      (isv_in time_dim gigayear _ UnitsEvolFacts.unit_gigayear)). reflexivity.
Qed.

Definition hz := in_unit hertz.
Definition same_evolved (v : list bool * list num * list val) (x : list bool * list num * list num) : Prop :=
  v = (fst (fst x), snd (fst x), map hz (snd x)).
Lemma at_merger_hz : Qy (Fin 100) hertz = hz f_at_merger.
Proof. unfold hz. now rewrite in_hz. Qed.
Lemma evolved_si X y t t' tm q s : same_world X y -> same_time t t' -> same_source q s ->
  res_rel same_evolved (evolved_q X t (map gyr tm) q) (evolved y t' tm s).
Proof.
  intros W T S. destruct (as_time _ _ T) as (ut & UT & ->). unfold evolved_q, evolved.
  rewrite (n_sources_si _ _ S), (ss_ecc _ _ S), (x_si_eq _ _ W), times_si.
  destruct (times_of t' (n_sources s)) as [ts|e]; cbn [rbind rmap]; [|reflexivity]. rewrite (merged_si ut ts tm UT).
  destruct (bzip nge ts tm) as [merged|e]; cbn [rbind]; [|reflexivity].
  destruct (logical_and _ _) as [cm|e]; cbn [rbind]; [|reflexivity].
  destruct (logical_and _ _) as [em|e]; cbn [rbind]; [|reflexivity].
  rewrite !take_times_si. destruct (take_times cm t') as [tc|e]; cbn [rbind rmap]; [|reflexivity].
  destruct (take_times em t') as [te|e]; cbn [rbind rmap]; [|reflexivity]. cbv zeta.
  rewrite (zero_in frequency_dim _ UnitsEvolFacts.unit_hertz), repeat_of_map, take_mask_of_map.
  destruct (take_mask merged (np_repeat (Fin 0) (n_sources s))) as [am|e]; cbn [rbind rmap]; [|reflexivity].
  assert (F0 : scatter merged (map (fun _ => Qy (Fin 100) hertz) (map (in_unit hertz) am)) (map (in_unit hertz) (np_repeat (Fin 0) (n_sources s))) =
    map hz (scatter merged (map (fun _ => f_at_merger) am) (np_repeat (Fin 0) (n_sources s)))).
  { rewrite at_merger_hz. change (in_unit hertz) with hz. rewrite map_map, <- scatter_of_map, map_map. reflexivity. }
  rewrite F0. set (f0 := scatter merged (map (fun _ => f_at_merger) am) (np_repeat (Fin 0) (n_sources s))).
  destruct (ss_f_orb _ _ S) as (uf & UF & ->), (ss_m_1 _ _ S) as (u1 & U1 & ->), (ss_m_2 _ _ S) as (u2 & U2 & ->). rewrite !select_of_map.
  apply (rel_bind (fun v x => v = map hz x)).
  { destruct (any cm); [|reflexivity].
    pose proof (evol_circ_si (x_quad y) tc 2 SNone Absent (Array (select cm (s_m_1 s))) (Array (select cm (s_m_2 s))) Absent (Array (select cm (s_f_orb s)))
      ["f_orb"%string] ut second m4_per_s u1 u2 au uf UT UnitsEvolFacts.unit_second UnitsEvolFacts.unit_m4s U1 U2 UnitsEvolFacts.unit_au UF
      (or_intror (or_introl eq_refl))) as E. cbn [arg_in si_arg timesteps_in] in E. rewrite E. clear E.
    destruct (evol_circ _ _ _ _ _ _ _ _ _ _) as [[[l|rows]|l]|e]; cbn [rmap rbind dress dress_evo]; try reflexivity.
    change (hd None (circ_units ["f_orb"%string])) with (Some hertz).
    change (map (map (dress_val (Some hertz))) rows) with (map (map (in_unit hertz)) rows). rewrite final_hz.
    rewrite <- (zero_in frequency_dim _ UnitsEvolFacts.unit_hertz).
    rewrite (store_list hertz frequency_dim _ _ UnitsEvolFacts.unit_hertz frequency_not_none). cbn [rbind res_rel]. apply scatter_of_map. }
  intros f f' ->.
  apply (rel_bind (fun v x => v = (fst x, map hz (snd x)))).
  { destruct (any em); [|reflexivity]. rewrite one_megayear.
    pose proof (evol_ecc_si (x_quad y) (x_odeint y) (x_sched y (length (select em (s_ecc s)))) (PArr (select em (s_ecc s))) te 2 SNone Absent
      (Array (select em (s_m_1 s))) (Array (select em (s_m_2 s))) Absent (Array (select em (s_f_orb s)))
      ["ecc"%string; "f_orb"%string] 1 false false (years 1e6) None ut second m4_per_s u1 u2 au uf megayear second UT UnitsEvolFacts.unit_second
      UnitsEvolFacts.unit_m4s U1 U2 UnitsEvolFacts.unit_au UF unit_megayear UnitsEvolFacts.unit_second) as E.
    cbn [arg_in si_arg timesteps_in list_in option_map] in E. rewrite E. clear E.
    destruct (evol_ecc _ _ _ _ _ _ _ _ _ _ _ _ _ _ _ _ _ _) as [[o st]|e] eqn:EV; cbn [rmap rbind fst snd]; [|reflexivity].
    change (ecc_units ["ecc"%string; "f_orb"%string]) with [None; Some hertz].
    destruct (ecc_two_outputs _ _ _ _ _ _ _ _ _ _ _ _ _ _ _ _ _ _ _ EV) as (a & b & ->).
    destruct a as [al|er]; [reflexivity|]. destruct b as [bl|fr]; [reflexivity|].
    cbn [dress map2 dress_evo]. change (map (map (dress_val (Some hertz))) fr) with (map (map (in_unit hertz)) fr).
    change (map (map (dress_val None)) er) with (map (map Pl) er). rewrite final_hz, final_plain.
    rewrite <- (zero_in frequency_dim _ UnitsEvolFacts.unit_hertz).
    rewrite (store_list hertz frequency_dim _ _ UnitsEvolFacts.unit_hertz frequency_not_none). cbn [rbind res_rel fst snd]. f_equal. apply scatter_of_map. }
  intros ef ef' ->. cbn. reflexivity.
Qed.
Lemma evolve_si X y t t' : same_world X y -> same_time t t' -> agree eq (evolve_sources_q X t) (evolve_sources y t').
Proof.
  intros W T. unfold evolve_sources_q, evolve_sources. eapply agree_bind; [now apply ensure_si|]. intros v tm ->.
  eapply agree_bind; [exact agree_self|]. intros q s S.
  eapply agree_bind; [apply agree_lift; now apply evolved_si|]. intros v [[mg ec] f] ->. cbn [fst snd].
  destruct (as_time _ _ T) as (u & U & ->). rewrite (n_sources_si _ _ S), times_si.
  eapply agree_bind; [apply agree_modify; intros; apply same_set_orbit; [|assumption]; exact (some_in_unit frequency_dim hertz f UnitsEvolFacts.unit_hertz)|].
  intros _ _ _. eapply agree_bind; [now apply agree_lift_map|]. intros v ts ->. rewrite (remaining_si u tm ts U).
  eapply agree_bind; [now apply agree_lift_map|]. intros v l ->. apply agree_modify. intros. now apply same_set_t_merge.
Qed.
