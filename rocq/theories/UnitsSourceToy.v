(** UnitsSourceToy.v -- the world of Toy.v with quantities, two binaries in it described twice, and the readings of C97. *)
From Coq Require Import String Reals ZArith List Bool Lra Lia.
From Verif Require Import Num NumFacts Np NpFacts Utils Strain Psd Evol Snr Interp Harmonics ScParams Source History Toy Units UnitsSpec UnitsFacts
  UnitsThms UnitsStrain UnitsEvol UnitsEvolSpec UnitsEvolFacts UnitsPsd UnitsPsdSpec UnitsPsdFacts UnitsPsdWrong UnitsPsdThms UnitsSnr UnitsSource UnitsSourceSpec
  UnitsSourceParams UnitsSourceFacts UnitsSourceSnr UnitsSourceEvol UnitsSourceThms UnitsSourceKeep.
Import ListNotations.
Open Scope list_scope.
Open Scope R_scope.

Definition x_toy_q : ext_q :=
  mkExtQ x_toy (fun i f _ _ _ _ => Ok (map (fun _ => in_unit per_hertz (Fin (INR i + 1))) f))
         (fun i _ t => Ok [in_unit per_hertz (nmul (Fin (INR i)) (si t))]).
Lemma toy_world : same_world x_toy_q x_toy.
Proof.
  split; [reflexivity|]. split.
  - intros i fq f Lq L tq t a c c' F _ _ _. cbn. unfold toy_psd. cbn. f_equal. rewrite map_map. clear - F. induction F; cbn; congruence.
  - intros i. cbn. split.
    + intros f tq t (_ & _ & E). unfold toy_conf. cbn. now rewrite E.
    + intros fq f tq t _ (_ & _ & E). unfold toy_conf. cbn. constructor; [|constructor]. rewrite E. apply isv_in. exact unit_per_hertz.
Qed.
(** Binaries given in solar masses, kiloparsec-like units and mHz. *)
Definition toy_in (u1 u2 ud uf : unit_) (m1 m2 e d f : list num) (isc : bool) (p : dict_q) : init_args_q :=
  mkInitQ (PQArr (map (in_unit u1) m1) tt) (PQArr (map (in_unit u2) m2) tt) (PArr e) (PQArr (map (in_unit ud) d) tt) 1
          (PQArr (map (in_unit uf) f) tt) PNone None None None PNone (Fin (1/20)) (Fin (1/100)) false isc p.
Lemma toy_same u1 u2 ud uf m1 m2 e d f isc p p' : unit_for mass_dim u1 -> unit_for mass_dim u2 -> unit_for length_dim ud -> unit_for frequency_dim uf ->
  same_params p p' -> same_init (toy_in u1 u2 ud uf m1 m2 e d f isc p) (toy_args m1 m2 e d f isc p').
Proof.
  intros U1 U2 UD UF P. constructor; cbn; auto; try (now apply some_in_unit). split; [exact Logic.I|]. split; exact Logic.I.
Qed.
Lemma same_in k d u x : k = "t_obs"%string /\ d = time_dim \/ k = "L"%string /\ d = length_dim -> unit_for d u -> same_pval k (PValQ (in_unit u x)) (PVal x).
Proof. intros [(-> & ->)|(-> & ->)] U; cbn; [left|right]; (split; [reflexivity|now apply isv_in]). Qed.

(** *** Statements of C97 *)
Theorem two_users X y k i i' j os os' ps : same_world X y -> same_init i j -> same_init i' j ->
  Forall2 same_op os ps -> Forall2 same_op os' ps ->
  match init_q X k i, init_q X k i' with
  | Ok q, Ok q' => snd (run_q X os q) = snd (run_q X os' q') /\
      exists s, same_source (fst (run_q X os q)) s /\ same_source (fst (run_q X os' q')) s
  | Err e, Err e' => e = e'
  | _, _ => False
  end.
Proof.
  intros W I I' O O'. pose proof (init_si X y k i j W I) as R. pose proof (init_si X y k i' j W I') as R'.
  destruct (init_q X k i) as [q|e], (init_q X k i') as [q'|e'], (init y k j) as [s|e2]; cbn in R, R'; try contradiction; try congruence.
  destruct (run_si X y os ps W O q s R) as (E & S). destruct (run_si X y os' ps W O' q' s R') as (E' & S').
  split; [congruence|]. eexists. split; [exact S|exact S'].
Qed.
Theorem readings q s : same_source q s ->
  m_c_q q = rmap (map (in_unit msun)) (m_c s) /\ a_getter_q q = rmap (map (in_unit au)) (a_getter s) /\
  (forall c st t t', same_pval "t_obs" t t' -> get_source_mask_q c st t q = get_source_mask c st t' s) /\
  (forall X y h w, same_world X y -> get_h_0_n_q X h w q = get_h_0_n y h w s /\ get_h_c_n_q X h w q = get_h_c_n y h w s).
Proof.
  intros S. split; [now apply m_c_si|]. split; [now apply a_si|]. split; [intros; now apply source_mask_si|].
  intros X y h w W. split; apply strain_si; auto; [exact h_0_n_si|exact h_c_n_si].
Qed.
Theorem methods X y : same_world X y ->
  (forall a b n w, same_args a b -> agree eq (get_snr_q X a n w) (get_snr y b n w)) /\
  (forall a b w, same_args a b -> agree eq (get_snr_stationary_q X a w) (get_snr_stationary y b w)) /\
  (forall a b n w, same_args a b -> agree eq (get_snr_evolving_q X a n w) (get_snr_evolving y b n w)) /\
  (forall save w exact, agree (fun v x => v = map (in_unit gigayear) x) (get_merger_time_q X save w exact) (get_merger_time y save w exact)) /\
  (forall t t', same_time t t' -> agree same_source (evolve_new_q X t) (evolve_new y t')).
Proof.
  intros W. split; [intros; now apply snr_si|]. split; [intros; now apply snr_stationary_si|]. split; [intros; now apply snr_evolving_si|].
  split; [intros; now apply merger_si|]. intros. now apply evolve_new_si.
Qed.
Definition pair_in (u1 ud uf : unit_) : init_args_q :=
  toy_in u1 msun ud uf [Fin 2e30; Fin 3e30] [Fin 1e30; Fin 1e30] [Fin 0; Fin (1/10)] [Fin 1e20; Fin 2e20] [Fin 1e-3; Fin 2e-3] false [].
Definition pair_si : init_args :=
  toy_args [Fin 2e30; Fin 3e30] [Fin 1e30; Fin 1e30] [Fin 0; Fin (1/10)] [Fin 1e20; Fin 2e20] [Fin 1e-3; Fin 2e-3] false [].
Lemma pair_same u1 ud uf : unit_for mass_dim u1 -> unit_for length_dim ud -> unit_for frequency_dim uf -> same_init (pair_in u1 ud uf) pair_si.
Proof. intros. apply toy_same; auto using UnitsEvolFacts.unit_msun. constructor. Qed.
Lemma pair_init : exists s, init x_toy KSource pair_si = Ok s /\ n_sources s = 2%nat.
Proof. eexists. split; [eapply (toy_init KSource); try reflexivity|reflexivity]. Qed.
Lemma init_dist X k i q : init_q X k i = Ok q -> q_dist q = items (iq_dist i).
Proof.
  unfold init_q. destruct (negb _ && negb _); [discriminate|].
  match goal with |- rbind ?r _ = _ -> _ => destruct r as [[[pos inc] pol]|]; cbn [rbind]; [|discriminate] end.
  match goal with |- rbind ?r _ = _ -> _ => destruct r as [f|]; cbn [rbind]; [|discriminate] end.
  destruct (negb _); [discriminate|]. rewrite !ensure_map. cbn [map]. destruct (len_of _); cbn [rbind]; [|discriminate]. cbv zeta.
  destruct (existsb _ _); [discriminate|]. set (s0 := mkSrcQ _ _ _ _ _ _ _ _ _ _ _ _ _ _ _ _ _ _ _ _ _).
  assert (D : q_dist s0 = items (iq_dist i)) by (cbn; apply norm_items). clearbody s0.
  match goal with |- match ?m s0 with _ => _ end = _ -> _ => assert (K : keeps m) end.
  { apply keeps_bind; [apply keeps_tolerance|intros _]. apply keeps_bind; [apply keeps_assign|intros _]. apply keeps_modify. intros p. repeat split. now left. }
  specialize (K s0). match goal with |- match ?m with _ => _ end = _ -> _ => destruct m as [s1 [r|e]]; [|discriminate] end.
  intros E. injection E as <-. destruct K as (_ & _ & K & _). cbn in K. congruence.
Qed.
Lemma units_source_example : exists y j s q q',
  same_world x_toy_q y /\ unit_for mass_dim msun /\ same_init (pair_in msun kilometer millihertz) j /\
  same_init (pair_in (mkUnit 1 mass_dim) meter hertz) j /\ init y KSource j = Ok s /\ n_sources s = 2%nat /\
  init_q x_toy_q KSource (pair_in msun kilometer millihertz) = Ok q /\
  init_q x_toy_q KSource (pair_in (mkUnit 1 mass_dim) meter hertz) = Ok q' /\
  q_dist q <> q_dist q' /\
  Forall2 same_op [SetItemQ "t_obs" (PValQ (in_unit month (Fin 1e8))); EvolveQ (TScalarQ (in_unit month (Fin 3600)))]
                  [SetItem "t_obs" (PVal (Fin 1e8)); Evolve (TScalar (Fin 3600))] /\
  Forall2 same_op [SetItemQ "t_obs" (PValQ (in_unit second (Fin 1e8))); EvolveQ (TScalarQ (in_unit second (Fin 3600)))]
                  [SetItem "t_obs" (PVal (Fin 1e8)); Evolve (TScalar (Fin 3600))].
Proof.
  assert (UM : unit_for mass_dim (mkUnit 1 mass_dim)) by (split; [cbn; lra|reflexivity]).
  assert (UK : unit_for length_dim kilometer) by (split; [cbn; lra|reflexivity]).
  assert (UH : unit_for frequency_dim millihertz) by (split; [cbn; lra|reflexivity]).
  assert (UL : unit_for length_dim meter) by (split; [cbn; lra|reflexivity]).
  assert (UT : unit_for time_dim month) by (split; [cbn; pose proof year_pos as P; cbn in P; lra|reflexivity]).
  assert (O : forall u, unit_for time_dim u ->
    Forall2 same_op [SetItemQ "t_obs" (PValQ (in_unit u (Fin 1e8))); EvolveQ (TScalarQ (in_unit u (Fin 3600)))]
                    [SetItem "t_obs" (PVal (Fin 1e8)); Evolve (TScalar (Fin 3600))]).
  { intros u U. constructor; [split; [reflexivity|apply (same_in _ time_dim); auto]|]. constructor; [|constructor]. cbn. now apply isv_in. }
  destruct pair_init as (s & HS & HN).
  pose proof (pair_same msun kilometer millihertz UnitsEvolFacts.unit_msun UK UH) as I1.
  pose proof (pair_same _ meter hertz UM UL UnitsEvolFacts.unit_hertz) as I2.
  pose proof (init_si _ _ KSource _ _ toy_world I1) as R1. pose proof (init_si _ _ KSource _ _ toy_world I2) as R2. rewrite HS in R1, R2.
  destruct (init_q x_toy_q KSource (pair_in msun kilometer millihertz)) as [q|e] eqn:E1; [|contradiction].
  destruct (init_q x_toy_q KSource (pair_in (mkUnit 1 mass_dim) meter hertz)) as [q'|e] eqn:E2; [|contradiction].
  exists x_toy, pair_si, s, q, q'. split; [exact toy_world|]. split; [exact UnitsEvolFacts.unit_msun|]. split; [exact I1|]. split; [exact I2|].
  split; [exact HS|]. split; [exact HN|]. split; [reflexivity|]. split; [reflexivity|]. split.
  { rewrite (init_dist _ _ _ _ E1), (init_dist _ _ _ _ E2). intros H.
    apply (f_equal (fun l => match l with v :: _ => u_size (unit_of v) | [] => 0 end)) in H. unfold pair_in, toy_in in H.
    cbn [items iq_dist map in_unit unit_of u_size kilometer meter] in H. lra. }
  split; [now apply O|apply O, UnitsEvolFacts.unit_second].
Qed.
