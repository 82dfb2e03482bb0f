(** UnitsEvolThms.v -- evol.py with quantities computes what it computes with SI values. *)
From Coq Require Import String Reals ZArith List Bool Lra Lia.
From Verif Require Import Num NumFacts Np NpFacts Utils UtilsFacts Strain Evol EvolFacts Units UnitsSpec UnitsFacts UnitsThms UnitsStrain UnitsEvol UnitsEvolSpec UnitsEvolFacts.
Import ListNotations.
Open Scope list_scope.
Open Scope R_scope.
Open Scope res_scope.

(** *** Merger times of arrays *)
Lemma fill_rel mask fq f xs ys b yb ecc t t' :
  Forall2 (isv length_dim) xs ys -> Forall2 (isv beta_dim) b yb -> Forall2 (isv time_dim) t t' ->
  (forall x y p q e, isv length_dim x y -> isv beta_dim p q -> exists w, fq x p e = Ok w /\ isv time_dim w (f y q e)) ->
  exists r, fill mask fq xs b ecc t = Ok r /\
    Forall2 (isv time_dim) r (scatter mask (map2 (fun (xb : num * num) e => f (fst xb) (snd xb) e)
                                                 (map2 pair (select mask ys) (select mask yb)) (select mask ecc)) t').
Proof.
  intros X B Ht F. unfold fill.
  pose proof (rel_map2 (isv length_dim) (isv beta_dim) (fun q x => isv length_dim (fst q) (fst x) /\ isv beta_dim (snd q) (snd x))
                pair pair _ _ _ _ (rel_select _ mask _ _ X) (rel_select _ mask _ _ B)
                (fun x y u v P Q => conj P Q)) as P.
  destruct (rel_map2M_total _ eq (isv time_dim) (fun (xb : val * val) e => fq (fst xb) (snd xb) e)
             (fun (xb : num * num) e => f (fst xb) (snd xb) e) _ _ _ _ P (eq_forall2 (select mask ecc))) as (vs & -> & V).
  { intros x y e e' (P1 & P2) <-. now apply F. }
  cbn [rbind].
  destruct (rel_mapM_total (isv time_dim) (isv time_dim) (store (Qy (Fin 0) gigayear)) (fun x => x) _ _ V) as (ws & -> & W).
  { intros x y I. destruct (store_isv time_dim (Qy (Fin 0) gigayear) x y (Fin 0)) as (w & E & Z); [|exact I|auto with units|].
    - split; [exact gigayear_pos|]. split; [reflexivity|]. unfold si. cbn. f_equal. ring.
    - exists w. split; [exact E|eapply isz_isv, Z]. }
  cbn [rbind]. eexists. split; [reflexivity|]. apply rel_scatter; [exact Ht|]. rewrite map_id in W. exact W.
Qed.

Lemma pairs_swap {A B C D} (f : B -> A -> C) (a : list A) (b : list B) (e : list D) :
  length a = length e -> length b = length e ->
  map2 (fun (q : A * B) _ => f (snd q) (fst q)) (map2 pair a b) e = map2 f b a.
Proof.
  revert b e. induction a as [|x a IH]; intros [|y b] [|z e] La Lb; try discriminate; try reflexivity. cbn.
  f_equal. apply IH; cbn in *; lia.
Qed.
Lemma select_lengths {A B} m (l : list A) (l' : list B) : length l = length l' -> length (select m l) = length (select m l').
Proof.
  revert l l'. induction m as [|b m IH]; intros [|x l] [|y l'] L; try discriminate; try reflexivity.
  cbn. destruct b; cbn; [f_equal|]; apply IH; cbn in L; lia.
Qed.

Lemma core_si quad ecc a xa b xb s small large exact : Forall2 (isz length_dim s) a xa -> Forall2 (isv beta_dim) b xb ->
  get_t_merge_ecc_core_q quad ecc a b small large exact =
  rmap (map (in_unit gigayear)) (get_t_merge_ecc_core quad ecc xa xb small large exact).
Proof.
  intros A B. unfold get_t_merge_ecc_core_q, get_t_merge_ecc_core.
  pose proof (all_isv _ _ _ _ A) as A'.
  destruct (forallb _ ecc).
  - pose proof (rel_bzipM (isv beta_dim) (isv length_dim) (fun v x => v = in_unit gigayear x)
                  (fun b a => to (t_merge_circ_q b a) gigayear) (fun x y => Ok (t_merge_circ_elem x y)) _ _ _ _ B A') as R.
    unfold bzip. destruct (bzipM _ b a) as [l|e], (bzipM _ xb xa) as [l'|e']; cbn in R |- *.
    + assert (R' : Forall2 (fun v x => v = in_unit gigayear x) l l').
      { apply R. intros x y u v I J. rewrite (circ_gyr _ _ _ _ I J). reflexivity. }
      f_equal. clear R. induction R'; cbn; congruence.
    + exfalso. apply R. intros x y u v I J. rewrite (circ_gyr _ _ _ _ I J). reflexivity.
    + exfalso. apply R. intros x y u v I J. rewrite (circ_gyr _ _ _ _ I J). reflexivity.
    + f_equal. apply R. intros x y u v I J. rewrite (circ_gyr _ _ _ _ I J). reflexivity.
  - rewrite (rel_length _ _ _ A), (rel_length _ _ _ B).
    destruct ((length xa =? length ecc)%nat && (length xb =? length ecc)%nat) eqn:L; [|reflexivity]. cbn [negb]. cbv zeta.
    apply andb_prop in L as (La & Lb). apply Nat.eqb_eq in La, Lb.
    set (circular := map (fun e => neqb e (Fin 0)) ecc). set (small_e := map (fun e => ngt e (Fin 0) && nlt e small) ecc).
    set (large_e := map (fun e => ngt e large) ecc). set (other_e := map (fun e => nge e small && nle e large) ecc).
    set (nc := map negb circular).
    destruct (rel_map2M_total (isz length_dim s) eq (isz length_dim s) (fun a e => v <- c_0_q a (Pl e) ;; store a v) c_0
               _ _ _ _ (rel_select _ nc _ _ A) (eq_forall2 (select nc ecc))) as (vs & -> & V).
    { intros v x e e' (I & S) <-. rewrite (c_0_isv _ _ _ I). cbn [rbind].
      destruct (store_isv length_dim v (in_unit au (c_0 x e)) (c_0 x e) x I) as (w & E & Z); [apply isv_in; auto with units|auto with units|].
      exists w. split; [exact E|]. rewrite <- S. exact Z. }
    cbn [rbind].
    set (c0q := scatter nc vs _). set (c0 := scatter nc _ _).
    assert (C : Forall2 (isv length_dim) c0q c0).
    { eapply all_isv. unfold c0q, c0. apply rel_scatter; [|exact V]. eapply rel_map; [exact A|]. intros x y I.
      eapply zero_isv; [exact I|auto with units]. }
    assert (T0 : Forall2 (isv time_dim) (map (fun _ : num => Qy (Fin 0) gigayear) ecc) (map (fun _ : num => Fin 0) ecc)).
    { eapply rel_map; [apply eq_forall2|]. intros x y _. split; [exact gigayear_pos|]. split; [reflexivity|].
      unfold si. cbn. f_equal. ring. }
    destruct (fill_rel circular (fun a b _ => Ok (t_merge_circ_q b a)) (fun x y _ => t_merge_circ_elem y x) a xa b xb ecc _ _ A' B T0)
      as (t1 & -> & T1).
    { intros. eexists. split; [reflexivity|]. now apply circ_isv. }
    cbn [rbind]. cbv beta in T1.
    rewrite (pairs_swap t_merge_circ_elem) in T1 by (apply select_lengths; assumption).
    destruct (fill_rel small_e (fun c b e => Ok (t_small_q c b e)) t_small c0q c0 b xb ecc _ _ C B T1) as (t2 & -> & T2).
    { intros. eexists. split; [reflexivity|]. now apply small_isv. }
    cbn [rbind].
    destruct (fill_rel large_e (fun c b e => Ok (t_large_q c b e)) t_large c0q c0 b xb ecc _ _ C B T2) as (t3 & -> & T3).
    { intros. eexists. split; [reflexivity|]. now apply large_isv. }
    cbn [rbind].
    assert (E : forall t4 t4', Forall2 (isv time_dim) t4 t4' -> mapM (fun v => to v gigayear) t4 = Ok (map (in_unit gigayear) t4')).
    { intros t4 t4' T4. eapply mapM_to; [exact T4|]. intros x y I. apply (to_in time_dim); auto with units. }
    destruct exact.
    + destruct (fill_rel other_e (t_exact_q quad) (t_exact quad) c0q c0 b xb ecc _ _ C B T3) as (t4 & -> & T4).
      { intros. now apply exact_isv. }
      cbn [rbind rmap]. apply E. exact T4.
    + destruct (fill_rel other_e (fun a b e => t_fit_q b a e) (fun x y e => t_fit y x e) a xa b xb ecc _ _ A' B T3) as (t4 & -> & T4).
      { intros. now apply fit_isv. }
      cbn [rbind rmap]. apply E. exact T4.
Qed.

Lemma t_merge_ecc_rel quad s ecc b m_1 m_2 a f xb x1 x2 xa xf small large exact :
  opt_all (isv beta_dim) b xb -> opt_all (isv mass_dim) m_1 x1 -> opt_all (isv mass_dim) m_2 x2 ->
  opt_all (isz length_dim s) a xa -> opt_all (isv frequency_dim) f xf ->
  get_t_merge_ecc_q quad ecc a f b m_1 m_2 small large exact =
  rmap (map (in_unit gigayear)) (get_t_merge_ecc quad ecc xa xf xb x1 x2 small large exact).
Proof.
  intros HB H1 H2 HA HF. unfold get_t_merge_ecc_q, get_t_merge_ecc.
  pose proof (check_rel s _ _ _ _ _ _ _ _ _ _ HB H1 H2 HA HF) as R.
  destruct (check_arr_q _ _ _ _ _) as [q|e], (check_arr _ _ _ _ _) as [x|e']; cbn in R; try contradiction.
  - cbn [rbind]. eapply core_si; apply R.
  - cbn. congruence.
Qed.

Lemma opt_list_isv d u o : unit_for d u -> opt_all (isv d) (list_in u o) o.
Proof. intros U. destruct o; cbn; [now apply list_isv|exact Logic.I]. Qed.
Lemma opt_list_isz d u o : unit_for d u -> opt_all (isz d (u_size u)) (list_in u o) o.
Proof. intros U. destruct o; cbn; [now apply list_isz|exact Logic.I]. Qed.
Lemma opt_val_is d u o : unit_for d u -> opt_is d o (val_in u o).
Proof. intros U. destruct o; cbn; [now apply isv_in|exact Logic.I]. Qed.

Theorem t_merge_ecc_si quad ecc b m_1 m_2 a f small large exact ub u1 u2 ua uf :
  unit_for beta_dim ub -> unit_for mass_dim u1 -> unit_for mass_dim u2 -> unit_for length_dim ua -> unit_for frequency_dim uf ->
  get_t_merge_ecc_q quad ecc (list_in ua a) (list_in uf f) (list_in ub b) (list_in u1 m_1) (list_in u2 m_2) small large exact =
  rmap (map (in_unit gigayear)) (get_t_merge_ecc quad ecc a f b m_1 m_2 small large exact).
Proof.
  intros. eapply t_merge_ecc_rel; first [now apply opt_list_isv | now apply opt_list_isz].
Qed.

Theorem t_merge_circ_arr_si b m_1 m_2 a f ub u1 u2 ua uf :
  unit_for beta_dim ub -> unit_for mass_dim u1 -> unit_for mass_dim u2 -> unit_for length_dim ua -> unit_for frequency_dim uf ->
  get_t_merge_circ_arr_q (list_in ub b) (list_in u1 m_1) (list_in u2 m_2) (list_in ua a) (list_in uf f) =
  rmap (map (in_unit gigayear)) (get_t_merge_circ b m_1 m_2 a f).
Proof.
  intros UB U1 U2 UA UF. unfold get_t_merge_circ_arr_q, get_t_merge_circ.
  pose proof (check_rel (u_size ua) _ _ _ _ _ _ _ _ _ _ (opt_list_isv _ _ b UB) (opt_list_isv _ _ m_1 U1) (opt_list_isv _ _ m_2 U2) (opt_list_isz _ _ a UA)
             (opt_list_isv _ _ f UF)) as R.
  destruct (check_arr_q _ _ _ _ _) as [q|e], (check_arr _ _ _ _ _) as [x|e']; cbn in R; try contradiction; [|cbn; congruence].
  cbn [rbind]. destruct R as (B & A). apply all_isv in A.
  assert (K : res_rel (Forall2 (fun v x => v = in_unit gigayear x))
                (bzipM (fun b a => to (t_merge_circ_q b a) gigayear) (fst q) (snd q)) (bzip t_merge_circ_elem (fst x) (snd x))).
  { unfold bzip. eapply rel_bzipM; [exact B|exact A|]. intros p r u v I J. rewrite (circ_gyr _ _ _ _ I J). reflexivity. }
  destruct (bzipM _ (fst q) (snd q)) as [l|e], (bzip _ (fst x) (snd x)) as [l'|e']; cbn in K |- *; try contradiction; [|congruence].
  f_equal. induction K; cbn; congruence.
Qed.

(** *** One binary *)
Theorem t_merge_ecc_sc_si quad e b m_1 m_2 a f small large exact ub u1 u2 ua uf :
  unit_for beta_dim ub -> unit_for mass_dim u1 -> unit_for mass_dim u2 -> unit_for length_dim ua -> unit_for frequency_dim uf ->
  get_t_merge_ecc_sc_q quad e (val_in ua a) (val_in uf f) (val_in ub b) (val_in u1 m_1) (val_in u2 m_2) small large exact =
  rmap (in_unit gigayear) (get_t_merge_ecc_sc quad e a f b m_1 m_2 small large exact).
Proof.
  intros UB U1 U2 UA UF. unfold get_t_merge_ecc_sc_q, get_t_merge_ecc_sc.
  assert (K : res_rel (fun q x => isv beta_dim (fst q) (fst x) /\ isv length_dim (snd q) (snd x))
                (check_q (val_in ub b) (val_in u1 m_1) (val_in u2 m_2) (val_in ua a) (val_in uf f)) (check_sc b m_1 m_2 a f)).
  { pose proof (fun x => isv_in _ _ x UB) as IB. pose proof (fun x => isv_in _ _ x U1) as I1. pose proof (fun x => isv_in _ _ x U2) as I2.
    pose proof (fun x => isv_in _ _ x UA) as IA. pose proof (fun x => isv_in _ _ x UF) as IF.
    pose proof (fun x => isv_in _ _ x unit_m4s) as IM. pose proof (fun x => isv_in _ _ x unit_au) as IU.
    unfold check_q, check_sc, check_mass_freq_input.
    destruct b, m_1, m_2; cbn [val_in option_map]; try reflexivity;
      rewrite ?(beta_isv _ _ _ _ (I1 _) (I2 _)); cbn [rbind]; destruct a; cbn [val_in option_map rbind];
      try (split; cbn; auto; fail); destruct f; cbn [val_in option_map rbind]; try reflexivity;
      rewrite (a_from_f_si _ _ _ _ _ _ (IF _) (I1 _) (I2 _)); cbn [rbind]; split; cbn; auto. }
  destruct (check_q _ _ _ _ _) as [q|er], (check_sc _ _ _ _ _) as [x|er']; cbn in K; try contradiction; [|cbn; congruence].
  destruct K as (B & A). cbn [rbind rmap]. unfold get_t_merge_ecc_sc_core.
  destruct (neqb e (Fin 0)); [now apply circ_gyr|].
  rewrite (c_0_isv _ _ _ A). cbn [rbind]. pose proof (isv_in _ _ (c_0 (snd x) e) unit_au) as C.
  assert (G : forall t y, isv time_dim t y -> to t gigayear = Ok (in_unit gigayear y)).
  { intros t y I. apply (to_in time_dim); auto with units. }
  destruct (nlt e small); [cbn [rbind]; now apply G, small_isv|].
  destruct (ngt e large); [cbn [rbind]; now apply G, large_isv|].
  destruct exact; [cbn [rbind]; now apply G, exact_sc_isv|].
  destruct (fit_isv _ _ e _ _ A B) as (w & -> & W). cbn [rbind]. now apply G.
Qed.
