(** EvolFacts.v -- proofs about evol.py: circular evolution, stationarity, merger times. *)
From Coq Require Import String Reals ZArith List Bool Lra Lia.
From Coquelicot Require Import Coquelicot.
From Verif Require Import Num NumFacts Np NpFacts Utils Spec UtilsFacts Evol.
Import ListNotations.
Open Scope R_scope.

(** ** Circular evolution, one source, real numbers *)
Definition tmR (b a : R) := a ^ 4 / (4 * b).
Lemma t_merge_circ_fin b a : 0 < b -> t_merge_circ_elem (Fin b) (Fin a) = Fin (tmR b a).
Proof.
  intros Hb. unfold t_merge_circ_elem. rewrite npowi4, nmul_fin, ndiv_fin by lra. reflexivity.
Qed.
Lemma tmR_pos b a : 0 < b -> 0 < a -> 0 < tmR b a.
Proof. intros. unfold tmR. pos. Qed.

Definition acR (a0 b t : R) : R := if Rle_dec (a0 ^ 4 - 4 * b * t) 0 then 0 else Rpower (a0 ^ 4 - 4 * b * t) (1/4).
Lemma circ_a_fin a0 b t : circ_a_elem (Fin a0) (Fin b) (Fin t) = Fin (acR a0 b t).
Proof.
  unfold circ_a_elem, acR. rewrite npowi4, !nmul_fin, nsub_fin.
  destruct (Rle_dec (a0 ^ 4 - 4 * b * t) 0) as [H|H].
  - rewrite nle_t by auto. rewrite npowr_0_pos by lra. reflexivity.
  - apply Rnot_le_gt in H. rewrite nle_f by auto. now rewrite npowr_fin.
Qed.
Lemma before_merger a0 b t : 0 < b -> t < tmR b a0 <-> 0 < a0 ^ 4 - 4 * b * t.
Proof.
  intros Hb. unfold tmR. split; intros H.
  - apply Rmult_lt_compat_r with (r := 4 * b) in H; [|lra].
    replace (a0 ^ 4 / (4 * b) * (4 * b)) with (a0 ^ 4) in H by (field; lra). lra.
  - apply Rmult_lt_reg_r with (4 * b); [lra|].
    replace (a0 ^ 4 / (4 * b) * (4 * b)) with (a0 ^ 4) by (field; lra). lra.
Qed.
Lemma acR_before a0 b t : 0 < b -> t < tmR b a0 -> acR a0 b t = Rpower (a0 ^ 4 - 4 * b * t) (1/4).
Proof.
  intros Hb Ht. apply before_merger in Ht; auto. unfold acR. destruct (Rle_dec _ 0); auto. lra.
Qed.
Lemma acR_after a0 b t : 0 < b -> tmR b a0 <= t -> acR a0 b t = 0.
Proof.
  intros Hb Ht. unfold acR. destruct (Rle_dec _ 0) as [|H]; auto. exfalso. apply H.
  apply Rnot_lt_le. intros H'. apply before_merger in H'; auto. lra.
Qed.
Lemma acR_pos a0 b t : 0 < b -> t < tmR b a0 -> 0 < acR a0 b t.
Proof. intros. rewrite acR_before; auto. Qed.
Lemma acR_pow4 a0 b t : 0 < b -> t < tmR b a0 -> acR a0 b t ^ 4 = a0 ^ 4 - 4 * b * t.
Proof.
  intros Hb Ht. rewrite acR_before; auto. apply before_merger in Ht; auto.
  rewrite <- Rpower_pow by auto. rewrite Rpower_mult. replace (1/4 * INR 4) with 1 by (simpl; field).
  now apply Rpower_1.
Qed.
Lemma acR_0 a0 b : 0 < b -> 0 < a0 -> acR a0 b 0 = a0.
Proof.
  intros Hb Ha. assert (H : 0 < tmR b a0) by now apply tmR_pos.
  apply (pow_inj_pos _ _ 4); auto; try lia. { now apply acR_pos. }
  rewrite acR_pow4 by auto. ring.
Qed.
Lemma acR_derive a0 b t : 0 < b -> t < tmR b a0 ->
  is_derive (acR a0 b) t (- b / acR a0 b t ^ 3).
Proof.
  intros Hb Ht.
  apply (is_derive_ext_loc (fun s => Rpower (a0 ^ 4 - 4 * b * s) (1/4))).
  { assert (L : locally t (fun s => s < tmR b a0)) by (apply (open_lt (tmR b a0)); auto).
    revert L. apply filter_imp. intros s Hs. symmetry. now apply acR_before. }
  pose proof (acR_pos a0 b t Hb Ht) as HP.
  evar_last.
  - apply (is_derive_Rpower_comp (fun s => a0 ^ 4 - 4 * b * s)).
    + now apply before_merger.
    + instantiate (1 := - (4 * b)). auto_derive; auto; ring.
  - cbv beta. rewrite (acR_before a0 b t) by auto.
    apply before_merger in Ht; auto. set (x := a0 ^ 4 - 4 * b * t) in *.
    replace (1/4 - 1) with (- (3/4)) by field. rewrite Rpower_Ropp.
    replace (Rpower x (1/4) ^ 3) with (Rpower x (3/4)).
    + field. apply Rpower_neq0.
    + rewrite <- Rpower_pow by auto. rewrite Rpower_mult. f_equal. simpl. field.
Qed.
Lemma acR_decr a0 b t1 t2 : 0 < b -> t1 < t2 -> t1 < tmR b a0 -> acR a0 b t2 < acR a0 b t1.
Proof.
  intros Hb H12 H1. destruct (Rlt_le_dec t2 (tmR b a0)) as [H2|H2].
  - rewrite !acR_before by auto. apply Rpower_mono_base; [|lra].
    apply before_merger in H1; auto. apply before_merger in H2; auto. split; auto. nra.
  - rewrite (acR_after a0 b t2) by auto. now apply acR_pos.
Qed.
Lemma tmR_acR a0 b t : 0 < b -> t < tmR b a0 -> tmR b (acR a0 b t) = tmR b a0 - t.
Proof. intros Hb Ht. unfold tmR. rewrite acR_pow4 by auto. field. lra. Qed.
Lemma acR_compose a0 b t1 t2 : 0 < b -> t1 < tmR b a0 -> acR (acR a0 b t1) b t2 = acR a0 b (t1 + t2).
Proof.
  intros Hb H1. unfold acR at 1. rewrite acR_pow4 by auto. unfold acR.
  replace (a0 ^ 4 - 4 * b * t1 - 4 * b * t2) with (a0 ^ 4 - 4 * b * (t1 + t2)) by ring. reflexivity.
Qed.

(** ** Frequencies *)
Lemma tiny_pos : 0 < tiny.
Proof. unfold tiny, AU. lra. Qed.
Lemma freq_of_a_fin m1 m2 a : 0 < m1 -> 0 < m2 -> 0 < a -> a <> tiny ->
  freq_of_a (Fin m1) (Fin m2) (Fin a) = Fin (fR a m1 m2).
Proof.
  intros H1 H2 Ha Ht. unfold freq_of_a. rewrite neqb_f by lra. rewrite neqb_f by auto.
  now rewrite get_f_fin.
Qed.
Lemma freq_of_a_merged m1 m2 : freq_of_a m1 m2 (Fin 0) = Fin 100.
Proof.
  unfold freq_of_a. rewrite neqb_t by auto. rewrite neqb_t by auto. reflexivity.
Qed.

(** ** evol_circ on arrays *)
Definition circ_var (single : bool) (ts a_evol f_evol : list (list num)) (var : string) : list evo :=
  if String.eqb var "timesteps" then [shape single ts]
  else if String.eqb var "a" then [shape single a_evol]
  else if String.eqb var "f_orb" then [shape single f_evol]
  else if String.eqb var "f_GW" then [shape single (map (map (nmul (Fin 2))) f_evol)]
  else [].
Lemma freq_rows_map {X} (m1 m2 : X -> num) (r : X -> list num) xs :
  freq_rows (map m1 xs) (map m2 xs) (map r xs) = Ok (map (fun x => map (freq_of_a (m1 x) (m2 x)) (r x)) xs).
Proof. unfold freq_rows. rewrite bzip_map. simpl. now rewrite bzip2_col_rows. Qed.

Lemma evol_circ_eval quad t_evol n ts (b m1 m2 a f b' m1' m2' a' f' : pyval num unit) single vars
      (X : Type) (xs : list X) (fb fa fm1 fm2 : X -> num) (fr : X -> list num) :
  ensure_array [m1; m2; b; a; f] = ([m1'; m2'; b'; a'; f'], single) ->
  check_arr (arr_of b') (arr_of m1') (arr_of m2') (arr_of a') (arr_of f') = Ok (map fb xs, map fa xs) ->
  arr_of m1' = Some (map fm1 xs) -> arr_of m2' = Some (map fm2 xs) ->
  create_timesteps_array quad (map fa xs) (map fb xs) (map (fun _ => Fin 0) (map fa xs)) t_evol n ts = Ok (map fr xs) ->
  evol_circ quad t_evol n ts b m1 m2 a f vars =
  pack (flat_map (circ_var single (map fr xs)
     (map (fun x => map (circ_a_elem (fa x) (fb x)) (fr x)) xs)
     (if any_in ["f_orb"; "f_GW"]%string vars
      then map (fun x => map (fun t => freq_of_a (fm1 x) (fm2 x) (circ_a_elem (fa x) (fb x) t)) (fr x)) xs else [])) vars).
Proof.
  intros HE HC H1 H2 HT. unfold evol_circ. rewrite HE, HC. cbn [rbind fst snd]. rewrite H1, H2.
  rewrite andb_false_r. rewrite HT. cbn [rbind].
  rewrite bzip2_col_rows. cbn [rbind]. rewrite bzip2_col_rows. cbn [rbind].
  assert (E : map (fun x => map (fun q : num * num => circ_a_elem (fa x) (fst q) (snd q))
                              (map (fun t => (fb x, t)) (fr x))) xs
              = map (fun x => map (circ_a_elem (fa x) (fb x)) (fr x)) xs).
  { apply map_ext. intros x. rewrite map_map. reflexivity. }
  rewrite E. destruct (any_in _ vars).
  - rewrite freq_rows_map. cbn [rbind]. unfold circ_var.
    assert (E' : map (fun x => map (freq_of_a (fm1 x) (fm2 x)) (map (circ_a_elem (fa x) (fb x)) (fr x))) xs
               = map (fun x => map (fun t => freq_of_a (fm1 x) (fm2 x) (circ_a_elem (fa x) (fb x) t)) (fr x)) xs).
    { apply map_ext. intros x. now rewrite map_map. }
    now rewrite E'.
  - reflexivity.
Qed.

(** A single source given as scalars, with explicit time steps. *)
Lemma evol_circ_scalar_m quad m1 m2 a n ts vars :
  evol_circ quad TNone n (S1 ts) PNone (PQScalar m1 tt) (PQScalar m2 tt) (PQScalar a tt) PNone vars =
  pack (flat_map (circ_var true [ts] [map (circ_a_elem a (beta m1 m2)) ts]
    (if any_in ["f_orb"; "f_GW"]%string vars
     then [map (fun t => freq_of_a m1 m2 (circ_a_elem a (beta m1 m2) t)) ts] else [])) vars).
Proof.
  erewrite (evol_circ_eval quad TNone n (S1 ts) _ _ _ _ _ _ _ _ _ _ _ vars unit [tt]
    (fun _ => beta m1 m2) (fun _ => a) (fun _ => m1) (fun _ => m2) (fun _ => ts)); reflexivity.
Qed.
Lemma evol_circ_scalar_f quad m1 m2 f n ts vars :
  let a := get_a_from_f_orb f m1 m2 in
  evol_circ quad TNone n (S1 ts) PNone (PQScalar m1 tt) (PQScalar m2 tt) PNone (PQScalar f tt) vars =
  pack (flat_map (circ_var true [ts] [map (circ_a_elem a (beta m1 m2)) ts]
    (if any_in ["f_orb"; "f_GW"]%string vars
     then [map (fun t => freq_of_a m1 m2 (circ_a_elem a (beta m1 m2) t)) ts] else [])) vars).
Proof.
  intros a. erewrite (evol_circ_eval quad TNone n (S1 ts) _ _ _ _ _ _ _ _ _ _ _ vars unit [tt]
    (fun _ => beta m1 m2) (fun _ => a) (fun _ => m1) (fun _ => m2) (fun _ => ts)); reflexivity.
Qed.

(** ** evolve_f_orb_circ *)
Definition innerR f mc t e := Rpower f (-8/3) - Rpower 2 (32/3) * Rpower PI (8/3) * t / (5 * clight ^ 5)
   * Rpower (Ggrav * mc) (5/3) * enhancement e.
Lemma inner_fin f mc t e : 0 < f -> 0 < mc -> -1 < e < 1 ->
  inner_part (Fin f) (Fin mc) (Fin t) (Fin e) = Fin (innerR f mc t e).
Proof.
  intros Hf Hm He. pose proof PI_RGT_0. pose proof clight_pos. pose proof Ggrav_pos. unfold inner_part.
  rewrite peters_f_fin, npowi5 by auto. rewrite !nmul_fin, !npowr_fin by pos.
  rewrite !nmul_fin, ndiv_fin by nz. rewrite !nmul_fin, nsub_fin. reflexivity.
Qed.
Definition KR M := Rpower (2 * PI) (8/3) * Rpower (Ggrav * M) (-4/3).
Lemma KR_pos M : 0 < KR M.
Proof. unfold KR. pos. Qed.
Lemma f83 m1 m2 a : 0 < m1 -> 0 < m2 -> 0 < a -> Rpower (fR a m1 m2) (-8/3) = KR (m1 + m2) * a ^ 4.
Proof.
  intros H1 H2 Ha. pose proof PI_RGT_0. pose proof Ggrav_pos. pose proof (fR_pos a m1 m2). pose proof (KR_pos (m1+m2)).
  apply eq_by_ln; try pos. unfold fR, KR. lnexp. lra.
Qed.
Lemma inner_coef m1 m2 : 0 < m1 -> 0 < m2 ->
  Rpower 2 (32/3) * Rpower PI (8/3) / (5 * clight ^ 5) * Rpower (Ggrav * chirpR m1 m2) (5/3)
  = KR (m1 + m2) * (4 * betaR m1 m2).
Proof.
  intros H1 H2. pose proof PI_RGT_0. pose proof Ggrav_pos. pose proof clight_pos. pose proof (chirpR_pos m1 m2).
  pose proof (betaR_pos m1 m2 H1 H2). pose proof (KR_pos (m1+m2)).
  apply eq_by_ln; try pos. unfold KR, betaR. 
  replace 64 with (2 * 2 * 2 * 2 * 2 * 2) by ring. replace 4 with (2 * 2) by ring.
  replace (Ggrav * chirpR m1 m2) with (Ggrav * (Rpower (m1 * m2) (3/5) / Rpower (m1 + m2) (1/5))) by reflexivity.
  lnexp. lra.
Qed.
Lemma inner_K m1 m2 a t e : 0 < m1 -> 0 < m2 -> 0 < a ->
  innerR (fR a m1 m2) (chirpR m1 m2) t e = KR (m1 + m2) * (a ^ 4 - 4 * betaR m1 m2 * t * enhancement e).
Proof.
  intros H1 H2 Ha. unfold innerR. rewrite f83 by auto.
  replace (Rpower 2 (32/3) * Rpower PI (8/3) * t / (5 * clight ^ 5) * Rpower (Ggrav * chirpR m1 m2) (5/3) * enhancement e)
    with (Rpower 2 (32/3) * Rpower PI (8/3) / (5 * clight ^ 5) * Rpower (Ggrav * chirpR m1 m2) (5/3) * t * enhancement e).
  - rewrite inner_coef by auto. ring.
  - pose proof clight_pos. field. lra.
Qed.
(** the frequency belonging to a^4 = x is (K x)^(-3/8) *)
Lemma K38 m1 m2 a : 0 < m1 -> 0 < m2 -> 0 < a -> Rpower (KR (m1 + m2) * a ^ 4) (-3/8) = fR a m1 m2.
Proof.
  intros H1 H2 Ha. rewrite <- f83 by auto. rewrite Rpower_mult. replace (-8/3 * (-3/8)) with 1 by field.
  apply Rpower_1. apply fR_pos.
Qed.

(** single source *)
Definition circ_f_elem (f mc t e merge_f : num) : num :=
  let x := inner_part f mc t e in if nge x (Fin 0) then npowr x (-3/8) else merge_f.
Lemma evolve_f_orb_circ_map {X} (f mc t e : X -> num) merge_f xs :
  evolve_f_orb_circ (map f xs) (map mc xs) (map t xs) (map e xs) merge_f =
  Ok (map (fun x => circ_f_elem (f x) (mc x) (t x) (e x) merge_f) xs).
Proof.
  unfold evolve_f_orb_circ. rewrite bzip_map. cbn [rbind]. rewrite bzip_map. cbn [rbind].
  rewrite bzip_map. cbn [rbind fst snd]. rewrite !map_length, Nat.eqb_refl. cbn [negb].
  rewrite map_map, np_repeat_map. rewrite select_map, map_map. rewrite scatter_map. reflexivity.
Qed.
Lemma determine_stationarity_map {X} (f mc t e : X -> num) m1 m2 tol xs :
  determine_stationarity (map f xs) (map t xs) (map e xs) m1 m2 (Some (map mc xs)) tol =
  Ok (map (fun x => nle ((circ_f_elem (f x) (mc x) (t x) (e x) merge_f_default - f x) / f x)%num tol) xs).
Proof.
  unfold determine_stationarity. cbn [rbind]. rewrite evolve_f_orb_circ_map. cbn [rbind]. now rewrite bzip_map.
Qed.
Lemma determine_stationarity_masses {X} (f t e m1 m2 : X -> num) tol xs :
  determine_stationarity (map f xs) (map t xs) (map e xs) (Some (map m1 xs)) (Some (map m2 xs)) None tol =
  determine_stationarity (map f xs) (map t xs) (map e xs) None None
                         (Some (map (fun x => chirp_mass (m1 x) (m2 x)) xs)) tol.
Proof. unfold determine_stationarity. now rewrite bzip_map. Qed.

Lemma circ_f_pos f mc t e mf : 0 < f -> 0 < mc -> -1 < e < 1 -> 0 < innerR f mc t e ->
  circ_f_elem (Fin f) (Fin mc) (Fin t) (Fin e) mf = Fin (Rpower (innerR f mc t e) (-3/8)).
Proof.
  intros. unfold circ_f_elem. rewrite inner_fin by auto. unfold nge. rewrite nle_t by lra. now rewrite npowr_fin.
Qed.
Lemma circ_f_zero f mc t e mf : 0 < f -> 0 < mc -> -1 < e < 1 -> innerR f mc t e = 0 ->
  circ_f_elem (Fin f) (Fin mc) (Fin t) (Fin e) mf = PInf.
Proof.
  intros H1 H2 H3 H. unfold circ_f_elem. rewrite inner_fin by auto. rewrite H. unfold nge. rewrite nle_t by lra.
  apply npowr_0_neg. lra.
Qed.
Lemma circ_f_neg f mc t e mf : 0 < f -> 0 < mc -> -1 < e < 1 -> innerR f mc t e < 0 ->
  circ_f_elem (Fin f) (Fin mc) (Fin t) (Fin e) mf = mf.
Proof.
  intros. unfold circ_f_elem. rewrite inner_fin by auto. unfold nge. now rewrite nle_f by lra.
Qed.

(** stationarity of one source *)
Definition stat_elem (f mc t e tol : num) : bool :=
  nle ((circ_f_elem f mc t e merge_f_default - f) / f)%num tol.
Lemma innerR_mono f mc mc' t t' e e' : 0 < f -> 0 < mc -> mc <= mc' -> 0 <= t -> t <= t' -> 0 <= e -> e <= e' -> e' < 1 ->
  innerR f mc' t' e' <= innerR f mc t e.
Proof.
  intros Hf Hm Hmm Ht Htt He Hee He1. unfold innerR.
  pose proof clight_pos as Hc. pose proof Ggrav_pos as HG. pose proof PI_RGT_0.
  assert (A : Rpower (Ggrav * mc) (5/3) <= Rpower (Ggrav * mc') (5/3)).
  { apply Rpower_mono_base_le; [|lra]. split; [pos|]. apply Rmult_le_compat_l; lra. }
  assert (B : enhancement e <= enhancement e').
  { destruct Hee as [Hee| ->]; [|lra]. left. apply enhancement_mono; lra. }
  assert (B0 : 0 < enhancement e) by (apply enhancement_pos; lra).
  set (k := Rpower 2 (32/3) * Rpower PI (8/3)). assert (Hk : 0 < k) by (unfold k; pos).
  assert (C : k * t / (5 * clight ^ 5) <= k * t' / (5 * clight ^ 5)).
  { unfold Rdiv. apply Rmult_le_compat_r; [apply Rlt_le; pos|]. apply Rmult_le_compat_l; lra. }
  assert (C0 : 0 <= k * t / (5 * clight ^ 5)).
  { apply Rmult_le_pos; [apply Rmult_le_pos; lra|]. apply Rlt_le. pos. }
  assert (A0 : 0 < Rpower (Ggrav * mc) (5/3)) by pos.
  assert (k * t / (5 * clight ^ 5) * Rpower (Ggrav * mc) (5/3) * enhancement e
          <= k * t' / (5 * clight ^ 5) * Rpower (Ggrav * mc') (5/3) * enhancement e').
  { apply Rmult_le_compat; try lra.
    - apply Rmult_le_pos; lra.
    - apply Rmult_le_compat; lra. }
  lra.
Qed.
(** A stationary source has not been assigned the merger frequency and its estimate exceeds f by at most tol. *)
Lemma stat_elem_char f mc t e tol : 0 < f -> 0 < mc -> -1 < e < 1 -> f * (1 + tol) < 1000000000 ->
  stat_elem (Fin f) (Fin mc) (Fin t) (Fin e) (Fin tol) = true <->
  0 < innerR f mc t e /\ Rpower (innerR f mc t e) (-3/8) <= f * (1 + tol).
Proof.
  intros Hf Hm He Htol. unfold stat_elem.
  destruct (Rlt_le_dec 0 (innerR f mc t e)) as [P|[N|Z]].
  - rewrite circ_f_pos by auto. rewrite nsub_fin, ndiv_fin by lra. rewrite nle_fin.
    set (r := Rpower _ _). split.
    + intros H. split; auto. apply Rmult_le_compat_r with (r := f) in H; [|lra].
      replace ((r - f) / f * f) with (r - f) in H by (field; lra). lra.
    + intros [_ H]. apply Rmult_le_reg_r with f; auto.
      replace ((r - f) / f * f) with (r - f) by (field; lra). lra.
  - rewrite circ_f_neg by auto. unfold merge_f_default. rewrite nsub_fin, ndiv_fin by lra. rewrite nle_fin.
    split; [|lra]. intros H. exfalso. apply Rmult_le_compat_r with (r := f) in H; [|lra].
    replace ((1000000000 - f) / f * f) with (1000000000 - f) in H by (field; lra). lra.
  - rewrite circ_f_zero by auto. simpl. split; [|lra]. rcase; try lra; simpl; discriminate.
Qed.
Lemma stat_elem_mono f mc mc' t t' e e' tol tol' :
  0 < f -> 0 < mc -> mc <= mc' -> 0 <= t -> t <= t' -> 0 <= e -> e <= e' -> e' < 1 -> tol' <= tol ->
  f * (1 + tol) < 1000000000 ->
  stat_elem (Fin f) (Fin mc') (Fin t') (Fin e') (Fin tol') = true ->
  stat_elem (Fin f) (Fin mc) (Fin t) (Fin e) (Fin tol) = true.
Proof.
  intros Hf Hm Hmm Ht Htt He Hee He1 Htol Hmf H.
  assert (Hmf' : f * (1 + tol') < 1000000000).
  { apply Rle_lt_trans with (f * (1 + tol)); auto. apply Rmult_le_compat_l; lra. }
  apply stat_elem_char in H; try lra. destruct H as [P Q].
  pose proof (innerR_mono f mc mc' t t' e e' Hf Hm Hmm Ht Htt He Hee He1) as M.
  apply stat_elem_char; try lra. split; [lra|].
  apply Rle_trans with (Rpower (innerR f mc' t' e') (-3/8)).
  - apply Rpower_anti_base_le; lra.
  - eapply Rle_trans; [exact Q|]. apply Rmult_le_compat_l; lra.
Qed.

(** ** Mean value helper *)
Lemma decr_by_derivative (f df : R -> R) (T : R) : 0 <= T ->
  (forall t, 0 <= t <= T -> is_derive f t (df t)) -> (forall t, 0 <= t <= T -> df t <= 0) -> f T <= f 0.
Proof.
  intros HT Hd Hn.
  destruct (MVT_gen f 0 T df) as [c [Hc E]].
  - intros x Hx. rewrite Rmin_left, Rmax_right in Hx by auto. apply Hd. lra.
  - intros x Hx. rewrite Rmin_left, Rmax_right in Hx by auto.
    apply continuity_pt_filterlim. apply (ex_derive_continuous (K := R_AbsRing) (V := R_NormedModule)).
    exists (df x). apply Hd. lra.
  - rewrite Rmin_left, Rmax_right in Hc by auto. assert (df c <= 0) by (apply Hn; lra).
    assert (df c * (T - 0) <= 0) by nra. lra.
Qed.
Lemma constant_by_derivative (f : R -> R) (T : R) : 0 <= T ->
  (forall t, 0 <= t <= T -> is_derive f t 0) -> f T = f 0.
Proof.
  intros HT Hd. apply Rle_antisym.
  - apply (decr_by_derivative f (fun _ => 0)); auto. intros; lra.
  - assert (- f T <= - f 0).
    { apply (decr_by_derivative (fun t => - f t) (fun _ => 0)); auto; [|intros; lra].
      intros t Ht. replace 0 with (opp 0) by (unfold opp; simpl; ring). apply (is_derive_opp f t 0). auto. }
    lra.
Qed.

(** ** The stationarity estimate is conservative (C17) *)
Lemma peters_de_dt_nonpos m1 m2 a e : 0 < m1 -> 0 < m2 -> 0 < a -> 0 <= e < 1 -> peters_de_dt m1 m2 a e <= 0.
Proof.
  intros H1 H2 Ha He. unfold peters_de_dt. rewrite G_SI_Ggrav, c_SI_clight.
  pose proof Ggrav_pos. pose proof clight_pos. destruct (e_facts0 e He) as [A B].
  assert (0 < sqrt (1 - e ^ 2)) by now apply sqrt_lt_R0.
  assert (0 < Ggrav ^ 3 * m1 * m2 * (m1 + m2)) by pos.
  assert (0 < clight ^ 5 * a ^ 4 * sqrt (1 - e ^ 2) ^ 5) by pos.
  assert (D : 0 <= e * (Ggrav ^ 3 * m1 * m2 * (m1 + m2)) / (clight ^ 5 * a ^ 4 * sqrt (1 - e ^ 2) ^ 5)
                   * (1 + 121 / 304 * e ^ 2)).
  { apply Rmult_le_pos; [|lra]. apply Rmult_le_pos; [apply Rmult_le_pos; lra|]. apply Rlt_le. pos. }
  unfold Rdiv in *. lra.
Qed.
Lemma inspiral_restrict m1 m2 T T' a e : 0 <= T' <= T -> peters_inspiral m1 m2 T a e -> peters_inspiral m1 m2 T' a e.
Proof. intros H HI t Ht. apply HI. lra. Qed.
Lemma inspiral_e_decr m1 m2 T a e : 0 < m1 -> 0 < m2 -> 0 <= T -> peters_inspiral m1 m2 T a e -> e T <= e 0.
Proof.
  intros H1 H2 HT HI. apply (decr_by_derivative e (fun t => peters_de_dt m1 m2 (a t) (e t))); auto.
  - intros t Ht. now apply HI.
  - intros t Ht. destruct (HI t Ht) as [A [B _]]. now apply peters_de_dt_nonpos.
Qed.
Lemma inspiral_a4 m1 m2 T a e : 0 < m1 -> 0 < m2 -> 0 <= T -> peters_inspiral m1 m2 T a e ->
  a 0 ^ 4 - 4 * betaR m1 m2 * T * enhancement (e 0) <= a T ^ 4.
Proof.
  intros H1 H2 HT HI. pose proof (betaR_pos m1 m2 H1 H2) as Hb.
  assert (D : a 0 ^ 4 - 4 * betaR m1 m2 * T * enhancement (e 0) - a T ^ 4 
              <= a 0 ^ 4 - 4 * betaR m1 m2 * 0 * enhancement (e 0) - a 0 ^ 4).
  { apply (decr_by_derivative (fun t => a 0 ^ 4 - 4 * betaR m1 m2 * t * enhancement (e 0) - a t ^ 4)
            (fun t => 4 * betaR m1 m2 * (enhancement (e t) - enhancement (e 0)))); auto.
    - intros t Ht. destruct (HI t Ht) as [A [B [C _]]].
      rewrite peters_da_dt_beta in C by (auto; lra).
      auto_derive.
      + repeat split; auto. exists (- betaR m1 m2 * enhancement (e t) / a t ^ 3). exact C.
      + assert (DC : Derive (fun x : R => a x) t = - betaR m1 m2 * enhancement (e t) / a t ^ 3)
          by (apply is_derive_unique; exact C).
        rewrite DC. field. lra.
    - intros t Ht. destruct (HI t Ht) as [A [B _]].
      assert (E : e t <= e 0).
      { apply (inspiral_e_decr m1 m2 t a e); auto; [lra|]. apply inspiral_restrict with T; auto. }
      assert (enhancement (e t) <= enhancement (e 0)).
      { destruct E as [E|E]; [|rewrite E; lra]. left. apply enhancement_mono; try lra.
        destruct (HI 0) as [_ [B0 _]]; lra. }
      nra. }
  lra.
Qed.
Lemma fR_anti a a' m1 m2 : 0 < m1 -> 0 < m2 -> 0 < a -> a <= a' -> fR a' m1 m2 <= fR a m1 m2.
Proof.
  intros H1 H2 Ha [H| ->]; [|lra]. left.
  apply (kepler_mono_a m1 m2 a a'); auto using fR_pos; apply fR_kepler; lra.
Qed.
