(** StrainFacts.v -- lemmas about strain.py. *)
From Coq Require Import Reals ZArith List Bool Lra Lia.
From Verif Require Import Num NumFacts Np NpFacts Utils Spec UtilsFacts Strain StrainSpec DetectorFacts.
Import ListNotations.
Open Scope R_scope.

(** ** Arrays: entry by entry *)
Definition pop_amp {X} (o : option (X -> angles)) (x : X) : option num :=
  match o with
  | None => None
  | Some g => Some (amplitude_modulation_elem (Fin (lat (g x))) (Fin (lon (g x))) (Fin (psi (g x))) (Fin (inc (g x))))
  end.
Lemma amplitude_modulation_map {X} (g : X -> angles) xs :
  amplitude_modulation (pop_sky xs (Some g)) =
  Ok (map (fun x => amplitude_modulation_elem (Fin (lat (g x))) (Fin (lon (g x))) (Fin (psi (g x))) (Fin (inc (g x)))) xs).
Proof.
  unfold amplitude_modulation, pop_sky. cbn [position inclination polarisation]. rewrite bzip_map. cbn [rbind].
  now rewrite bzip_map.
Qed.
Lemma modulate_map {X T} (o : option (X -> angles)) xs (rw : X -> list T) (v : X -> T -> Z -> num) ns :
  modulate (pop_sky xs o) (map (fun x => map (fun p => map (v x p) ns) (rw x)) xs) =
  Ok (map (fun x => map (fun p => map (fun k => mod_elem (pop_amp o x) (v x p k)) ns) (rw x)) xs).
Proof.
  unfold modulate. destruct o as [g|].
  - change (sky_given (pop_sky xs (Some g))) with true. cbv iota. rewrite amplitude_modulation_map. cbn [rbind].
    unfold bzip3. rewrite map_map, bzipM_map.
    erewrite mapM_ext. 2:{ intros x _. unfold bzip2. rewrite bzipM_single_l.
      erewrite mapM_ext. 2:{ intros r _. apply bzip_single_l. } rewrite mapM_ok, map_map. reflexivity. }
    rewrite mapM_ok. f_equal. apply map_ext. intros x. apply map_ext. intros p. now rewrite map_map.
  - change (sky_given (pop_sky xs None)) with false. cbv iota. reflexivity.
Qed.
Lemma bzip3_parts {X T} xs (rw : X -> list T) (I : X -> T -> num) (D : T -> Z -> num) ns :
  bzip3 nmul (newaxis2 (map (fun x => map (I x) (rw x)) xs)) (map (fun x => map (fun p => map (D p) ns) (rw x)) xs) =
  Ok (map (fun x => map (fun p => map (fun k => nmul (I x p) (D p k)) ns) (rw x)) xs).
Proof.
  unfold bzip3, newaxis2. rewrite map_map, bzipM_map.
  erewrite mapM_ext. 2:{ intros x _. unfold bzip2. rewrite map_map, bzipM_map.
      erewrite mapM_ext. 2:{ intros p _. apply bzip_single_l. } rewrite mapM_ok. reflexivity. }
  rewrite mapM_ok. f_equal. apply map_ext. intros x. apply map_ext. intros p. now rewrite map_map.
Qed.
Lemma n_dependent_rows {X} (dep : Z -> num -> num) ns (rows : X -> list (num * num)) xs :
  n_dependent dep ns (e_rows rows xs) = map (fun x => map (fun p => map (fun k => dep k (snd p)) ns) (rows x)) xs.
Proof. unfold n_dependent, e_rows. rewrite map_map. apply map_ext. intros x. now rewrite map_map. Qed.

Definition harmonics_ok (ns : list Z) : bool := negb (existsb (fun k => (k <? 1)%Z) ns).
Lemma h_0_n_map {X} jv gi (m d : X -> num) rows xs ns o : existsb (fun k => (k <? 1)%Z) ns = false ->
  h_0_n jv gi (map m xs) (f_rows rows xs) (e_rows rows xs) ns (map d xs) (pop_sky xs o) =
  Ok (map (fun x => map (fun p => map (fun k => h0_elem jv gi (m x) (fst p) (snd p) k (d x) (pop_amp o x)) ns) (rows x)) xs).
Proof.
  intros Hn. unfold h_0_n. rewrite Hn. unfold f_rows. rewrite bzip2_col_rows. cbn [rbind].
  rewrite bzip2_rows_col. cbn [rbind].
  rewrite n_dependent_rows.
  replace (map (fun x => map (fun y : num * num => h0_indep (fst y) (snd y) (d x)) (map (fun f => (m x, f)) (map fst (rows x)))) xs)
     with (map (fun x => map (fun p => h0_indep (m x) (fst p) (d x)) (rows x)) xs).
  2:{ apply map_ext. intros x. now rewrite !map_map. }
  rewrite bzip3_parts. cbn [rbind]. now rewrite modulate_map.
Qed.
Lemma bzip2_cols {X A B C} (f : A -> B -> C) (g : X -> A) (h : X -> B) xs :
  bzip2 f (newaxis (map g xs)) (newaxis (map h xs)) = Ok (newaxis (map (fun x => f (g x) (h x)) xs)).
Proof.
  unfold newaxis at 2. rewrite map_map. rewrite bzip2_col_rows. unfold newaxis. now rewrite map_map.
Qed.
Lemma bzip2_rows {X T A B C} (f : A -> B -> C) (rw : X -> list T) (g : X -> T -> A) (h : X -> T -> B) xs :
  bzip2 f (map (fun x => map (g x) (rw x)) xs) (map (fun x => map (h x) (rw x)) xs) =
  Ok (map (fun x => map (fun p => f (g x p) (h x p)) (rw x)) xs).
Proof. unfold bzip2. rewrite bzipM_map. erewrite mapM_ext. 2:{ intros x _. apply bzip_map. } now rewrite mapM_ok. Qed.
Lemma h_c_n_map {X} jv gi (m d : X -> num) rows xs ns o : existsb (fun k => (k <? 1)%Z) ns = false ->
  h_c_n jv gi (map m xs) (f_rows rows xs) (e_rows rows xs) ns (map d xs) (pop_sky xs o) =
  Ok (map (fun x => map (fun p => map (fun k => hc_elem jv gi (m x) (fst p) (snd p) k (d x) (pop_amp o x)) ns) (rows x)) xs).
Proof.
  intros Hn. unfold h_c_n. rewrite Hn. rewrite bzip2_cols. cbn [rbind].
  unfold f_rows. rewrite bzip2_col_rows. cbn [rbind].
  replace (map (fun x => map (fun f : num => (m x, d x, f)) (map fst (rows x))) xs)
     with (map (fun x => map (fun p : num * num => (m x, d x, fst p)) (rows x)) xs).
  2:{ apply map_ext. intros x. now rewrite !map_map. }
  unfold e_rows at 1. rewrite (bzip2_rows _ rows (fun x p => (m x, d x, fst p)) (fun x p => snd p)). cbn [rbind].
  rewrite n_dependent_rows, bzip3_parts. cbn [rbind]. now rewrite modulate_map.
Qed.

(** ** Errors *)
Lemma bad_harmonic ns : existsb (fun k => (k <? 1)%Z) ns = true <-> Exists (fun k => (k < 1)%Z) ns.
Proof.
  rewrite existsb_exists, Exists_exists. split; intros [k [A B]]; exists k; split; auto; [now apply Z.ltb_lt|now apply Z.ltb_lt].
Qed.
Lemma harmonics_rejected jv gi m f e ns d s : Exists (fun k => (k < 1)%Z) ns ->
  h_0_n jv gi m f e ns d s = Err ValueError /\ h_c_n jv gi m f e ns d s = Err ValueError.
Proof. intros H. apply bad_harmonic in H. unfold h_0_n, h_c_n. rewrite H. auto. Qed.
Lemma harmonics_accepted {X} jv gi (m d : X -> num) rows xs ns o : List.Forall (fun k => (1 <= k)%Z) ns ->
  (exists h, h_0_n jv gi (map m xs) (f_rows rows xs) (e_rows rows xs) ns (map d xs) (pop_sky xs o) = Ok h) /\
  (exists h, h_c_n jv gi (map m xs) (f_rows rows xs) (e_rows rows xs) ns (map d xs) (pop_sky xs o) = Ok h).
Proof.
  intros H. assert (E : existsb (fun k => (k <? 1)%Z) ns = false).
  { destruct (existsb (fun k => (k <? 1)%Z) ns) eqn:E; auto. apply bad_harmonic in E. apply Exists_exists in E.
    destruct E as [k [A B]]. rewrite Forall_forall in H. specialize (H k A). lia. }
  split; eexists; [now apply h_0_n_map|now apply h_c_n_map].
Qed.

Lemma one_ok k : (1 <= k)%Z -> existsb (fun k => (k <? 1)%Z) [k] = false.
Proof. intros H. simpl. destruct (Z.ltb_spec k 1); auto; lia. Qed.
Lemma h_0_one {X} jv gi (m d : X -> num) p k o x : (1 <= k)%Z ->
  h_0_n jv gi [m x] [[fst p]] [[snd p]] [k] [d x] (pop_sky [x] o) =
  Ok [[[h0_elem jv gi (m x) (fst p) (snd p) k (d x) (pop_amp o x)]]].
Proof. intros H. exact (h_0_n_map jv gi m d (fun _ => [p]) [x] [k] o (one_ok k H)). Qed.
Lemma h_c_one {X} jv gi (m d : X -> num) p k o x : (1 <= k)%Z ->
  h_c_n jv gi [m x] [[fst p]] [[snd p]] [k] [d x] (pop_sky [x] o) =
  Ok [[[hc_elem jv gi (m x) (fst p) (snd p) k (d x) (pop_amp o x)]]].
Proof. intros H. exact (h_c_n_map jv gi m d (fun _ => [p]) [x] [k] o (one_ok k H)). Qed.
(** C33 *)
Lemma Forall_ok ns : List.Forall (fun k => (1 <= k)%Z) ns -> existsb (fun k => (k <? 1)%Z) ns = false.
Proof.
  intros H. destruct (existsb (fun k => (k <? 1)%Z) ns) eqn:E; auto. apply bad_harmonic in E. apply Exists_exists in E.
  destruct E as [k [A B]]. rewrite Forall_forall in H. specialize (H k A). lia.
Qed.
Lemma strain_local X jv gi (m d : X -> num) rows xs ns (o : option (X -> angles)) : List.Forall (fun k => (1 <= k)%Z) ns ->
  exists v w : X -> num * num -> Z -> num,
    h_0_n jv gi (map m xs) (f_rows rows xs) (e_rows rows xs) ns (map d xs) (pop_sky xs o)
      = Ok (map (fun x => map (fun p => map (v x p) ns) (rows x)) xs) /\
    h_c_n jv gi (map m xs) (f_rows rows xs) (e_rows rows xs) ns (map d xs) (pop_sky xs o)
      = Ok (map (fun x => map (fun p => map (w x p) ns) (rows x)) xs) /\
    forall x p k, (1 <= k)%Z ->
      h_0_n jv gi [m x] [[fst p]] [[snd p]] [k] [d x] (pop_sky [x] o) = Ok [[[v x p k]]] /\
      h_c_n jv gi [m x] [[fst p]] [[snd p]] [k] [d x] (pop_sky [x] o) = Ok [[[w x p k]]].
Proof.
  intros H. apply Forall_ok in H.
  exists (fun x p k => h0_elem jv gi (m x) (fst p) (snd p) k (d x) (pop_amp o x)),
         (fun x p k => hc_elem jv gi (m x) (fst p) (snd p) k (d x) (pop_amp o x)).
  split; [now apply h_0_n_map|]. split; [now apply h_c_n_map|]. intros x p k Hk.
  split; [now apply h_0_one|now apply h_c_one].
Qed.

(** ** Values *)
Definition ampR (o : option angles) : R :=
  match o with None => 1 | Some g => modR (lat g) (lon g) (psi g) (inc g) end.
Lemma ampR_bounds o : 0 <= ampR o <= 1.
Proof. destruct o as [g|]; simpl; [pose proof (modR_bounds (lat g) (lon g) (psi g) (inc g))|]; lra. Qed.
Lemma mod_elem_fin (o : option angles) x :
  mod_elem (pop_amp (option_map (fun g (_ : unit) => g) o) tt) (Fin x) = Fin (sqrt (ampR o) * x).
Proof.
  destruct o as [g|]; simpl.
  - rewrite mod_fin, nsqrt_fin, nmul_fin; auto. apply modR_bounds.
  - rewrite sqrt_1. f_equal. ring.
Qed.
Definition h0R m f d g n : R := sqrt (Rpower 2 (28/3) / 5) * Rpower Ggrav (5/3) / clight ^ 4 * Rpower m (5/3)
                                * Rpower (PI * f) (2/3) / d * (sqrt g / IZR n).
Definition hcR m f e d g n : R := sqrt (Rpower 2 (5/3) / (3 * Rpower PI (4/3))) * Rpower Ggrav (5/6) / Rpower clight (3/2)
                                * Rpower m (5/6) / d * Rpower f (-1/6) / sqrt (enhancement e) * sqrt (g / IZR n).
Lemma g_value_used jv gi n e g : (1 <= n)%Z -> 0 <= e <= 1 -> power_used jv gi n e g -> g_value jv gi n (Fin e) = Fin g /\ 0 <= g.
Proof.
  intros Hn He H. destruct gi as [gi|]; simpl in H |- *.
  - destruct H as [v [Hv ->]]. rewrite Hv. destruct (Rlt_le_dec v 0) as [L|L].
    + rewrite nlt_t by auto. rewrite Rmax_right by lra. split; auto; lra.
    + rewrite nlt_f by auto. rewrite Rmax_left by lra. split; auto.
  - split; auto. pose proof (peters_g_nonneg jv n e Hn ltac:(lra)) as N. rewrite H in N. unfold nonneg in N.
    destruct (Rlt_le_dec g 0) as [L|L]; auto. rewrite nlt_t in N by auto. discriminate.
Qed.
Lemma IZR_pos n : (1 <= n)%Z -> 0 < IZR n.
Proof. intros H. apply IZR_lt. lia. Qed.
Lemma h0_indep_fin m f d : 0 < m -> 0 < f -> 0 < d -> h0_indep (Fin m) (Fin f) (Fin d) =
  Fin (sqrt (Rpower 2 (28/3) / 5) * Rpower Ggrav (5/3) / clight ^ 4 * Rpower m (5/3) * Rpower (PI * f) (2/3) / d).
Proof.
  intros Hm Hf Hd. unfold h0_indep, h0_prefac.
  assert (0 < Rpower 2 (28/3)) by apply Rpower_pos. pose proof Ggrav_pos. pose proof clight_pos. pose proof PI_RGT_0.
  assert (0 < PI * f) by pos.
  rewrite nsqrt_fin by lra. rewrite npowi4.
  repeat first [rewrite nmul_fin | rewrite npowr_fin by auto | rewrite ndiv_fin by (apply Rgt_not_eq; pos)]. reflexivity.
Qed.
Lemma h0_fin jv gi m f e n d g o : 0 < m -> 0 < f -> 0 < d -> 0 <= e <= 1 -> (1 <= n)%Z -> power_used jv gi n e g ->
  h0_elem jv gi (Fin m) (Fin f) (Fin e) n (Fin d) (pop_amp (option_map (fun g (_ : unit) => g) o) tt)
  = Fin (sqrt (ampR o) * h0R m f d g n) /\ 0 <= g.
Proof.
  intros Hm Hf Hd He Hn Hg. destruct (g_value_used _ _ _ _ _ Hn He Hg) as [G0 G1]. split; auto.
  pose proof (IZR_pos n Hn). unfold h0_elem, h0_dep. rewrite G0, h0_indep_fin by auto. unfold nZ.
  rewrite nsqrt_fin, ndiv_fin, nmul_fin by (auto; lra). apply mod_elem_fin.
Qed.
Lemma hc_indep_fin m f e d : 0 < m -> 0 < f -> 0 < d -> 0 <= e < 1 -> hc_indep (Fin m) (Fin f) (Fin e) (Fin d) =
  Fin (sqrt (Rpower 2 (5/3) / (3 * Rpower PI (4/3))) * Rpower Ggrav (5/6) / Rpower clight (3/2)
       * Rpower m (5/6) / d * Rpower f (-1/6) / sqrt (enhancement e)).
Proof.
  intros Hm Hf Hd He. unfold hc_indep, hc_prefac.
  pose proof Ggrav_pos. pose proof clight_pos. pose proof (enhancement_pos e He).
  assert (0 < Rpower 2 (5/3) / (3 * Rpower PI (4/3))) by (pos).
  assert (0 < sqrt (enhancement e)) by (now apply sqrt_lt_R0).
  rewrite peters_f_fin by lra. rewrite !nsqrt_fin by lra.
  repeat first [rewrite nmul_fin | rewrite npowr_fin by auto | rewrite ndiv_fin by (apply Rgt_not_eq; pos)]. reflexivity.
Qed.
Lemma hc_fin jv gi m f e n d g o : 0 < m -> 0 < f -> 0 < d -> 0 <= e < 1 -> (1 <= n)%Z -> power_used jv gi n e g ->
  hc_elem jv gi (Fin m) (Fin f) (Fin e) n (Fin d) (pop_amp (option_map (fun g (_ : unit) => g) o) tt)
  = Fin (sqrt (ampR o) * hcR m f e d g n) /\ 0 <= g.
Proof.
  intros Hm Hf Hd He Hn Hg. destruct (g_value_used jv gi n e g Hn ltac:(lra) Hg) as [G0 G1]. split; auto.
  pose proof (IZR_pos n Hn). unfold hc_elem, hc_dep. rewrite G0, hc_indep_fin by auto. unfold nZ.
  assert (0 <= g / IZR n) by (apply Rmult_le_pos; auto; left; now apply Rinv_0_lt_compat).
  rewrite ndiv_fin by lra. rewrite nsqrt_fin, nmul_fin by auto. apply mod_elem_fin.
Qed.
Lemma h_0_single_fin jv gi m f e n d g o : 0 < m -> 0 < f -> 0 < d -> 0 <= e <= 1 -> (1 <= n)%Z -> power_used jv gi n e g ->
  h_0_single jv gi m f e n d o = Ok [[[Fin (sqrt (ampR o) * h0R m f d g n)]]].
Proof.
  intros. unfold h_0_single.
  rewrite (h_0_one jv gi (fun _ : unit => Fin m) (fun _ => Fin d) (Fin f, Fin e) n _ tt) by auto.
  cbn [fst snd]. now rewrite (proj1 (h0_fin jv gi m f e n d g o H H0 H1 H2 H3 H4)).
Qed.
Lemma h_c_single_fin jv gi m f e n d g o : 0 < m -> 0 < f -> 0 < d -> 0 <= e < 1 -> (1 <= n)%Z -> power_used jv gi n e g ->
  h_c_single jv gi m f e n d o = Ok [[[Fin (sqrt (ampR o) * hcR m f e d g n)]]].
Proof.
  intros. unfold h_c_single.
  rewrite (h_c_one jv gi (fun _ : unit => Fin m) (fun _ => Fin d) (Fin f, Fin e) n _ tt) by auto.
  cbn [fst snd]. now rewrite (proj1 (hc_fin jv gi m f e n d g o H H0 H1 H2 H3 H4)).
Qed.

(** *** squares *)
Lemma h0R_sqr m f d g n : 0 < m -> 0 < f -> 0 < d -> 0 <= g -> (1 <= n)%Z ->
  (h0R m f d g n) ^ 2 = Rpower 2 (28/3) / 5 * Rpower Ggrav (10/3) / clight ^ 8 * Rpower m (10/3) * Rpower (PI * f) (4/3) / d ^ 2 * g / IZR n ^ 2.
Proof.
  intros Hm Hf Hd Hg Hn. pose proof (IZR_pos n Hn). unfold h0R.
  assert (S1 : sqrt (Rpower 2 (28/3) / 5) ^ 2 = Rpower 2 (28/3) / 5) by (apply pow2_sqrt; left; pos).
  assert (S2 : sqrt g ^ 2 = g) by (now apply pow2_sqrt).
  assert (P : forall x y z, y = 2 * z -> Rpower x y = Rpower x z ^ 2).
  { intros x y z ->. replace (2 * z) with (z + z) by ring. rewrite Rpower_plus. ring. }
  rewrite (P Ggrav (10/3) (5/3)), (P m (10/3) (5/3)), (P (PI * f) (4/3) (2/3)) by lra.
  rewrite <- S1, <- S2 at 2. pose proof clight_pos. field. lra.
Qed.
Lemma hcR_sqr m f e d g n : 0 < m -> 0 < f -> 0 < d -> 0 <= e < 1 -> 0 <= g -> (1 <= n)%Z ->
  (hcR m f e d g n) ^ 2 = Rpower 2 (5/3) / (3 * Rpower PI (4/3)) * Rpower Ggrav (5/3) / clight ^ 3 * Rpower m (5/3) / d ^ 2
                          * Rpower f (-1/3) / enhancement e * g / IZR n.
Proof.
  intros Hm Hf Hd He Hg Hn. pose proof (IZR_pos n Hn). pose proof (enhancement_pos e He) as HF. unfold hcR.
  assert (S1 : sqrt (Rpower 2 (5/3) / (3 * Rpower PI (4/3))) ^ 2 = Rpower 2 (5/3) / (3 * Rpower PI (4/3))) by (apply pow2_sqrt; left; pos).
  assert (S2 : sqrt (g / IZR n) ^ 2 = g / IZR n).
  { apply pow2_sqrt. apply Rmult_le_pos; auto; left; now apply Rinv_0_lt_compat. }
  assert (S3 : sqrt (enhancement e) ^ 2 = enhancement e) by (apply pow2_sqrt; lra).
  assert (P : forall x y z, y = 2 * z -> Rpower x y = Rpower x z ^ 2).
  { intros x y z ->. replace (2 * z) with (z + z) by ring. rewrite Rpower_plus. ring. }
  assert (C : clight ^ 3 = Rpower clight (3/2) ^ 2).
  { rewrite <- (P clight 3 (3/2)) by lra. rewrite <- (Rpower_pow 3) by apply clight_pos. f_equal. simpl. ring. }
  rewrite (P Ggrav (5/3) (5/6)), (P m (5/3) (5/6)), (P f (-1/3) (-1/6)) by lra. rewrite C.
  replace (Rpower 2 (5 / 3) / (3 * Rpower PI (4 / 3)) * Rpower Ggrav (5 / 6) ^ 2 / Rpower clight (3 / 2) ^ 2 *
    Rpower m (5 / 6) ^ 2 / d ^ 2 * Rpower f (-1 / 6) ^ 2 / enhancement e * g / IZR n) with
    ((Rpower 2 (5 / 3) / (3 * Rpower PI (4 / 3))) * (Rpower Ggrav (5 / 6) ^ 2 / Rpower clight (3 / 2) ^ 2 *
    Rpower m (5 / 6) ^ 2 / d ^ 2 * Rpower f (-1 / 6) ^ 2 / enhancement e) * (g / IZR n)).
  2:{ field. repeat split; try lra; apply Rpower_neq0. }
  rewrite <- S1, <- S2, <- S3 at 2. field.
  assert (0 < sqrt (enhancement e)) by (now apply sqrt_lt_R0).
  repeat split; try lra; apply Rpower_neq0.
Qed.

(** C28 *)
Lemma strain_identity m f e d g n : 0 < m -> 0 < f -> 0 < d -> 0 <= e < 1 -> 0 <= g -> (1 <= n)%Z ->
  (hcR m f e d g n) ^ 2 * fdotR m f e n = (IZR n * f) ^ 2 * (h0R m f d g n) ^ 2.
Proof.
  intros Hm Hf Hd He Hg Hn. rewrite h0R_sqr, hcR_sqr by auto. pose proof (IZR_pos n Hn) as Hn'.
  pose proof (enhancement_pos e He) as HF. unfold fdotR. pose proof clight_pos. pose proof Ggrav_pos. pose proof PI_RGT_0.
  assert (K : Rpower 2 (5/3) / (3 * Rpower PI (4/3)) * Rpower Ggrav (5/3) / clight ^ 3 * Rpower m (5/3) * Rpower f (-1/3)
              * (48 / (5 * PI) * Rpower (Ggrav * m) (5/3) / clight ^ 5 * Rpower (2 * PI * f) (11/3))
              = f ^ 2 * (Rpower 2 (28/3) / 5 * Rpower Ggrav (10/3) / clight ^ 8 * Rpower m (10/3) * Rpower (PI * f) (4/3))).
  { replace (clight ^ 8) with (clight ^ 3 * clight ^ 5) by ring.
    apply ln_inv; [pos|pos|]. lnexp. replace (ln 48) with (4 * ln 2 + ln 3).
    - field.
    - replace 48 with (2 ^ 4 * 3) by ring. rewrite ln_mult, ln_pow4 by lra. reflexivity. }
  transitivity (Rpower 2 (5/3) / (3 * Rpower PI (4/3)) * Rpower Ggrav (5/3) / clight ^ 3 * Rpower m (5/3) * Rpower f (-1/3)
              * (48 / (5 * PI) * Rpower (Ggrav * m) (5/3) / clight ^ 5 * Rpower (2 * PI * f) (11/3)) / d ^ 2 * g).
  - field. repeat split; try lra; apply Rpower_neq0.
  - rewrite K. field. lra.
Qed.
Lemma strain_relation jv gi m f e d g n o : 0 < m -> 0 < f -> 0 < d -> 0 <= e < 1 -> (1 <= n)%Z -> power_used jv gi n e g ->
  exists h0 hc fd, h_0_single jv gi m f e n d o = Ok [[[Fin h0]]] /\ h_c_single jv gi m f e n d o = Ok [[[Fin hc]]] /\
    fn_dot (Fin m) (Fin f) (Fin e) [n] = Ok [Fin fd] /\ hc ^ 2 * fd = (IZR n * f) ^ 2 * h0 ^ 2.
Proof.
  intros Hm Hf Hd He Hn Hg. destruct (g_value_used jv gi n e g Hn ltac:(lra) Hg) as [_ G1].
  exists (sqrt (ampR o) * h0R m f d g n), (sqrt (ampR o) * hcR m f e d g n), (fdotR m f e n).
  split; [apply h_0_single_fin; auto; lra|]. split; [apply h_c_single_fin; auto|]. split.
  - unfold fn_dot. simpl. destruct (Z.ltb_spec n 1); [lia|]. simpl. now rewrite fn_dot_elem_fin by (auto; lra).
  - pose proof (strain_identity m f e d g n Hm Hf Hd He G1 Hn) as K. rewrite !Rpow_mult_distr.
    rewrite Rmult_assoc, K. rewrite Rpow_mult_distr. ring.
Qed.

(** C29 *)
Lemma strain_luminosity jv gi m f e d g n : 0 < m -> 0 < f -> 0 < d -> 0 <= e <= 1 -> (1 <= n)%Z -> power_used jv gi n e g ->
  exists h, h_0_single jv gi m f e n d None = Ok [[[Fin h]]] /\ 0 <= h /\
    wave_power (IZR n * f) h d = harmonic_luminosity m f g.
Proof.
  intros Hm Hf Hd He Hn Hg. destruct (g_value_used jv gi n e g Hn He Hg) as [_ G1].
  exists (h0R m f d g n). split; [|split].
  - rewrite (h_0_single_fin jv gi m f e n d g None) by auto. simpl. rewrite sqrt_1. do 5 f_equal. ring.
  - unfold h0R. pose proof (IZR_pos n Hn). apply Rmult_le_pos.
    + left. pose proof Ggrav_pos. pose proof clight_pos. pose proof PI_RGT_0.
      apply Rdiv_lt_0_compat; auto. apply Rmult_lt_0_compat; [|pos]. apply Rmult_lt_0_compat; [|pos].
      apply Rdiv_lt_0_compat; [|pos]. apply Rmult_lt_0_compat; [|pos]. apply sqrt_lt_R0. pos.
    + apply Rmult_le_pos; [apply sqrt_pos|]. left. now apply Rinv_0_lt_compat.
  - unfold wave_power, harmonic_luminosity. rewrite h0R_sqr by auto. rewrite G_SI_Ggrav, c_SI_clight.
    pose proof (IZR_pos n Hn). pose proof Ggrav_pos. pose proof clight_pos. pose proof PI_RGT_0.
    assert (K : PI ^ 2 * clight ^ 3 / (2 * Ggrav) * f ^ 2 *
       (Rpower 2 (28/3) / 5 * Rpower Ggrav (10/3) / clight ^ 8 * Rpower m (10/3) * Rpower (PI * f) (4/3))
       = 32 / 5 * clight ^ 5 / Ggrav * Rpower (2 * PI * Ggrav * m * f / clight ^ 3) (10 / 3)).
    { replace (clight ^ 8) with (clight ^ 3 * clight ^ 5) by ring.
      apply ln_inv; [pos|pos|]. lnexp. replace (ln 32) with (5 * ln 2); [field|].
      replace 32 with (2 ^ 5) by ring. rewrite ln_pow5 by lra. reflexivity. }
    rewrite <- K. field. lra.
Qed.
Lemma h0R_scale_d k m f d g n : 0 < k -> 0 < d -> (1 <= n)%Z -> h0R m f (k * d) g n = h0R m f d g n / k.
Proof. intros. pose proof (IZR_pos n H1). pose proof clight_pos. unfold h0R. field. lra. Qed.
Lemma h0R_scale_m k m f d g n : 0 < k -> 0 < m -> h0R (k * m) f d g n = Rpower k (5/3) * h0R m f d g n.
Proof. intros. unfold h0R. rewrite <- Rpower_mult_distr by auto. unfold Rdiv. ring. Qed.
Lemma h0R_scale_f k m f d g n : 0 < k -> 0 < f -> h0R m (k * f) d g n = Rpower k (2/3) * h0R m f d g n.
Proof.
  intros. unfold h0R. replace (PI * (k * f)) with (k * (PI * f)) by ring. pose proof PI_RGT_0.
  rewrite <- Rpower_mult_distr by (auto; pos). unfold Rdiv. ring.
Qed.
Lemma strain_scaling jv gi m f e d g n o k : 0 < m -> 0 < f -> 0 < d -> 0 <= e <= 1 -> (1 <= n)%Z -> 0 < k -> power_used jv gi n e g ->
  exists h, h_0_single jv gi m f e n d o = Ok [[[Fin h]]] /\
    h_0_single jv gi m f e n (k * d) o = Ok [[[Fin (h / k)]]] /\
    h_0_single jv gi (k * m) f e n d o = Ok [[[Fin (Rpower k (5/3) * h)]]] /\
    h_0_single jv gi m (k * f) e n d o = Ok [[[Fin (Rpower k (2/3) * h)]]].
Proof.
  intros Hm Hf Hd He Hn Hk Hg. exists (sqrt (ampR o) * h0R m f d g n).
  assert (0 < k * d) by pos. assert (0 < k * m) by pos. assert (0 < k * f) by pos.
  repeat split; rewrite (h_0_single_fin _ _ _ _ _ _ _ g) by auto; auto; do 5 f_equal.
  - rewrite h0R_scale_d by auto. unfold Rdiv. ring.
  - rewrite h0R_scale_m by auto. ring.
  - rewrite h0R_scale_f by auto. ring.
Qed.

(** C30 *)
Lemma circular_harmonics jv J m f d n o : (forall k x, jv k (Fin x) = Fin (J k x)) ->
  (forall k, J k 0 = if (k =? 0)%Z then 1 else 0) -> 0 < m -> 0 < f -> 0 < d -> (1 <= n)%Z ->
  exists h0 hc, h_0_single jv None m f 0 n d o = Ok [[[Fin h0]]] /\ h_c_single jv None m f 0 n d o = Ok [[[Fin hc]]] /\
    (n <> 2%Z -> h0 = 0 /\ hc = 0) /\ (n = 2%Z -> o = None -> 0 < h0 /\ 0 < hc).
Proof.
  intros HJ H0 Hm Hf Hd Hn.
  assert (G : power_used jv None n 0 (if (n =? 2)%Z then 1 else 0)).
  { simpl. rewrite (peters_g_fin jv J n 0 HJ Hn). f_equal. now apply gR_at_0. }
  set (g := if (n =? 2)%Z then 1 else 0) in *.
  exists (sqrt (ampR o) * h0R m f d g n), (sqrt (ampR o) * hcR m f 0 d g n).
  split; [apply h_0_single_fin; auto; lra|]. split; [apply h_c_single_fin; auto; lra|]. split.
  - intros N. assert (E : g = 0) by (unfold g; destruct (Z.eqb_spec n 2); [congruence|auto]). rewrite E.
    unfold h0R, hcR, Rdiv. rewrite Rmult_0_l, !sqrt_0, !Rmult_0_l, !Rmult_0_r. auto.
  - intros -> ->. assert (E : g = 1) by reflexivity. rewrite E. simpl. rewrite sqrt_1, !Rmult_1_l.
    pose proof Ggrav_pos. pose proof clight_pos. pose proof PI_RGT_0.
    assert (0 < sqrt (Rpower 2 (28/3) / 5)) by (apply sqrt_lt_R0; pos).
    assert (0 < sqrt (Rpower 2 (5/3) / (3 * Rpower PI (4/3)))) by (apply sqrt_lt_R0; pos).
    assert (0 < sqrt (enhancement 0)) by (apply sqrt_lt_R0, enhancement_pos; lra).
    assert (0 < sqrt (1 / 2)) by (apply sqrt_lt_R0; lra).
    unfold h0R, hcR. rewrite sqrt_1. split; pos.
Qed.

(** C31 *)
Lemma negative_power jv gi m f e n d o v : 0 < m -> 0 < f -> 0 < d -> 0 <= e < 1 -> (1 <= n)%Z ->
  gi n (Fin e) = Fin v -> v < 0 ->
  h_0_single jv (Some gi) m f e n d o = Ok [[[Fin 0]]] /\ h_c_single jv (Some gi) m f e n d o = Ok [[[Fin 0]]].
Proof.
  intros Hm Hf Hd He Hn Hv L. assert (G : power_used jv (Some gi) n e 0).
  { exists v. split; auto. rewrite Rmax_right; lra. }
  rewrite (h_0_single_fin jv (Some gi) m f e n d 0 o), (h_c_single_fin jv (Some gi) m f e n d 0 o) by (auto; lra).
  unfold h0R, hcR, Rdiv. rewrite Rmult_0_l, !sqrt_0, !Rmult_0_l, !Rmult_0_r. auto.
Qed.
Lemma clipped_interpolation jv gi m f e ns d s :
  let clip n x := nmax (gi n x) (Fin 0) in (forall n x, gi n x <> NaN) ->
  h_0_n jv (Some gi) m f e ns d s = h_0_n jv (Some clip) m f e ns d s /\
  h_c_n jv (Some gi) m f e ns d s = h_c_n jv (Some clip) m f e ns d s.
Proof.
  intros clip Hnan.
  assert (G : forall n x, g_value jv (Some gi) n x = g_value jv (Some clip) n x).
  { intros n x. unfold g_value, clip. specialize (Hnan n x). destruct (gi n x) as [r| | |]; try congruence.
    - rewrite nmax_fin. destruct (Rlt_le_dec r 0).
      + rewrite nlt_t, Rmax_right, nlt_f by lra. auto.
      + rewrite nlt_f, Rmax_left, nlt_f by lra. auto.
    - simpl. reflexivity.
    - cbn [nmax nle]. change (nlt NInf (Fin 0)) with true. cbn iota. rewrite nlt_f by lra. reflexivity. }
  assert (N : forall dep dep' : Z -> num -> num, (forall k x, dep k x = dep' k x) -> n_dependent dep ns e = n_dependent dep' ns e).
  { intros dep dep' H. unfold n_dependent. apply map_ext. intros r. apply map_ext. intros x. apply map_ext. intros k. apply H. }
  unfold h_0_n, h_c_n.
  rewrite (N (h0_dep jv (Some gi)) (h0_dep jv (Some clip))), (N (hc_dep jv (Some gi)) (hc_dep jv (Some clip))); auto.
  - intros k x. unfold hc_dep. now rewrite G.
  - intros k x. unfold h0_dep. now rewrite G.
Qed.

(** C12 *)
Lemma located_strain jv gi m f e n d g a : 0 < m -> 0 < f -> 0 < d -> 0 <= e < 1 -> (1 <= n)%Z -> power_used jv gi n e g ->
  exists h h' c c', h_0_single jv gi m f e n d None = Ok [[[Fin h]]] /\ h_0_single jv gi m f e n d (Some a) = Ok [[[Fin h']]] /\
    h_c_single jv gi m f e n d None = Ok [[[Fin c]]] /\ h_c_single jv gi m f e n d (Some a) = Ok [[[Fin c']]] /\
    0 <= h' <= h /\ 0 <= c' <= c /\ (0 < g -> h' < h /\ c' < c).
Proof.
  intros Hm Hf Hd He Hn Hg. destruct (g_value_used jv gi n e g Hn ltac:(lra) Hg) as [_ G1].
  pose proof (strain_luminosity jv gi m f e d g n Hm Hf Hd ltac:(lra) Hn Hg) as [h [H0 [H1 _]]].
  rewrite (h_0_single_fin jv gi m f e n d g None) in H0 by (auto; lra). inversion H0 as [H0']. clear H0.
  change (ampR None) with 1 in H0'. rewrite sqrt_1, Rmult_1_l in H0'.
  exists (sqrt 1 * h0R m f d g n), (sqrt (ampR (Some a)) * h0R m f d g n), (sqrt 1 * hcR m f e d g n), (sqrt (ampR (Some a)) * hcR m f e d g n).
  split; [apply (h_0_single_fin jv gi m f e n d g None); auto; lra|]. split; [apply h_0_single_fin; auto; lra|].
  split; [apply (h_c_single_fin jv gi m f e n d g None); auto; lra|]. split; [apply h_c_single_fin; auto; lra|].
  pose proof (modR_bounds (lat a) (lon a) (psi a) (inc a)) as M. change (ampR (Some a)) with (modR (lat a) (lon a) (psi a) (inc a)).
  set (q := modR (lat a) (lon a) (psi a) (inc a)) in *. rewrite sqrt_1.
  assert (S : 0 <= sqrt q < 1). { split; [apply sqrt_pos|]. rewrite <- sqrt_1. apply sqrt_lt_1; lra. }
  assert (P : 0 <= h0R m f d g n) by lra.
  pose proof Ggrav_pos. pose proof clight_pos. pose proof PI_RGT_0. pose proof (IZR_pos n Hn) as Hn'.
  assert (0 < sqrt (Rpower 2 (28/3) / 5)) by (apply sqrt_lt_R0; pos).
  assert (0 < sqrt (Rpower 2 (5/3) / (3 * Rpower PI (4/3)))) by (apply sqrt_lt_R0; pos).
  assert (0 < sqrt (enhancement e)) by (apply sqrt_lt_R0, enhancement_pos; lra).
  assert (Q : 0 <= hcR m f e d g n).
  { unfold hcR. apply Rmult_le_pos; [left; pos|apply sqrt_pos]. }
  split; [nra|]. split; [nra|]. intros Gp.
  assert (P' : 0 < h0R m f d g n).
  { assert (0 < sqrt g) by (now apply sqrt_lt_R0). unfold h0R. pos. }
  assert (Q' : 0 < hcR m f e d g n).
  { assert (0 < sqrt (g / IZR n)) by (apply sqrt_lt_R0; pos). unfold hcR. pos. }
  split; nra.
Qed.
Lemma circular_amplitude jv J m f d : (forall k x, jv k (Fin x) = Fin (J k x)) ->
  (forall k, J k 0 = if (k =? 0)%Z then 1 else 0) -> 0 < m -> 0 < f -> 0 < d ->
  h_0_single jv None m f 0 2 d None =
    Ok [[[Fin (sqrt (Rpower 2 (28/3) / 5) / 2 * Rpower (G_SI * m) (5/3) * Rpower (PI * f) (2/3) / (c_SI ^ 4 * d))]]].
Proof.
  intros HJ H0 Hm Hf Hd. pose proof Ggrav_pos. pose proof clight_pos.
  rewrite (h_0_single_fin jv None m f 0 2 d 1 None); auto; try lra; try lia.
  - simpl ampR. do 5 f_equal. unfold h0R. rewrite G_SI_Ggrav, c_SI_clight. rewrite <- (Rpower_mult_distr Ggrav m) by auto.
    rewrite sqrt_1. change (IZR 2) with 2. field. lra.
  - simpl. rewrite (peters_g_fin jv J 2 0 HJ) by lia. f_equal. rewrite gR_at_0 by (auto; lia). reflexivity.
Qed.
