(** SnrThms.v -- the property-level lemmas about the SNR functions. *)
From Coq Require Import String Reals ZArith List Bool Lra Lia FinFun.
From Verif Require Import Num NumFacts Np NpFacts Utils Spec UtilsFacts Strain DetectorFacts Evol EvolSpec EvolFacts MergeFacts ArrEvolFacts CircFacts EccEvolFacts LocalFacts
  StrainSpec StrainFacts Psd PsdSpec PsdFacts PsdThms ArgFacts ScaleFacts Snr SnrSpec SnrFacts.
Import ListNotations.
Open Scope R_scope.

(** *** C40: quadrature sum *)
Lemma argmax_axis1_rows {X} (r : X -> list num) xs : (forall x, r x <> []) -> argmax_axis1 (map r xs) = Ok (map (fun x => loudest (r x)) xs).
Proof.
  intros H. unfold argmax_axis1. change (existsb _ (map r xs)) with (has_empty_row (map r xs)).
  rewrite no_empty_row by auto. now rewrite map_map.
Qed.
Lemma returned_flags {X} (r : X -> list num) xs hr : (forall x, length (r x) = hr) ->
  exists rows, length rows = length xs /\ List.Forall (fun r => length r = hr) rows /\
    (forall rm, returned rm true (map r xs) = Ok (Snr2 rows)) /\
    returned false false (map r xs) = Ok (Snr (snr_of_rows rows)) /\
    ((1 <= hr)%nat -> exists hs, length hs = length xs /\ returned true false (map r xs) = Ok (SnrMax (snr_of_rows rows) hs)).
Proof.
  intros H. exists (map r xs). split; [apply map_length|]. split; [|split; [|split]]; auto.
  - apply Forall_forall. intros y Hy. apply in_map_iff in Hy. destruct Hy as [x [<- _]]. auto.
  - intros Hh. exists (map (fun x => loudest (r x)) xs). split; [apply map_length|]. unfold returned.
    rewrite argmax_axis1_rows; [reflexivity|]. intros x E. specialize (H x). rewrite E in H. cbn in H. lia.
Qed.
Lemma flags_stationary w jv gi X (m f e d : X -> num) xs t hr sc kw p : noise_curve w kw sc t p ->
  let call rm r2 := snr_ecc_stationary w jv gi (map m xs) (map f xs) (map e xs) (map d xs) (Fin t) hr sc rm r2 kw in
  exists rows, length rows = length xs /\ List.Forall (fun r => length r = hr) rows /\
    (forall rm, call rm true = Ok (Snr2 rows)) /\ call false false = Ok (Snr (snr_of_rows rows)) /\
    ((1 <= hr)%nat -> exists hs, length hs = length xs /\ call true false = Ok (SnrMax (snr_of_rows rows) hs)).
Proof.
  intros Hp call. unfold call.
  destruct (returned_flags (fun x => map (st_elem jv gi (Fin t) p (m x) (f x) (e x) (d x) None) (arange1 hr)) xs hr) as [rows H].
  { intros x. now rewrite map_length, arange1_length. }
  exists rows. destruct H as [H1 [H2 [H3 [H4 H5]]]]. repeat split; auto; intros; rewrite ?(ecc_stationary_map _ _ _ _ _ _ _ _ _ _ _ _ _ _ p) by auto; auto.
Qed.
Lemma flags_evolving w jv gi quad odeint sched n_proc X (m1 m2 f d e : X -> num) xs hr t n (tm : option (X -> num)) sc kw p :
  noise_curve w kw sc t p -> (1 <= n)%nat -> odeint_shape odeint -> ((1 < n_proc)%nat -> complete_schedule (length xs) sched) ->
  (forall x, In x xs -> exists r, e x = Fin r /\ 0 <= r <= 1) ->
  let call rm r2 := snr_ecc_evolving w jv gi quad odeint sched (map m1 xs) (map m2 xs) (map f xs) (map d xs) (map e xs) hr (Fin t) n (option_map (fun g => map g xs) tm) sc n_proc rm r2 kw in
  exists rows, length rows = length xs /\ List.Forall (fun r => length r = hr) rows /\
    (forall rm, call rm true = Ok (Snr2 rows)) /\ call false false = Ok (Snr (snr_of_rows rows)) /\
    ((1 <= hr)%nat -> exists hs, length hs = length xs /\ call true false = Ok (SnrMax (snr_of_rows rows) hs)).
Proof.
  intros Hp Hn Hod Hs He call. unfold call. fold (otm xs tm).
  set (r := fun x => map (ev_snr2 jv gi p (chirp_mass (m1 x) (m2 x)) (d x)
        (ecc_track odeint (m1 x) (m2 x) (f x) (e x) (match tm with Some g => g x | None => ecc_tm quad (m1 x) (m2 x) (f x) (e x) end) (Fin t) n)) (arange1 hr)).
  destruct (returned_flags r xs hr) as [rows H].
  { intros x. unfold r. now rewrite map_length, arange1_length. }
  exists rows. destruct H as [H1 [H2 [H3 [H4 H5]]]].
  assert (E : forall rm r2, snr_ecc_evolving w jv gi quad odeint sched (map m1 xs) (map m2 xs) (map f xs) (map d xs) (map e xs) hr (Fin t) n (otm xs tm) sc n_proc rm r2 kw
     = returned rm r2 (map r xs)) by (intros; now apply ecc_evolving_map).
  repeat split; auto; intros; rewrite ?E; auto.
Qed.

(** *** Real values *)
Lemma Rsum_cons x l : Rsum (x :: l) = x + Rsum l.
Proof. reflexivity. Qed.
Lemma nsum_fin l : nsum (map Fin l) = Fin (Rsum l).
Proof.
  assert (G : forall l z, fold_left nadd (map Fin l) (Fin z) = Fin (z + Rsum l)).
  { unfold Rsum. induction l0 as [|x l0 IH]; intros z; cbn [map fold_left fold_right]; [f_equal; ring|]. rewrite nadd_fin, IH. f_equal. ring. }
  unfold nsum. rewrite G. f_equal. ring.
Qed.
Lemma nZ_mul n f : nmul (nZ n) (Fin f) = Fin (IZR n * f).
Proof. reflexivity. Qed.
Lemma st_elem_fin jv gi t p m f e d n g (o : option angles) : 0 < m -> 0 < f -> 0 < d -> 0 <= e < 1 -> (1 <= n)%Z ->
  power_used jv gi n e g -> 0 <= t -> proper_noise p ->
  exists v, st_elem jv gi (Fin t) p (Fin m) (Fin f) (Fin e) (Fin d) (pop_amp (option_map (fun g (_ : unit) => g) o) tt) n = Fin v /\ 0 <= v /\
    signal_to_noise_squared (sqrt (ampR o) * h0R m f d g n) t (p (Fin (IZR n * f))) v.
Proof.
  intros Hm Hf Hd He Hn Hg Ht Hp. unfold st_elem.
  destruct (h0_fin jv gi m f e n d g o Hm Hf Hd ltac:(lra) Hn Hg) as [-> _]. rewrite nZ_mul, npowi2, nmul_fin.
  assert (0 < IZR n * f) by (pose proof (IZR_pos n Hn); nra).
  destruct (Hp _ H) as [-> | [s [-> Hs]]].
  - exists 0. split; [reflexivity|]. split; [lra|constructor].
  - rewrite ndiv_fin by lra. eexists. split; [reflexivity|]. split; [|constructor].
    apply Rmult_le_pos; [apply Rmult_le_pos; [apply pow2_ge_0|lra]|left; now apply Rinv_0_lt_compat].
Qed.
Lemma map_choice {A B} (P : A -> B -> Prop) (l : list A) : (forall a, In a l -> exists b, P a b) -> 
  exists bs, Forall2 P l bs.
Proof.
  induction l as [|a l IH]; intros H; [exists []; constructor|]. destruct (H a) as [b Hb]; [now left|].
  destruct IH as [bs Hbs]; [intros; apply H; now right|]. exists (b :: bs). now constructor.
Qed.
Definition stR jv gi t p m f e d n : R :=
  match st_elem jv gi (Fin t) p (Fin m) (Fin f) (Fin e) (Fin d) None n with Fin r => r | _ => 0 end.
Lemma st_elem_good jv gi t p m f e d n : good_source jv gi m f e d -> (1 <= n)%Z -> 0 <= t -> proper_noise p ->
  st_elem jv gi (Fin t) p (Fin m) (Fin f) (Fin e) (Fin d) None n = Fin (stR jv gi t p m f e d n) /\ 0 <= stR jv gi t p m f e d n /\
  exists h, h_0_single jv gi m f e n d None = Ok [[[Fin h]]] /\
    signal_to_noise_squared h t (p (Fin (IZR n * f))) (stR jv gi t p m f e d n).
Proof.
  intros [Hm [Hf [Hd [He Hg]]]] Hn Ht Hp. destruct (Hg n Hn) as [g G].
  destruct (st_elem_fin jv gi t p m f e d n g None Hm Hf Hd He Hn G Ht Hp) as [v [E [P S]]]. cbn [option_map pop_amp] in E.
  unfold stR. rewrite E. split; auto. split; auto. eexists. split; [|exact S]. apply h_0_single_fin; auto; lra.
Qed.
Lemma row_good jv gi t p m f e d hr : good_source jv gi m f e d -> 0 <= t -> proper_noise p ->
  map (st_elem jv gi (Fin t) p (Fin m) (Fin f) (Fin e) (Fin d) None) (arange1 hr) = map Fin (map (stR jv gi t p m f e d) (arange1 hr)).
Proof.
  intros HG Ht Hp. rewrite map_map. apply map_ext_in. intros n Hn. apply arange1_in in Hn. apply st_elem_good; auto; lia.
Qed.
Lemma Rsum_map_nonneg {A} (v : A -> R) l : (forall a, In a l -> 0 <= v a) -> 0 <= Rsum (map v l).
Proof.
  intros H. apply Rsum_nonneg. apply Forall_forall. intros x Hx. apply in_map_iff in Hx. destruct Hx as [a [<- Ha]]. auto.
Qed.
Lemma stationary_formula w jv gi X (m f e d : X -> R) xs t hr sc kw p : noise_curve w kw sc t p -> proper_noise p -> 0 <= t ->
  (forall x, In x xs -> good_source jv gi (m x) (f x) (e x) (d x)) ->
  let call rm r2 := snr_ecc_stationary w jv gi (map (fun x => Fin (m x)) xs) (map (fun x => Fin (f x)) xs) (map (fun x => Fin (e x)) xs)
                        (map (fun x => Fin (d x)) xs) (Fin t) hr sc rm r2 kw in
  exists v : X -> Z -> R,
    call false true = Ok (Snr2 (map (fun x => map (fun n => Fin (v x n)) (map Z.of_nat (seq 1 hr))) xs)) /\
    call false false = Ok (Snr (map (fun x => Fin (sqrt (Rsum (map (v x) (map Z.of_nat (seq 1 hr)))))) xs)) /\
    forall x n, In x xs -> (1 <= n <= Z.of_nat hr)%Z -> 0 <= v x n /\
      exists h, h_0_single jv gi (m x) (f x) (e x) n (d x) None = Ok [[[Fin h]]] /\
                signal_to_noise_squared h t (p (Fin (IZR n * f x))) (v x n).
Proof.
  intros Hp Hpp Ht HG call. fold (arange1 hr). exists (fun x n => stR jv gi t p (m x) (f x) (e x) (d x) n). unfold call.
  rewrite !(ecc_stationary_map _ _ _ _ _ _ _ _ _ _ _ _ _ _ p) by auto.
  assert (E : map (fun x => map (st_elem jv gi (Fin t) p (Fin (m x)) (Fin (f x)) (Fin (e x)) (Fin (d x)) None) (arange1 hr)) xs
     = map (fun x => map Fin (map (stR jv gi t p (m x) (f x) (e x) (d x)) (arange1 hr))) xs)
    by (apply map_ext_in; intros; apply row_good; auto).
  rewrite E. split; [|split].
  - unfold returned. do 2 f_equal. apply map_ext. intros x. now rewrite map_map.
  - unfold returned. do 2 f_equal. rewrite map_map. apply map_ext_in. intros x Hx. rewrite nsum_fin.
    apply nsqrt_fin. apply Rsum_map_nonneg. intros n Hn. apply arange1_in in Hn. apply st_elem_good; auto; lia.
  - intros x n Hx Hn. destruct (st_elem_good jv gi t p (m x) (f x) (e x) (d x) n) as [_ H]; auto; lia.
Qed.

(** *** C41 *)
Lemma loudest_spec vs : vs <> [] -> exists v, (1 <= loudest (map Fin vs) <= Z.of_nat (length vs))%Z /\
  nth_error vs (Z.to_nat (loudest (map Fin vs)) - 1) = Some v /\
  forall j u, nth_error vs j = Some u -> u <= v /\ ((Z.of_nat j + 1 < loudest (map Fin vs))%Z -> u < v).
Proof.
  intros Hv. destruct (argmax_spec vs Hv) as [v [A B]]. exists v. unfold loudest.
  assert (L : (argmax (map Fin vs) < length vs)%nat) by (apply nth_error_Some; congruence).
  split; [lia|]. split.
  - replace (Z.to_nat (Z.of_nat (argmax (map Fin vs)) + 1) - 1)%nat with (argmax (map Fin vs)) by lia. auto.
  - intros j u H. destruct (B j u H) as [B1 B2]. split; auto. intros. apply B2. lia.
Qed.
Lemma returned_loudest rows rm s hs i vs h rows' : returned rm true rows = Ok (Snr2 rows') -> returned true false rows = Ok (SnrMax s hs) ->
  nth_error rows' i = Some (map Fin vs) -> nth_error hs i = Some h ->
  exists v, (1 <= h <= Z.of_nat (length vs))%Z /\ nth_error vs (Z.to_nat h - 1) = Some v /\
    forall j u, nth_error vs j = Some u -> u <= v /\ ((Z.of_nat j + 1 < h)%Z -> u < v).
Proof.
  unfold returned. intros E1 E2 H1 H2. inversion E1; subst rows'. unfold argmax_axis1 in E2.
  destruct (existsb _ rows) eqn:EE; [discriminate|]. cbn [rbind] in E2. inversion E2; subst.
  rewrite nth_error_map, H1 in H2. cbn in H2. inversion H2; subst. apply loudest_spec.
  intros ->. apply nth_error_In in H1. assert (existsb (fun r : list num => match r with [] => true | _ => false end) rows = true).
  { apply existsb_exists. exists []. auto. } congruence.
Qed.
Lemma loudest_stationary w jv gi m f e d t hr sc rm kw rows s hs i vs h :
  snr_ecc_stationary w jv gi m f e d t hr sc rm true kw = Ok (Snr2 rows) ->
  snr_ecc_stationary w jv gi m f e d t hr sc true false kw = Ok (SnrMax s hs) ->
  nth_error rows i = Some (map Fin vs) -> nth_error hs i = Some h -> is_loudest vs h.
Proof.
  unfold snr_ecc_stationary. destruct (h_0_n _ _ _ _ _ _ _ _); cbn [rbind]; [|discriminate].
  destruct (negb _); [discriminate|]. destruct (noise2 _ _ _ _ _); cbn [rbind]; [|discriminate].
  destruct (bzip2 _ _ _); cbn [rbind]; [|discriminate]. apply returned_loudest.
Qed.
Lemma loudest_evolving w jv gi quad odeint sched m1 m2 f d e hr t n tm sc np rm kw rows s hs i vs h :
  snr_ecc_evolving w jv gi quad odeint sched m1 m2 f d e hr t n tm sc np rm true kw = Ok (Snr2 rows) ->
  snr_ecc_evolving w jv gi quad odeint sched m1 m2 f d e hr t n tm sc np true false kw = Ok (SnrMax s hs) ->
  nth_error rows i = Some (map Fin vs) -> nth_error hs i = Some h -> is_loudest vs h.
Proof.
  unfold snr_ecc_evolving. destruct (bzip _ _ _); cbn [rbind]; [|discriminate].
  destruct (match tm with Some _ => _ | None => _ end); cbn [rbind]; [|discriminate].
  destruct (evol_ecc _ _ _ _ _ _ _ _ _ _ _ _ _ _ _ _ _ _) as [[out ts]|]; cbn [rbind fst]; [|discriminate].
  destruct out as [|[|[|ee] [|[|ff] [|]]]]; try discriminate.
  destruct (has_empty_row _); [discriminate|]. destruct (h_c_n _ _ _ _ _ _ _ _); cbn [rbind]; [|discriminate].
  destruct (noise3 _ _ _ _ _); cbn [rbind]; [|discriminate].
  destruct (bzip3 _ _ _); cbn [rbind]; [|discriminate]. destruct (bzip3 _ _ _); cbn [rbind]; [|discriminate].
  destruct (bzip _ _ _); cbn [rbind]; [|discriminate]. apply returned_loudest.
Qed.

(** *** C42 *)
Lemma Rsum_one l z n : In n l -> NoDup l -> Rsum (map (fun k => if (k =? n)%Z then z else 0) l) = z.
Proof.
  induction l as [|a l IH]; intros Hin Hnd; [destruct Hin|]. inversion Hnd; subst. cbn [map]. rewrite Rsum_cons.
  destruct (Z.eqb_spec a n) as [-> |Ne].
  - replace (Rsum (map (fun k => if (k =? n)%Z then z else 0) l)) with 0; [ring|].
    clear - H1. induction l as [|b l IH]; [reflexivity|]. cbn [map]. rewrite Rsum_cons. destruct (Z.eqb_spec b n) as [-> |]; [exfalso; apply H1; now left|].
    rewrite <- IH; [ring|]. intros H. apply H1. now right.
  - destruct Hin as [E|Hin]; [congruence|]. rewrite IH by auto. ring.
Qed.
Lemma arange1_NoDup k : NoDup (arange1 k).
Proof. unfold arange1. apply FinFun.Injective_map_NoDup; [intros a b; apply Nat2Z.inj|apply seq_NoDup]. Qed.
Lemma power_used_inj jv gi n e g g' : power_used jv gi n e g -> power_used jv gi n e g' -> g = g'.
Proof. destruct gi; cbn; [intros [v [A ->]] [u [B ->]]|intros A B]; congruence. Qed.
Lemma circ_ecc_agree w jv gi X (m f d : X -> R) xs t hr sc kw p : noise_curve w kw sc t p -> proper_noise p -> 0 <= t ->
  circular_powers jv gi -> (forall x, In x xs -> 0 < m x /\ 0 < f x /\ 0 < d x) -> (2 <= hr)%nat ->
  let ms := map (fun x => Fin (m x)) xs in let fs := map (fun x => Fin (f x)) xs in let ds := map (fun x => Fin (d x)) xs in
  let es := map (fun _ => Fin 0) xs in
  exists s : X -> R, (forall x, In x xs -> 0 <= s x) /\
    snr_circ_stationary w jv gi ms fs ds (Fin t) no_sky sc kw = Ok (map (fun x => Fin (s x)) xs) /\
    snr_ecc_stationary w jv gi ms fs es ds (Fin t) hr sc false false kw = Ok (Snr (map (fun x => Fin (s x)) xs)) /\
    exists hm : X -> Z, snr_ecc_stationary w jv gi ms fs es ds (Fin t) hr sc true false kw = Ok (SnrMax (map (fun x => Fin (s x)) xs) (map hm xs)) /\
      forall x, In x xs -> 0 < s x -> hm x = 2%Z.
Proof.
  intros Hp Hpp Ht [g2 HG] HX Hr ms fs ds es.
  set (z := fun x => stR jv gi t p (m x) (f x) 0 (d x) 2).
  assert (GS : forall x, In x xs -> good_source jv gi (m x) (f x) 0 (d x)).
  { intros x Hx. destruct (HX x Hx) as [A [B C]]. repeat split; auto; try lra. intros n Hn. eexists. now apply HG. }
  assert (Z0 : forall x n, In x xs -> (1 <= n)%Z -> stR jv gi t p (m x) (f x) 0 (d x) n = if (n =? 2)%Z then z x else 0).
  { intros x n Hx Hn. destruct (Z.eqb_spec n 2) as [-> |Ne]; [reflexivity|].
    destruct (HX x Hx) as [A [B C]]. pose proof (HG n Hn) as G. destruct (Z.eqb_spec n 2); [congruence|].
    destruct (st_elem_fin jv gi t p (m x) (f x) 0 (d x) n 0 None A B C ltac:(lra) Hn G Ht Hpp) as [v [E [P S]]].
    cbn [option_map pop_amp] in E. unfold stR. rewrite E.
    assert (h0R (m x) (f x) (d x) 0 n = 0) as H0 by (unfold h0R, Rdiv; rewrite sqrt_0; ring).
    rewrite H0 in S. inversion S; subst; auto. unfold Rdiv. ring. }
  assert (ZP : forall x, In x xs -> 0 <= z x) by (intros x Hx; apply (st_elem_good jv gi t p (m x) (f x) 0 (d x) 2); auto; lia).
  set (row := fun x => map (fun k => if (k =? 2)%Z then z x else 0) (arange1 hr)).
  assert (ER : map (fun x => map (st_elem jv gi (Fin t) p (Fin (m x)) (Fin (f x)) (Fin 0) (Fin (d x)) None) (arange1 hr)) xs
     = map (fun x => map Fin (row x)) xs).
  { apply map_ext_in. intros x Hx. rewrite row_good by auto. unfold row. f_equal. apply map_ext_in. intros n Hn. apply arange1_in in Hn.
    apply Z0; auto; lia. }
  assert (RS : forall x, Rsum (row x) = z x).
  { intros x. unfold row. apply Rsum_one; [apply arange1_in; lia|apply arange1_NoDup]. }
  assert (EE : forall rm r2, snr_ecc_stationary w jv gi ms fs es ds (Fin t) hr sc rm r2 kw = returned rm r2 (map (fun x => map Fin (row x)) xs)).
  { intros. unfold ms, fs, es, ds. rewrite (ecc_stationary_map _ _ _ _ _ _ _ _ _ _ _ _ _ _ p) by auto. now rewrite ER. }
  assert (ES : map (fun r => nsqrt (nsum r)) (map (fun x => map Fin (row x)) xs) = map (fun x => Fin (sqrt (z x))) xs).
  { rewrite map_map. apply map_ext_in. intros x Hx. rewrite nsum_fin, RS. apply nsqrt_fin. auto. }
  exists (fun x => sqrt (z x)). split; [intros; apply sqrt_pos|]. split; [|split].
  - unfold ms, fs, ds. change no_sky with (pop_sky xs None).
    rewrite (circ_stationary_map _ _ _ _ _ _ _ _ _ _ _ p) by auto.
    f_equal. apply map_ext_in. intros x Hx. cbn [pop_amp]. 
    destruct (st_elem_good jv gi t p (m x) (f x) 0 (d x) 2) as [E _]; auto; [lia|]. rewrite E. apply nsqrt_fin. now apply ZP.
  - rewrite EE. unfold returned. now rewrite ES.
  - exists (fun x => loudest (map Fin (row x))). rewrite EE. unfold returned. rewrite argmax_axis1_rows.
    2:{ intros x E. apply (f_equal (@length num)) in E. unfold row in E. rewrite !map_length, arange1_length in E. cbn in E. lia. }
    cbn [rbind]. rewrite ES. split; auto. intros x Hx Hpos.
    assert (0 < z x) as Zp. { destruct (ZP x Hx) as [L|L]; auto. rewrite <- L, sqrt_0 in Hpos. lra. }
    destruct (loudest_spec (row x)) as [v [A [B C]]].
    { intros E. apply (f_equal (@length R)) in E. unfold row in E. rewrite map_length, arange1_length in E. cbn in E. lia. }
    assert (N : forall k, (k < hr)%nat -> nth_error (row x) k = Some (if (k =? 1)%nat then z x else 0)).
    { intros k Hk. unfold row, arange1. rewrite map_map, nth_error_map.
      rewrite (nth_error_nth' (seq 1 hr) 0%nat) by (now rewrite seq_length). rewrite seq_nth by auto. cbn [option_map]. f_equal.
      destruct (Nat.eqb_spec k 1) as [-> |]; [reflexivity|]. destruct (Z.eqb_spec (Z.of_nat (1 + k)) 2); [lia|reflexivity]. }
    set (h := loudest (map Fin (row x))) in *.
    assert (length (row x) = hr) as L by (unfold row; now rewrite map_length, arange1_length). rewrite L in A.
    rewrite N in B by lia. destruct (C 1%nat (z x)) as [C1 _]; [now rewrite N by lia|].
    destruct (Nat.eqb_spec (Z.to_nat h - 1) 1); [lia|]. injection B as B; lra.
Qed.

(** *** C43 *)
Lemma h0_elem_dist jv gi m f e n d amp k : 0 < k -> h0_elem jv gi m f e n (nmul (Fin k) d) amp = nmul (Fin (/ k)) (h0_elem jv gi m f e n d amp).
Proof.
  intros Hk. pose proof (Rinv_0_lt_compat k Hk). unfold h0_elem, h0_indep. rewrite sc_divisor, sc_mul by auto.
  destruct amp; cbn [mod_elem]; auto. now rewrite sc_mul_r.
Qed.
Lemma hc_elem_dist jv gi m f e n d amp k : 0 < k -> hc_elem jv gi m f e n (nmul (Fin k) d) amp = nmul (Fin (/ k)) (hc_elem jv gi m f e n d amp).
Proof.
  intros Hk. pose proof (Rinv_0_lt_compat k Hk). unfold hc_elem, hc_indep. rewrite sc_divisor, sc_mul, sc_div, sc_mul by auto.
  destruct amp; cbn [mod_elem]; auto. now rewrite sc_mul_r.
Qed.
Lemma st_elem_dist jv gi t p m f e d amp n k : 0 < k ->
  st_elem jv gi t p m f e (nmul (Fin k) d) amp n = nmul (Fin ((/ k) ^ 2)) (st_elem jv gi t p m f e d amp n).
Proof.
  intros Hk. pose proof (Rinv_0_lt_compat k Hk). assert (0 < (/ k) ^ 2) by (apply pow_lt; auto).
  unfold st_elem. rewrite h0_elem_dist, sc_sq, sc_mul, sc_div by auto. reflexivity.
Qed.
Lemma ev_snr2_dist jv gi p m d q n k : 0 < k -> ev_snr2 jv gi p m (nmul (Fin k) d) q n = nmul (Fin ((/ k) ^ 2)) (ev_snr2 jv gi p m d q n).
Proof.
  intros Hk. pose proof (Rinv_0_lt_compat k Hk). assert (0 < (/ k) ^ 2) by (apply pow_lt; auto).
  unfold ev_snr2. rewrite <- sc_trapz by auto. f_equal. rewrite map_map. apply map_ext. intros z. unfold ev_elem.
  rewrite hc_elem_dist, sc_sq, sc_div by auto. reflexivity.
Qed.
Lemma loudest_scaled k r : 0 < k -> loudest (map (nmul (Fin k)) r) = loudest r.
Proof. intros. unfold loudest. now rewrite sc_argmax. Qed.
Lemma empty_scaled (g : num -> num) rows :
  existsb (fun r : list num => match r with [] => true | _ => false end) (map (map g) rows) = existsb (fun r : list num => match r with [] => true | _ => false end) rows.
Proof. induction rows as [|[|x r] rows IH]; cbn; auto. Qed.
Lemma returned_scaled rm r2 k rows : 0 < k -> returned rm r2 (map (map (nmul (Fin (k ^ 2)))) rows) = rmap (scaled_ret k) (returned rm r2 rows).
Proof.
  intros Hk. assert (0 < k ^ 2) by (apply pow_lt; auto). unfold returned. destruct r2; [reflexivity|].
  assert (E : map (fun r => nsqrt (nsum r)) (map (map (nmul (Fin (k ^ 2)))) rows) = scaled k (map (fun r => nsqrt (nsum r)) rows)).
  { unfold scaled. rewrite !map_map. apply map_ext. intros r. now rewrite sc_sum, sc_sqrt2. }
  rewrite E. destruct rm; [|reflexivity]. unfold argmax_axis1. rewrite empty_scaled. destruct (existsb _ rows); [reflexivity|]. cbn [rbind rmap scaled_ret].
  do 2 f_equal. rewrite map_map. apply map_ext. intros r. now apply loudest_scaled.
Qed.
Lemma distance_scaling w jv gi quad odeint sched n_proc X (m m1 m2 f d e : X -> num) xs (o : option (X -> angles)) hr t n (tm : option (X -> num)) sc rm r2 kw p k :
  noise_curve w kw sc t p -> (1 <= n)%nat -> odeint_shape odeint -> ((1 < n_proc)%nat -> complete_schedule (length xs) sched) ->
  (forall x, In x xs -> exists r, e x = Fin r /\ 0 <= r <= 1) -> 0 < k ->
  let ds := map d xs in let far := map (fun x => nmul (Fin k) (d x)) xs in
  let tms := option_map (fun g => map g xs) tm in
  snr_circ_stationary w jv gi (map m xs) (map f xs) far (Fin t) (pop_sky xs o) sc kw
    = rmap (scaled (/ k)) (snr_circ_stationary w jv gi (map m xs) (map f xs) ds (Fin t) (pop_sky xs o) sc kw) /\
  snr_ecc_stationary w jv gi (map m xs) (map f xs) (map e xs) far (Fin t) hr sc rm r2 kw
    = rmap (scaled_ret (/ k)) (snr_ecc_stationary w jv gi (map m xs) (map f xs) (map e xs) ds (Fin t) hr sc rm r2 kw) /\
  snr_circ_evolving w jv gi quad (map m1 xs) (map m2 xs) (map f xs) far (Fin t) n tms sc kw
    = rmap (scaled (/ k)) (snr_circ_evolving w jv gi quad (map m1 xs) (map m2 xs) (map f xs) ds (Fin t) n tms sc kw) /\
  snr_ecc_evolving w jv gi quad odeint sched (map m1 xs) (map m2 xs) (map f xs) far (map e xs) hr (Fin t) n tms sc n_proc rm r2 kw
    = rmap (scaled_ret (/ k)) (snr_ecc_evolving w jv gi quad odeint sched (map m1 xs) (map m2 xs) (map f xs) ds (map e xs) hr (Fin t) n tms sc n_proc rm r2 kw).
Proof.
  intros Hp Hn Hod Hs He Hk ds far tms. pose proof (Rinv_0_lt_compat k Hk) as Hk'. unfold ds, far. split; [|split; [|split]].
  - rewrite !(circ_stationary_map _ _ _ _ _ _ _ _ _ _ _ p) by auto. cbn [rmap]. f_equal. unfold scaled. rewrite map_map. apply map_ext.
    intros x. now rewrite st_elem_dist, sc_sqrt2.
  - rewrite !(ecc_stationary_map _ _ _ _ _ _ _ _ _ _ _ _ _ _ p) by auto. rewrite <- returned_scaled by auto. f_equal. rewrite map_map.
    apply map_ext. intros x. rewrite map_map. apply map_ext. intros y. now apply st_elem_dist.
  - unfold tms. fold (otm xs tm). rewrite !(circ_evolving_map _ _ _ _ _ _ _ _ _ _ _ _ _ _ p) by auto. cbn [rmap]. f_equal. unfold scaled. rewrite map_map.
    apply map_ext. intros x. now rewrite ev_snr2_dist, sc_sqrt2.
  - unfold tms. fold (otm xs tm). rewrite !(ecc_evolving_map _ _ _ _ _ _ _ _ _ _ _ _ _ _ _ _ _ _ _ _ _ p) by auto. rewrite <- returned_scaled by auto. f_equal. rewrite map_map.
    apply map_ext. intros x. rewrite map_map. apply map_ext. intros y. now apply ev_snr2_dist.
Qed.
Lemma st_elem_time jv gi t p m f e d amp n k : 0 < k ->
  st_elem jv gi (Fin (k * t)) p m f e d amp n = nmul (Fin k) (st_elem jv gi (Fin t) p m f e d amp n).
Proof.
  intros Hk. unfold st_elem. rewrite <- (nmul_fin k t), sc_mul_r, sc_div by auto. reflexivity.
Qed.
Lemma time_scaling w jv gi X (m f d e : X -> num) xs (o : option (X -> angles)) hr t s rm r2 kw k : 0 < k ->
  snr_circ_stationary w jv gi (map m xs) (map f xs) (map d xs) (Fin (k * t)) (pop_sky xs o) (Some s) kw
    = rmap (scaled (sqrt k)) (snr_circ_stationary w jv gi (map m xs) (map f xs) (map d xs) (Fin t) (pop_sky xs o) (Some s) kw) /\
  snr_ecc_stationary w jv gi (map m xs) (map f xs) (map e xs) (map d xs) (Fin (k * t)) hr (Some s) rm r2 kw
    = rmap (scaled_ret (sqrt k)) (snr_ecc_stationary w jv gi (map m xs) (map f xs) (map e xs) (map d xs) (Fin t) hr (Some s) rm r2 kw).
Proof.
  intros Hk. assert (Hp : forall t, noise_curve w kw (Some s) t s) by (intros ? ?; reflexivity).
  assert (Hs : 0 < sqrt k) by now apply sqrt_lt_R0. split.
  - rewrite !(circ_stationary_map _ _ _ _ _ _ _ _ _ _ _ s) by auto. cbn [rmap]. f_equal. unfold scaled. rewrite map_map. apply map_ext.
    intros x. now rewrite st_elem_time, sc_sqrt.
  - rewrite !(ecc_stationary_map _ _ _ _ _ _ _ _ _ _ _ _ _ _ s) by auto. rewrite <- returned_scaled by auto. f_equal. rewrite map_map.
    apply map_ext. intros x. rewrite map_map. apply map_ext. intros y. rewrite st_elem_time by auto. now rewrite pow2_sqrt by lra.
Qed.
