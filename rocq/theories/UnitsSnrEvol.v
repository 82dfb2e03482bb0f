(** UnitsSnrEvol.v -- the SNRs of evolving sources on quantities are those on SI values. *)
From Coq Require Import String Reals ZArith List Bool Lra Lia.
From Verif Require Import Num NumFacts Np NpFacts Utils UtilsFacts Strain Evol EvolFacts Psd Snr Units UnitsSpec UnitsFacts UnitsThms UnitsStrain
  UnitsEvol UnitsEvolSpec UnitsEvolFacts UnitsEvolThms UnitsEvolRuns UnitsEccRuns UnitsPsd UnitsPsdSpec UnitsPsdFacts UnitsSnr UnitsSnrSpec UnitsSnrFacts.
Import ListNotations.
Open Scope list_scope.
Open Scope R_scope.
Open Scope res_scope.

(** *** Times *)
Lemma min_scale x y s : 0 < s -> (nmin (x * Fin s) (y * Fin s) = nmin x y * Fin s)%num.
Proof.
  intros S. unfold nmin. pose proof (le_scale x y s S) as L.
  destruct x, y; rewrite ?scale_pinf, ?scale_ninf, ?scale_nan in * by assumption; try reflexivity.
  change (Fin r * Fin s)%num with (Fin (r * s)) in *. change (Fin r0 * Fin s)%num with (Fin (r0 * s)) in *.
  rewrite L. destruct (nle (Fin r) (Fin r0)); reflexivity.
Qed.
Lemma sum_unit op a b r : is_quantity a = true -> is_quantity b = true -> vsum op a b = Ok r -> unit_of r = unit_of a.
Proof.
  destruct a as [|x u]; [discriminate|]. destruct b as [|y w]; [discriminate|]. intros _ _. cbn.
  destruct (dim_eqb _ _); [|discriminate]. now intros [= <-].
Qed.
Lemma vsum_in op (OS : forall x y s, 0 < s -> (op (x * Fin s) (y * Fin s) = op x y * Fin s)%num) d u x b y :
  unit_for d u -> d <> dimensionless -> isv d b y -> vsum op (in_unit u x) b = Ok (in_unit u (op x y)).
Proof.
  intros U N B. pose proof (isv_in d u x U) as A. destruct (is_sum op OS _ _ _ _ _ A B) as (r & E & I & Q).
  rewrite E. f_equal. apply (as_in_unit d); [exact I|rewrite Q; reflexivity|].
  rewrite (sum_unit op _ _ _ (not_plain _ _ _ N A) (not_plain _ _ _ N B) E). reflexivity.
Qed.
Lemma one_second : isv time_dim (Qy (Fin 1) second) (Fin 1).
Proof. split; [unfold proper; cbn; lra|]. split; [reflexivity|]. unfold si. cbn [mag unit_of second u_size]. apply scale_one. Qed.
Lemma t_before_in : t_before_ecc_q = in_unit year t_before_ecc.
Proof.
  unfold t_before_ecc_q, t_before_ecc. apply (as_in_unit time_dim); [|reflexivity|reflexivity].
  replace (yr / 10) with (1 / 10 * yr) by (unfold Rdiv; ring). apply years_is.
Qed.
Lemma unit_year : unit_for time_dim year.
Proof. split; [exact year_pos|reflexivity]. Qed.
Lemma unit_second : unit_for time_dim second.
Proof. split; [cbn; lra|reflexivity]. Qed.
Lemma unit_gigayear : unit_for time_dim gigayear.
Proof. split; [exact gigayear_pos|reflexivity]. Qed.
Lemma unit_au : unit_for length_dim au.
Proof. split; [exact au_pos|reflexivity]. Qed.
Lemma unit_hertz : unit_for frequency_dim hertz.
Proof. split; [exact hertz_pos|reflexivity]. Qed.
Definition beta_si : unit_ := mkUnit 1 beta_dim.
Lemma unit_beta : unit_for beta_dim beta_si.
Proof. split; [cbn; lra|reflexivity]. Qed.

Lemma circ_t_evol um tm ut t : unit_for time_dim um -> unit_for time_dim ut ->
  mapM (fun v => d <- vsub v (Qy (Fin 1) second) ;; vsum nmin d (in_unit ut t)) (map (in_unit um) tm)
  = Ok (map (in_unit um) (map (fun v => nmin (v - Fin 1) t)%num tm)).
Proof.
  intros UM UT. induction tm as [|v tm IH]; [reflexivity|]. cbn [map mapM]. rewrite IH. unfold vsub.
  rewrite (vsum_in nsub sub_scale time_dim um v _ (Fin 1) UM time_not_none one_second). cbn [rbind].
  now rewrite (vsum_in nmin min_scale time_dim um _ _ t UM time_not_none (isv_in _ _ _ UT)).
Qed.
Lemma ecc_t_evol um tm ut t : unit_for time_dim um -> unit_for time_dim ut ->
  mapM (fun v => d <- vsub v t_before_ecc_q ;; m <- vsum nmin d (in_unit ut t) ;; to m second) (map (in_unit um) tm)
  = Ok (map (in_unit second) (map (fun v => nmin (v - t_before_ecc) t)%num tm)).
Proof.
  intros UM UT. induction tm as [|v tm IH]; [reflexivity|]. cbn [map mapM]. rewrite IH. unfold vsub. rewrite t_before_in.
  rewrite (vsum_in nsub sub_scale time_dim um v _ t_before_ecc UM time_not_none (isv_in _ _ _ unit_year)). cbn [rbind].
  rewrite (vsum_in nmin min_scale time_dim um _ _ t UM time_not_none (isv_in _ _ _ UT)). cbn [rbind].
  now rewrite (to_in time_dim second _ _ unit_second time_not_none (isv_in _ _ _ UM)).
Qed.

(** *** Frequencies in Hz *)
Lemma hz_one x : (x * Fin (u_size hertz / u_size hertz))%num = x.
Proof. replace (u_size hertz / u_size hertz) with 1 by (cbn; lra). apply scale_one. Qed.
Lemma hz_to x : to (in_unit hertz x) hertz = Ok (in_unit hertz x).
Proof. apply (to_in frequency_dim); [exact unit_hertz|exact frequency_not_none|apply isv_in, unit_hertz]. Qed.
Lemma hz_sum op x y : vsum op (Qy x hertz) (Qy y hertz) = Ok (Qy (op x y) hertz).
Proof. cbn [vsum]. rewrite dim_eqb_refl. now rewrite hz_one. Qed.
Lemma hz_merged x : is_merged_q (in_unit hertz x) = neqb x f_merged.
Proof.
  unfold is_merged_q, veqb. rewrite <- (in_hz (Fin 100)).
  now rewrite (compare_scale neqb eq_scale _ _ frequency_dim x (Fin 100) (isv_in _ _ _ unit_hertz) (isv_in _ _ _ unit_hertz) frequency_not_none).
Qed.
Lemma hz_merged_map r : map is_merged_q (map (in_unit hertz) r) = map (fun x => neqb x f_merged) r.
Proof. rewrite map_map. apply map_ext. exact hz_merged. Qed.
Lemma hz_row_max x l : row_max_q (map (in_unit hertz) (x :: l)) = Ok (in_unit hertz (row_max (x :: l))).
Proof.
  cbn [map row_max_q row_max]. revert x. induction l as [|y l IH]; intros x; [reflexivity|]. cbn [map fold_left]. cbn [rbind].
  rewrite (in_hz x), (in_hz y), hz_sum, <- in_hz. apply IH.
Qed.
Lemma hz_marked marked f :
  map2M (fun (b : bool) x => if b then Ok (Qy (Fin (-1)) hertz) else to x hertz) marked (map (in_unit hertz) f)
  = Ok (map (in_unit hertz) (map2 (fun (b : bool) x => if b then Fin (-1) else x) marked f)).
Proof.
  revert f. induction marked as [|b marked IH]; intros [|x f]; try reflexivity. cbn [map map2M map2]. rewrite IH.
  destruct b; [now rewrite <- in_hz|]. now rewrite hz_to.
Qed.
Lemma replace_si marked f : replace_merged_q marked (map (in_unit hertz) f) = Ok (map (in_unit hertz) (replace_merged marked f)).
Proof.
  unfold replace_merged_q, replace_merged. rewrite hz_marked. cbn [rbind]. set (m := map2 _ marked f).
  replace (match map (in_unit hertz) m with [] => Ok (Qy NaN hertz) | _ => row_max_q (map (in_unit hertz) m) end)
    with (Ok (in_unit hertz (row_max m))) by (destruct m as [|x m]; [now rewrite in_hz|now rewrite hz_row_max]).
  cbn [rbind]. generalize (row_max m) as mx. clear. intros mx. induction f as [|x f IH]; [reflexivity|]. cbn [map mapM].
  rewrite IH, hz_merged. destruct (neqb x f_merged); [|reflexivity].
  replace (store (in_unit hertz x) (in_unit hertz mx)) with (Ok (in_unit hertz mx)); [reflexivity|].
  unfold in_unit at 2. cbn [store]. symmetry. apply hz_to.
Qed.
Lemma no_empty_rows {A B} (f : A -> B) l : has_empty_row (map (map f) l) = has_empty_row l.
Proof.
  unfold has_empty_row. induction l as [|r l IH]; [reflexivity|]. cbn [map existsb]. rewrite IH. now destruct r.
Qed.
Lemma hz_rows (g : list num -> list bool) (gq : list val -> list bool) F : (forall r, gq (map (in_unit hertz) r) = g r) ->
  mapM (fun r => replace_merged_q (gq r) r) (map (map (in_unit hertz)) F)
  = Ok (map (map (in_unit hertz)) (map (fun r => replace_merged (g r) r) F)).
Proof.
  intros G. induction F as [|r F IH]; [reflexivity|]. cbn [map mapM]. rewrite IH, G, replace_si. reflexivity.
Qed.

(** *** Chirp masses *)
Lemma chirp_masses u1 u2 m1 m2 : unit_for mass_dim u1 -> unit_for mass_dim u2 ->
  bzipM chirp_mass_q (map (in_unit u1) m1) (map (in_unit u2) m2) = rmap (map (in_unit msun)) (bzip chirp_mass m1 m2).
Proof.
  intros U1 U2.
  assert (R : res_rel (Forall2 (fun v x => v = in_unit msun x)) (bzipM chirp_mass_q (map (in_unit u1) m1) (map (in_unit u2) m2))
                (bzip chirp_mass m1 m2)).
  { unfold bzip. apply (rel_bzipM (isv mass_dim) (isv mass_dim)); [now apply list_isv|now apply list_isv|].
    intros v x w y V W. cbn. rewrite (chirp_mass_si v w x y); [reflexivity| |]; (split; [|assumption]);
      eapply not_plain; try eassumption; exact mass_not_none. }
  destruct (bzipM _ _ _) as [l|e], (bzip _ _ _) as [l'|e']; cbn [res_rel] in R; try contradiction; [|now subst].
  cbn. f_equal. induction R; cbn; congruence.
Qed.
Lemma unit_msun : unit_for mass_dim msun.
Proof. split; [exact msun_pos|reflexivity]. Qed.
Lemma in_reads d u l : unit_for d u -> Forall2 reads (map (in_unit u) l) l.
Proof. intros U. apply (all_reads d). now apply list_is. Qed.
Lemma rows_reads d u l : unit_for d u -> Forall2 (Forall2 reads) (map (map (in_unit u)) l) l.
Proof. intros U. induction l; constructor; auto. now apply (in_reads d). Qed.

(** *** Integrals *)
Lemma size_mul a b : u_size (unit_of (vmul a b)) = u_size (unit_of a) * u_size (unit_of b).
Proof. destruct a, b; cbn; ring. Qed.
Lemma size_div a b : u_size (unit_of (vdiv a b)) = u_size (unit_of a) / u_size (unit_of b).
Proof. destruct a, b; cbn; try reflexivity. field. Qed.
Lemma size_powi v k : u_size (unit_of (vpowi v k)) = powerRZ (u_size (unit_of v)) k.
Proof. destruct v; cbn; [|reflexivity]. symmetry. apply powerRZ_one. Qed.

(** A dimensionless quantity in a unit of size [s] (percent, say), and its SI value. *)
Definition ratio (s : R) (v : val) (x : num) : Prop := is_quantity v = true /\ isz dimensionless s v x.

Lemma zero_ratio u : 0 < u_size u -> u_dim u = dimensionless -> ratio (u_size u) (Qy (Fin 0) u) (Fin 0).
Proof.
  intros P D. split; [reflexivity|]. split; [|reflexivity]. split; [exact P|]. split; [exact D|]. unfold si. cbn [mag unit_of nmul].
  now rewrite Rmult_0_l.
Qed.
Lemma trapz_nil y : trapz y [] = Fin 0.
Proof. destruct y as [|a [|b y]]; reflexivity. Qed.
Lemma trapz_one_l a x : trapz [a] x = Fin 0.
Proof. reflexivity. Qed.
Lemma trapz_one_r y a : trapz y [a] = Fin 0.
Proof. destruct y as [|b [|c y]]; reflexivity. Qed.

Lemma trapz_si sy sx y y' x x' : Forall2 (isz time_dim sy) y y' -> Forall2 (isz frequency_dim sx) x x' ->
  exists r, trapz_q y x = Ok r /\ ratio (match y, x with [], _ | _, [] => 1 | _, _ => sx * sy end) r (trapz y' x').
Proof.
  intros Y. revert x x'. induction Y as [|y0 b0 y y' IY0 Y IH]; intros x x' X.
  { exists (Qy (Fin 0) one_). split; [reflexivity|]. apply (zero_ratio one_); [cbn; lra|reflexivity]. }
  destruct X as [|x0 a0 x x' IX0 X].
  { exists (Qy (Fin 0) one_). split; [reflexivity|]. rewrite trapz_nil. apply (zero_ratio one_); [cbn; lra|reflexivity]. }
  assert (Z : exists r, Ok (Qy (Fin 0) (umul (unit_of x0) (unit_of y0))) = Ok r /\ ratio (sx * sy) r (Fin 0)).
  { eexists. split; [reflexivity|]. destruct IX0 as ((PX & DX & SX) & ZX), IY0 as ((PY & DY & SY) & ZY).
    unfold proper, dim_of in *. replace (sx * sy) with (u_size (umul (unit_of x0) (unit_of y0))) by (cbn; now rewrite ZX, ZY).
    apply zero_ratio; [cbn; nra|]. cbn [umul u_dim]. rewrite DX, DY. dim_eq. }
  destruct Y as [|y1 b1 y y' IY1 Y]; [exact Z|]. destruct X as [|x1 a1 x x' IX1 X]; [rewrite trapz_one_r; exact Z|].
  destruct (IH (x1 :: x) (a1 :: x') ltac:(constructor; assumption)) as (r & ER & QR & IR & SR).
  cbn [trapz_q]. cbn [trapz_q] in ER. unfold vsub, vadd.
  destruct IX0 as (IX0 & ZX0), IX1 as (IX1 & ZX1), IY0 as (IY0 & ZY0), IY1 as (IY1 & ZY1).
  pose proof (not_plain _ _ _ frequency_not_none IX0) as Q0. pose proof (not_plain _ _ _ frequency_not_none IX1) as Q1.
  pose proof (not_plain _ _ _ time_not_none IY0) as P0. pose proof (not_plain _ _ _ time_not_none IY1) as P1.
  destruct (is_sub x1 x0 _ _ _ IX1 IX0) as (dx & EX & DX & QX). destruct (is_add y1 y0 _ _ _ IY1 IY0) as (my & EY & DY & QY).
  rewrite EX. cbn [rbind]. rewrite EY. cbn [rbind]. fold vsub vadd in *. rewrite ER. cbn [rbind].
  set (t := vmul dx (vdiv my (lit 2))).
  assert (T : is_ dimensionless ((a1 - a0) * ((b1 + b0) / Fin 2))%num t).
  { eapply is_dim; [|unfold t; mean]. dim_eq. }
  assert (QT : is_quantity t = true) by (unfold t; rewrite quantity_mul, QX, Q1; reflexivity).
  destruct (is_add t r _ _ _ T IR) as (s & ES & IS & QS). unfold vadd. rewrite ES. exists s. split; [reflexivity|].
  split; [rewrite QS, QT; reflexivity|]. split; [exact IS|].
  rewrite (sum_unit nadd _ _ _ QT QR ES). unfold t. rewrite size_mul, size_div.
  rewrite (sum_unit nsub _ _ _ Q1 Q0 EX), (sum_unit nadd _ _ _ P1 P0 EY), ZX1, ZY1. cbn. field.
Qed.

Lemma ratio_decomposed s v x : ratio s v x -> decompose_value v = Ok x.
Proof. intros (Q & (I & _)). apply carries_decompose. split; [exact Q|]. now apply (reads_of dimensionless). Qed.
Lemma ratio_root s v x : ratio s v x -> decompose_value (vpow v (1/2)) = Ok (nsqrt x).
Proof.
  intros (Q & (I & _)). apply carries_decompose. split; [now rewrite quantity_pow|].
  apply (reads_of (dpow dimensionless (1/2))). unfold isv, nsqrt. mean.
Qed.

(** The characteristic noise and the integrand. *)
Lemma integrand_is s f n h x y : isz frequency_dim 1 f x -> isz time_dim s n y ->
  isz time_dim (1 / s) (vdiv (Pl h) (vmul (vpowi f 2) n)) (h / (x ^^ 2 * y))%num.
Proof.
  intros (F & ZF) (N & ZN). split.
  - unfold isv in *. eapply is_dim; [|mean]. dim_eq.
  - rewrite size_div, size_mul, size_powi, ZF, ZN, powerRZ_one. cbn. now rewrite Rmult_1_l.
Qed.
Lemma char_noise_is s f n x y : isz frequency_dim 1 f x -> isz time_dim s n y ->
  isz frequency_dim s (vmul (vpowi f 2) n) (x ^^ 2 * y)%num.
Proof.
  intros (F & ZF) (N & ZN). split.
  - unfold isv in *. eapply is_dim; [|mean]. dim_eq.
  - rewrite size_mul, size_powi, ZF, ZN, powerRZ_one. ring.
Qed.
Lemma over_noise_is s h n y : isz frequency_dim s n y -> isz time_dim (1 / s) (vdiv (Pl h) n) (h / y)%num.
Proof.
  intros (N & ZN). split.
  - unfold isv in *. eapply is_dim; [|mean]. dim_eq.
  - rewrite size_div, ZN. reflexivity.
Qed.
Lemma hz_times k x : isz frequency_dim 1 (vmul (Pl k) (in_unit hertz x)) (k * x)%num.
Proof.
  split; [apply isv_times; apply isv_in, unit_hertz|]. rewrite size_mul. cbn. ring.
Qed.
Lemma isz_rows_is d s l l' : Forall2 (Forall2 (isz d s)) l l' -> Forall2 (all_is d) l l'.
Proof. apply forall2_imp. intros a b. apply forall2_imp. now intros v x (I & _). Qed.

(** *** Circular sources *)
Lemma circ_merge_times m1 m2 f tm u1 u2 uf um : unit_for mass_dim u1 -> unit_for mass_dim u2 -> unit_for frequency_dim uf -> unit_for time_dim um ->
  exists u, unit_for time_dim u /\
  match list_in um tm with
  | None => get_t_merge_circ_arr_q None (Some (map (in_unit u1) m1)) (Some (map (in_unit u2) m2)) None (Some (map (in_unit uf) f))
  | Some t => Ok t
  end = rmap (map (in_unit u))
  match tm with None => get_t_merge_circ None (Some m1) (Some m2) None (Some f) | Some t => Ok t end.
Proof.
  intros U1 U2 UF UM. destruct tm as [tm|]; [exists um; split; [exact UM|reflexivity]|]. exists gigayear. split; [exact unit_gigayear|].
  exact (t_merge_circ_arr_si None (Some m1) (Some m2) None (Some f) beta_si u1 u2 au uf unit_beta U1 U2 unit_au UF).
Qed.

Lemma double_rows_is F : Forall2 (Forall2 (isz frequency_dim 1)) (map (map (vmul (lit 2))) (map (map (in_unit hertz)) F)) (map (map (nmul (Fin 2))) F).
Proof.
  induction F as [|r F IH]; constructor; [|exact IH]. clear. induction r as [|x r IH]; constructor; [|exact IH]. apply hz_times.
Qed.

Theorem circ_evolving_si w jv gi quad m1 m2 f d t n tm sc sc' kw kw' u1 u2 uf ud ut um :
  unit_for mass_dim u1 -> unit_for mass_dim u2 -> unit_for frequency_dim uf -> unit_for length_dim ud -> unit_for time_dim ut ->
  unit_for time_dim um -> same_curve sc sc' -> same_settings kw kw' ->
  snr_circ_evolving_q w jv gi quad (map (in_unit u1) m1) (map (in_unit u2) m2) (map (in_unit uf) f) (map (in_unit ud) d) (in_unit ut t) n
    (list_in um tm) sc kw = snr_circ_evolving w jv gi quad m1 m2 f d t n tm sc' kw'.
Proof.
  intros U1 U2 UF UD UT UM C K. unfold snr_circ_evolving_q, snr_circ_evolving. rewrite chirp_masses by assumption.
  destruct (bzip chirp_mass m1 m2) as [mc|e]; [|reflexivity]. cbn [rmap rbind].
  destruct (circ_merge_times m1 m2 f tm u1 u2 uf um U1 U2 UF UM) as (u & UU & E). rewrite E. clear E.
  destruct (match tm with Some _ => _ | None => _ end) as [tms|e]; [|reflexivity]. cbn [rmap rbind]. cbv zeta.
  rewrite circ_t_evol by assumption. cbn [rbind]. set (te := map _ tms).
  pose proof (evol_circ_si quad (TArr te) n SNone Absent (Array m1) (Array m2) Absent (Array f) ["f_orb"%string] u second beta_si u1 u2 au uf
    UU unit_second unit_beta U1 U2 unit_au UF (or_intror (or_introl eq_refl))) as EV.
  cbn [t_evol_in timesteps_in arg_in si_arg] in EV. rewrite EV. clear EV.
  destruct (evol_circ _ _ _ _ _ _ _ _ _ _) as [out|e]; [|reflexivity]. cbn [rmap rbind]. change (circ_units ["f_orb"%string]) with [Some hertz].
  destruct out as [[l|F]|l]; cbn [dress hd dress_evo]; [reflexivity| |reflexivity]. change (dress_val (Some hertz)) with (in_unit hertz).
  rewrite no_empty_rows. destruct (has_empty_row F); [reflexivity|].
  rewrite (hz_rows (map (fun x => neqb x f_merged)) (map is_merged_q) F hz_merged_map). cbn [rbind].
  set (G := map (fun r => replace_merged _ r) F). clearbody G. clear F.
  rewrite (h_c_n_si jv gi (map (in_unit msun) mc) (map (map (in_unit hertz)) G) _ [2%Z] (map (in_unit ud) d) no_sky_args mc G d no_sky
             (in_reads _ _ _ unit_msun) (rows_reads _ _ _ unit_hertz) (in_reads _ _ _ UD) no_sky_reads).
  rewrite map_map. replace (map (fun x => map (fun _ : val => Fin 0) (map (in_unit hertz) x)) G) with (map (map (fun _ : num => Fin 0)) G)
    by (apply map_ext; intros r; now rewrite map_map).
  destruct (h_c_n _ _ _ _ _ _ _ _) as [h|e]; [|reflexivity]. cbn [rbind]. rewrite (map_length (in_unit msun)).
  destruct (negb _); [reflexivity|]. pose proof (double_rows_is G) as D2.
  pose proof (noise2_si w kw kw' sc sc' _ t _ _ K C (isv_in _ _ t UT) (isz_rows_is _ _ _ _ D2)) as N.
  destruct (noise2_q _ _ _ _ _) as [nq|e], (noise2 _ _ _ _ _) as [ns|e']; cbn [res_rel] in N; try contradiction; [|now subst].
  destruct N as (s & N). cbn [rbind].
  pose proof (rel_bzip2 (isz frequency_dim 1) (isz time_dim s) (isz frequency_dim s) (fun f n => vmul (vpowi f 2) n) (fun f n => f ^^ 2 * n)%num
    _ _ _ _ D2 N (fun f x n y => char_noise_is s f n x y)) as L.
  destruct (bzip2 _ _ nq) as [lq|e], (bzip2 _ _ ns) as [ls|e']; cbn [res_rel] in L; try contradiction; [|now subst]. cbn [rbind].
  set (h2 := map _ h).
  pose proof (rel_bzip2 (@eq num) (isz frequency_dim s) (isz time_dim (1 / s)) (fun a b => vdiv (Pl a) b) ndiv
    h2 h2 lq ls (forall2_refl _ _ eq_forall2) L (fun a b v x AB V => eq_ind a (fun b => isz time_dim (1/s) (vdiv (Pl a) v) (b / x)%num) (over_noise_is s a v x V) b AB)) as Y.
  destruct (bzip2 _ h2 lq) as [yq|e], (bzip2 _ h2 ls) as [ys|e']; cbn [res_rel] in Y; try contradiction; [|now subst]. cbn [rbind].
  assert (R : res_rel (Forall2 (fun v x => decompose_value v = Ok x))
    (bzipM (fun y x => v <- trapz_q y x;; Ok (vpow v (1/2))) yq (map (map (vmul (lit 2))) (map (map (in_unit hertz)) G)))
    (bzip (fun y x => nsqrt (trapz y x)) ys (map (map (nmul (Fin 2))) G))).
  { unfold bzip. apply (rel_bzipM (Forall2 (isz time_dim (1/s))) (Forall2 (isz frequency_dim 1))); [exact Y|exact D2|].
    intros y y' x x' A B. destruct (trapz_si _ _ _ _ _ _ A B) as (r & -> & R). cbn. eapply ratio_root. exact R. }
  destruct (bzipM _ yq _) as [rq|e], (bzip _ ys _) as [rs|e']; cbn [res_rel] in R; try contradiction; [|now subst].
  cbn [rbind]. eapply mapM_of; [exact R|auto].
Qed.
