(** UnitsSnrEcc.v -- the SNRs of evolving eccentric sources on quantities are those on SI values. *)
From Coq Require Import String Reals ZArith List Bool Lra Lia.
From Verif Require Import Num NumFacts Np NpFacts Utils UtilsFacts Strain Evol EvolFacts Psd Snr Units UnitsSpec UnitsFacts UnitsThms UnitsStrain
  UnitsEvol UnitsEvolSpec UnitsEvolFacts UnitsEvolThms UnitsEvolRuns UnitsEccRuns UnitsPsd UnitsPsdSpec UnitsPsdFacts UnitsSnr UnitsSnrSpec
  UnitsSnrFacts UnitsSnrEvol.
Import ListNotations.
Open Scope list_scope.
Open Scope R_scope.
Open Scope res_scope.

(** *** The number of harmonics *)
Definition wide (n : nat) : list (list (list num)) -> Prop := List.Forall (List.Forall (fun r => length r = n)).

Lemma map2M_all {A B C} (P : A -> Prop) (Q : B -> Prop) (T : C -> Prop) (f : A -> B -> res C) l1 l2 l :
  (forall a b c, P a -> Q b -> f a b = Ok c -> T c) -> List.Forall P l1 -> List.Forall Q l2 -> map2M f l1 l2 = Ok l -> List.Forall T l.
Proof.
  intros F HA. revert l2 l. induction HA as [|a l1 PA HA IH]; intros l2 l HB E; [injection E as <-; constructor|].
  destruct HB as [|b l2 QB HB]; [injection E as <-; constructor|]. cbn [map2M] in E. destruct (f a b) as [c|] eqn:FE; [|discriminate].
  cbn [rbind] in E. destruct (map2M f l1 l2) as [r|] eqn:R; [|discriminate]. injection E as <-. constructor; eauto.
Qed.
Lemma mapM_all {A C} (P : A -> Prop) (T : C -> Prop) (f : A -> res C) l r :
  (forall a c, P a -> f a = Ok c -> T c) -> List.Forall P l -> mapM f l = Ok r -> List.Forall T r.
Proof.
  intros F HA. revert r. induction HA as [|a l PA HA IH]; intros r E; [injection E as <-; constructor|].
  cbn [mapM] in E. destruct (f a) as [c|] eqn:FE; [|discriminate]. cbn [rbind] in E. destruct (mapM f l) as [s|] eqn:R; [|discriminate].
  injection E as <-. constructor; eauto.
Qed.
Lemma bzipM_all {A B C} (P : A -> Prop) (Q : B -> Prop) (T : C -> Prop) (f : A -> B -> res C) l1 l2 l :
  (forall a b c, P a -> Q b -> f a b = Ok c -> T c) -> List.Forall P l1 -> List.Forall Q l2 -> bzipM f l1 l2 = Ok l -> List.Forall T l.
Proof.
  intros F HA HB. unfold bzipM. destruct (_ =? _)%nat; [now apply (map2M_all P Q)|].
  destruct l1 as [|a [|a' l1]].
  - destruct l2 as [|b [|b' l2]]; try discriminate. now intros [= <-].
  - apply (mapM_all Q); [|exact HB]. intros b c QB. apply F; [|exact QB]. now inversion HA.
  - destruct l2 as [|b [|b' l2]]; try discriminate. apply (mapM_all P); [|exact HA]. intros x c PX. apply F; [exact PX|]. now inversion HB.
Qed.
Lemma mapM_length {A C} (f : A -> res C) l r : mapM f l = Ok r -> length r = length l.
Proof.
  revert r. induction l as [|a l IH]; intros r E; [now injection E as <-|]. cbn [mapM] in E. destruct (f a); [|discriminate].
  cbn [rbind] in E. destruct (mapM f l); [|discriminate]. injection E as <-. cbn. f_equal. now apply IH.
Qed.
Lemma map2M_length {A B C} (f : A -> B -> res C) l1 l2 r : map2M f l1 l2 = Ok r -> length l1 = length l2 -> length r = length l1.
Proof.
  revert l2 r. induction l1 as [|a l1 IH]; intros [|b l2] r E L; try discriminate; [now injection E as <-|]. cbn [map2M] in E.
  destruct (f a b); [|discriminate]. cbn [rbind] in E. destruct (map2M f l1 l2) eqn:M; [|discriminate]. injection E as <-. cbn.
  f_equal. apply (IH l2); [exact M|]. now injection L.
Qed.
(** one (or as many) with [n] *)
Lemma bzip_wide {A B C} (f : A -> B -> C) l1 l2 r n : length l1 = n \/ length l1 = 1%nat -> length l2 = n -> bzip f l1 l2 = Ok r -> length r = n.
Proof.
  intros A1 B1. unfold bzip, bzipM. destruct (Nat.eqb_spec (length l1) (length l2)) as [E|E].
  - intros M. rewrite (map2M_length _ _ _ _ M E). congruence.
  - destruct A1 as [A1|A1]; [congruence|]. destruct l1 as [|a [|a' l1]]; try discriminate. intros M. rewrite (mapM_length _ _ _ M). exact B1.
Qed.
Lemma bzip3_wide f a b r n : wide n a -> wide n b -> bzip3 f a b = Ok r -> wide n r.
Proof.
  intros A B. apply (bzipM_all (List.Forall (fun r => length r = n)) (List.Forall (fun r => length r = n))); auto. clear. intros a b r A B.
  apply (bzipM_all (fun r : list num => length r = n) (fun r : list num => length r = n)); auto. intros x y z X Y. apply bzip_wide; auto.
Qed.
Lemma bzip3_wide_1 f a b r n : wide 1 a -> wide n b -> bzip3 f a b = Ok r -> wide n r.
Proof.
  intros A B. apply (bzipM_all (List.Forall (fun r => length r = 1%nat)) (List.Forall (fun r => length r = n))); auto. clear. intros a b r A B.
  apply (bzipM_all (fun r : list num => length r = 1%nat) (fun r : list num => length r = n)); auto. intros x y z X Y. apply bzip_wide; auto.
Qed.
Lemma wide_map (f : num -> num) n a : wide n a -> wide n (map (map (map f)) a).
Proof.
  intros A. induction A as [|r a R A IH]; constructor; [|exact IH]. clear - R. induction R; constructor; auto. now rewrite map_length.
Qed.
Lemma wide_rows {A} (g : A -> list num) n (l : list (list A)) : (forall x, length (g x) = n) -> wide n (map (map g) l).
Proof.
  intros G. induction l as [|r l IH]; constructor; [|exact IH]. clear - G. induction r; constructor; auto.
Qed.
Lemma h_c_n_wide jv gi m f e ns d h : h_c_n jv gi m f e ns d no_sky = Ok h -> wide (length ns) h.
Proof.
  unfold h_c_n. destruct (existsb _ ns); [discriminate|]. destruct (bzip2 _ _ _) as [md|]; [|discriminate]. cbn [rbind].
  destruct (bzip2 _ _ _) as [mdf|]; [|discriminate]. cbn [rbind]. destruct (bzip2 _ _ _) as [ind|]; [|discriminate]. cbn [rbind].
  destruct (bzip3 _ _ _) as [r|] eqn:E; [|discriminate]. cbn [rbind]. change (modulate no_sky r) with (Ok r). intros [= <-].
  eapply bzip3_wide_1; [| |exact E].
  - unfold newaxis2. apply wide_rows. reflexivity.
  - unfold n_dependent. apply wide_rows. intros. apply map_length.
Qed.

Lemma regroup_wide (shape : list (list num)) (flat : list num) n : List.Forall (fun r => length r = n) shape ->
  (length (concat shape) <= length flat)%nat -> List.Forall (fun r : list num => length r = n) (regroup shape flat).
Proof.
  intros H. revert flat. induction H as [|r s R H IH]; intros flat L; cbn; constructor.
  - rewrite firstn_length. cbn in L. rewrite app_length in L. lia.
  - apply IH. rewrite skipn_length. cbn in L. rewrite app_length in L. lia.
Qed.
Lemma regroup3_wide (shape : list (list (list num))) (flat : list num) n : wide n shape ->
  (length (concat (map (@concat num) shape)) <= length flat)%nat -> wide n (regroup3 shape flat).
Proof.
  intros H. revert flat. induction H as [|r s R H IH]; intros flat L; cbn; constructor.
  - apply regroup_wide; [exact R|]. cbn in L. rewrite app_length in L. lia.
  - apply IH. rewrite skipn_length. cbn in L. rewrite app_length in L. lia.
Qed.
Lemma noise3_wide w kw sc t f r n : wide n f -> noise3 w kw sc t f = Ok r -> wide n r.
Proof.
  intros W. unfold noise3. cbv zeta. destruct (noise _ _ _ _ _) as [l|]; [|discriminate]. cbn [rbind].
  destruct (Nat.eqb_spec (length l) (length (concat (map (@concat num) f)))) as [E|E]; [|discriminate]. intros [= <-].
  apply regroup3_wide; [exact W|]. lia.
Qed.

(** *** Integrals by harmonic *)
Lemma column_is {A B} (R : A -> B -> Prop) da db k n l l' : (k < n)%nat -> Forall2 (Forall2 R) l l' ->
  List.Forall (fun r => length r = n) l' -> Forall2 R (column da k l) (column db k l').
Proof.
  intros K H W. induction H as [|r r' l l' RR H IH]; [constructor|]. inversion W as [|? ? WR W' EQ]; subst. cbn. constructor; [|auto].
  assert (K' : (k < length r')%nat) by lia. clear - RR K'. revert k K'. induction RR as [|x y r r' XY RR IH]; intros k K'; [cbn in K'; lia|].
  destruct k; [exact XY|]. cbn. apply IH. cbn in K'. lia.
Qed.
Lemma trapz_axis1_si sy sx nh y y' x x' : Forall2 (Forall2 (isz time_dim sy)) y y' -> Forall2 (Forall2 (isz frequency_dim sx)) x x' ->
  List.Forall (fun r => length r = nh) y' -> List.Forall (fun r => length r = nh) x' ->
  exists r s, trapz_axis1_q nh y x = Ok r /\ Forall2 (ratio s) r (trapz_axis1 nh y' x').
Proof.
  intros Y X WY WX. set (s := match y, x with [], _ | _, [] => 1 | _, _ => sx * sy end).
  enough (E : forall ks, List.Forall (fun k => (k < nh)%nat) ks ->
    exists r, mapM (fun k => trapz_q (column nowhere k y) (column nowhere k x)) ks = Ok r /\
              Forall2 (ratio s) r (map (fun k => trapz (column NaN k y') (column NaN k x')) ks)).
  { destruct (E (seq 0 nh)) as (r & ER & R); [apply Forall_forall; intros k IK; apply in_seq in IK; lia|].
    exists r, s. split; [exact ER|exact R]. }
  intros ks K. induction K as [|k ks K _ (r & ER & R)]; [exists []; split; constructor|]. cbn [mapM map].
  pose proof (column_is _ nowhere NaN k nh _ _ K Y WY) as CY. pose proof (column_is _ nowhere NaN k nh _ _ K X WX) as CX.
  destruct (trapz_si _ _ _ _ _ _ CY CX) as (q & EQ & RQ). rewrite EQ. cbn [rbind]. rewrite ER. cbn [rbind].
  exists (q :: r). split; [reflexivity|]. constructor; [|exact R]. unfold s. destruct Y, X; exact RQ.
Qed.

(** *** What the eccentric functions return *)
Lemma sum_ratio s row row' : Forall2 (ratio s) row row' -> exists r t, sum_q row = Ok r /\ ratio t r (nsum row').
Proof.
  intros H. destruct H as [|v x row row' V H].
  { exists (Qy (Fin 0) one_), 1. split; [reflexivity|]. apply (zero_ratio one_); [cbn; lra|reflexivity]. }
  assert (Z : ratio s (Qy (Fin 0) (unit_of v)) (Fin 0)).
  { destruct V as (Q & (P & D & S) & E). rewrite <- E. now apply zero_ratio. }
  unfold sum_q, nsum. pose proof (Forall2_cons _ _ V H) as F. revert Z F. generalize (v :: row) as l. generalize (x :: row') as l'.
  generalize (Qy (Fin 0) (unit_of v)) as a. generalize (Fin 0) as z. clear. intros z a l' l A F.  revert z a A.
  induction F as [|v x l l' V F IH]; intros z a A; cbn [fold_left]; [exists a, s; split; [reflexivity|exact A]|].
  cbn [rbind]. destruct A as (QA & (IA & SA)), V as (QV & (IV & SV)).
  destruct (is_add a v _ _ _ IA IV) as (b & E & I & Q). unfold vadd. rewrite E. apply IH.
  split; [rewrite Q, QA; reflexivity|]. split; [exact I|]. rewrite (sum_unit nadd _ _ _ QA QV E). exact SA.
Qed.
Lemma mag_ratio s row row' : Forall2 (ratio s) row row' -> map (fun x => x * Fin s)%num (map mag row) = row'.
Proof.
  intros H. induction H as [|v x row row' (Q & (P & D & S) & E) H IH]; [reflexivity|]. cbn [map]. rewrite IH. f_equal.
  rewrite <- E, <- S. reflexivity.
Qed.
Lemma loudest_ratio s row row' : Forall2 (ratio s) row row' -> loudest (map mag row) = loudest row'.
Proof.
  intros H. unfold loudest. rewrite <- (mag_ratio _ _ _ H).
  destruct H as [|v x row row' (Q & (P & D & S) & E) H]; [reflexivity|]. rewrite argmax_scale; [reflexivity|]. rewrite <- E. exact P.
Qed.
Definition rows_of_ratios : list (list val) -> list (list num) -> Prop := Forall2 (fun r r' => exists s, Forall2 (ratio s) r r').
Lemma returned_si rm rs l l' : rows_of_ratios l l' -> returned_q rm rs l = returned rm rs l'.
Proof.
  intros H. unfold returned_q, returned. destruct rs.
  { replace (mapM (mapM decompose_value) l) with (Ok l' : res (list (list num))); [reflexivity|]. symmetry. eapply mapM_of; [exact H|].
    intros r r' (s & R). eapply mapM_of; [exact R|]. intros. eapply ratio_decomposed; eassumption. }
  assert (E : exists sums, mapM sum_q l = Ok sums /\ mapM (fun v => decompose_value (vpow v (1/2))) sums = Ok (map (fun r => nsqrt (nsum r)) l')).
  { clear - H. induction H as [|r r' l l' (s & R) H (sums & ES & EM)]; [exists []; split; reflexivity|]. cbn [mapM map].
    destruct (sum_ratio _ _ _ R) as (q & t & EQ & Q). exists (q :: sums). rewrite EQ, ES. split; [reflexivity|]. cbn [mapM].
    rewrite (ratio_root _ _ _ Q), EM. reflexivity. }
  destruct E as (sums & -> & E). cbn [rbind]. rewrite E. cbn [rbind]. destruct rm; [|reflexivity].
  replace (argmax_axis1 (map (map mag) l)) with (argmax_axis1 l'); [reflexivity|]. unfold argmax_axis1.
  assert (X : existsb (fun r : list num => match r with [] => true | _ => false end) (map (map mag) l)
            = existsb (fun r : list num => match r with [] => true | _ => false end) l').
  { clear - H. induction H as [|r r' l l' (s & R) H IH]; [reflexivity|]. cbn [map existsb]. rewrite IH. now destruct R. }
  rewrite X. destruct (existsb _ l'); [reflexivity|]. f_equal. rewrite map_map.
  clear - H. induction H as [|r r' l l' (s & R) H IH]; [reflexivity|]. cbn [map]. now rewrite IH, (loudest_ratio _ _ _ R).
Qed.

(** *** Eccentric sources *)
Lemma ecc_merge_times quad ecc m1 m2 f tm u1 u2 uf um : unit_for mass_dim u1 -> unit_for mass_dim u2 -> unit_for frequency_dim uf -> unit_for time_dim um ->
  exists u, unit_for time_dim u /\
  match list_in um tm with
  | None => get_t_merge_ecc_q quad ecc None (Some (map (in_unit uf) f)) None (Some (map (in_unit u1) m1)) (Some (map (in_unit u2) m2))
              small_e_tol_default large_e_tol_default true
  | Some t => Ok t
  end = rmap (map (in_unit u))
  match tm with
  | None => get_t_merge_ecc quad ecc None (Some f) None (Some m1) (Some m2) small_e_tol_default large_e_tol_default true
  | Some t => Ok t
  end.
Proof.
  intros U1 U2 UF UM. destruct tm as [tm|]; [exists um; split; [exact UM|reflexivity]|]. exists gigayear. split; [exact unit_gigayear|].
  exact (t_merge_ecc_si quad ecc None (Some m1) (Some m2) None (Some f) _ _ true beta_si u1 u2 au uf unit_beta U1 U2 unit_au UF).
Qed.

(** two output variables, two outputs *)
Lemma ecc_two_outputs quad odeint sched ecc te n ts b m1 m2 a f np am ex tb tm out s :
  evol_ecc quad odeint sched ecc te n ts b m1 m2 a f ["ecc"%string; "f_orb"%string] np am ex tb tm = Ok (out, s) ->
  exists e g, out = Many [e; g].
Proof.
  unfold evol_ecc. destruct (ensure_array _) as [l single]. do 6 (destruct l as [|? l]; [discriminate|]). destruct l; [|discriminate].
  destruct (check_arr _ _ _ _ _); [|discriminate]. cbn [rbind]. destruct (_ && _); [discriminate|].
  destruct (arr_of _); [|discriminate]. destruct (bzip c_0 _ _); [|discriminate]. cbn [rbind].
  destruct (create_timesteps_array _ _ _ _ _ _ _); [|discriminate]. cbn [rbind].
  match goal with |- context [rbind ?m _] => destruct m; [|discriminate] end. cbn [rbind].
  match goal with |- context [rbind ?m _] => destruct m; [|discriminate] end. cbn [rbind].
  match goal with |- context [rbind ?m _] => destruct m; [|discriminate] end. cbn [rbind].
  match goal with |- context [rbind ?m _] => destruct m; [|discriminate] end. cbn. intros [= <- _]. eauto.
Qed.

Lemma plain_rows (l : list (list num)) : map (map mag) (map (map Pl) l) = l.
Proof. rewrite map_map. rewrite <- (map_id l) at 2. apply map_ext. intros r. rewrite map_map. apply map_id. Qed.
Lemma ecc_rows e F :
  map2M (fun e f => replace_merged_q (map2 (fun e x => neqb e (Fin 0) && is_merged_q x) e f) f) e (map (map (in_unit hertz)) F)
  = Ok (map (map (in_unit hertz)) (map2 (fun e f => replace_merged (map2 (fun e x => neqb e (Fin 0) && neqb x f_merged) e f) f) e F)).
Proof.
  revert F. induction e as [|r e IH]; intros [|g F]; try reflexivity. cbn [map map2M map2]. rewrite IH.
  replace (map2 (fun e x => neqb e (Fin 0) && is_merged_q x) r (map (in_unit hertz) g))
    with (map2 (fun e x => neqb e (Fin 0) && neqb x f_merged) r g).
  2: { clear. revert g. induction r as [|a r IH]; intros [|x g]; try reflexivity. cbn [map map2]. now rewrite IH, hz_merged. }
  now rewrite replace_si.
Qed.
Lemma harmonic_rows_is ks G : Forall2 (Forall2 (Forall2 (isz frequency_dim 1)))
  (map (map (fun f => map (fun k => vmul (Pl (nZ k)) f) ks)) (map (map (in_unit hertz)) G))
  (map (map (fun f => map (fun k => nZ k * f)%num ks)) G).
Proof.
  induction G as [|r G IH]; constructor; [|exact IH]. clear. induction r as [|x r IH]; constructor; [|exact IH].
  apply forall2_map_l. intros k. apply hz_times.
Qed.
Lemma isz_rows3_is d s l l' : Forall2 (Forall2 (Forall2 (isz d s))) l l' -> Forall2 (Forall2 (all_is d)) l l'.
Proof. apply forall2_imp. intros a b. apply isz_rows_is. Qed.
Lemma arange1_length k : length (arange1 k) = k.
Proof. unfold arange1. now rewrite map_length, seq_length. Qed.

Theorem ecc_evolving_si w jv gi quad odeint sched m1 m2 f d ecc nh t n tm sc sc' np rm rs kw kw' u1 u2 uf ud ut um :
  unit_for mass_dim u1 -> unit_for mass_dim u2 -> unit_for frequency_dim uf -> unit_for length_dim ud -> unit_for time_dim ut ->
  unit_for time_dim um -> same_curve sc sc' -> same_settings kw kw' ->
  snr_ecc_evolving_q w jv gi quad odeint sched (map (in_unit u1) m1) (map (in_unit u2) m2) (map (in_unit uf) f) (map (in_unit ud) d) ecc nh
    (in_unit ut t) n (list_in um tm) sc np rm rs kw = snr_ecc_evolving w jv gi quad odeint sched m1 m2 f d ecc nh t n tm sc' np rm rs kw'.
Proof.
  intros U1 U2 UF UD UT UM C K. unfold snr_ecc_evolving_q, snr_ecc_evolving. rewrite chirp_masses by assumption.
  destruct (bzip chirp_mass m1 m2) as [mc|e]; [|reflexivity]. cbn [rmap rbind].
  destruct (ecc_merge_times quad ecc m1 m2 f tm u1 u2 uf um U1 U2 UF UM) as (u & UU & E). rewrite E. clear E.
  destruct (match tm with Some _ => _ | None => _ end) as [tms|e]; [|reflexivity]. cbn [rmap rbind]. cbv zeta.
  rewrite ecc_t_evol by assumption. cbn [rbind]. set (te := map _ tms). rewrite t_before_in.
  pose proof (evol_ecc_si quad odeint sched (PArr ecc) (TArr te) n SNone Absent (Array m1) (Array m2) Absent (Array f)
    ["ecc"%string; "f_orb"%string] np true true t_before_ecc (Some tms) second second beta_si u1 u2 au uf year u
    unit_second unit_second unit_beta U1 U2 unit_au UF unit_year UU) as EV.
  cbn [t_evol_in timesteps_in arg_in si_arg list_in option_map] in EV. rewrite EV. clear EV.
  destruct (evol_ecc _ _ _ _ _ _ _ _ _ _ _ _ _ _ _ _ _ _) as [[out ts]|e] eqn:EE; [|reflexivity]. cbn [rmap rbind fst snd].
  destruct (ecc_two_outputs _ _ _ _ _ _ _ _ _ _ _ _ _ _ _ _ _ _ _ EE) as (x & y & ->). clear EE ts.
  change (ecc_units ["ecc"%string; "f_orb"%string]) with [None; Some hertz]. cbn [dress map2].
  destruct x as [x|e]; [reflexivity|]. destruct y as [y|F]; [reflexivity|]. cbn [dress_evo].
  change (dress_val (Some hertz)) with (in_unit hertz). change (dress_val None) with Pl.
  rewrite no_empty_rows. destruct (has_empty_row F); [reflexivity|]. rewrite plain_rows, ecc_rows. cbn [rbind].
  set (G := map2 _ e F). clearbody G. clear F.
  rewrite (h_c_n_si jv gi (map (in_unit msun) mc) (map (map (in_unit hertz)) G) e (arange1 nh) (map (in_unit ud) d) no_sky_args mc G d no_sky
             (in_reads _ _ _ unit_msun) (rows_reads _ _ _ unit_hertz) (in_reads _ _ _ UD) no_sky_reads).
  destruct (h_c_n _ _ _ _ _ _ _ _) as [h|err] eqn:EH; [|reflexivity]. cbn [rbind].
  apply h_c_n_wide in EH. rewrite arange1_length in EH. apply (wide_map (fun x => x ^^ 2)%num) in EH.
  set (h2 := map (map (map _)) h) in *. clearbody h2. clear h.
  pose proof (harmonic_rows_is (arange1 nh) G) as FN. set (fq := map (map _) (map (map (in_unit hertz)) G)) in *.
  assert (WF : wide nh (map (map (fun f => map (fun k => nZ k * f)%num (arange1 nh))) G)).
  { apply wide_rows. intros. rewrite map_length. apply arange1_length. }
  set (fs := map (map (fun f => map (fun k => nZ k * f)%num (arange1 nh))) G) in *. clearbody fq fs.
  pose proof (noise3_si w kw kw' sc sc' _ t _ _ K C (isv_in _ _ t UT) (isz_rows3_is _ _ _ _ FN)) as N.
  destruct (noise3_q _ _ _ _ _) as [nq|err], (noise3 _ _ _ _ _) as [ns|err'] eqn:EN; cbn [res_rel] in N; try contradiction; [|now subst].
  apply (noise3_wide _ _ _ _ _ _ _ WF) in EN. destruct N as (s & N). cbn [rbind].
  pose proof (rel_bzip3 (isz frequency_dim 1) (isz time_dim s) (isz frequency_dim s) (fun f n => vmul (vpowi f 2) n) (fun f n => f ^^ 2 * n)%num
    _ _ _ _ FN N (fun f x n y => char_noise_is s f n x y)) as L.
  destruct (bzip3 _ _ nq) as [lq|err], (bzip3 _ _ ns) as [ls|err'] eqn:EL; cbn [res_rel] in L; try contradiction; [|now subst].
  apply (bzip3_wide _ _ _ _ _ WF EN) in EL. cbn [rbind].
  pose proof (rel_bzip3 (@eq num) (isz frequency_dim s) (isz time_dim (1 / s)) (fun a b => vdiv (Pl a) b) ndiv
    h2 h2 lq ls (forall2_refl _ _ (fun x => forall2_refl _ _ eq_forall2)) L
    (fun a b v x AB V => eq_ind a (fun b => isz time_dim (1/s) (vdiv (Pl a) v) (b / x)%num) (over_noise_is s a v x V) b AB)) as Y.
  destruct (bzip3 _ h2 lq) as [yq|err], (bzip3 _ h2 ls) as [ys|err'] eqn:EY; cbn [res_rel] in Y; try contradiction; [|now subst].
  apply (bzip3_wide _ _ _ _ _ EH EL) in EY. cbn [rbind].
  set (RY := fun (q : list (list val)) (r : list (list num)) => Forall2 (Forall2 (isz time_dim (1 / s))) q r /\ List.Forall (fun r => length r = nh) r).
  set (RX := fun (q : list (list val)) (r : list (list num)) => Forall2 (Forall2 (isz frequency_dim 1)) q r /\ List.Forall (fun r => length r = nh) r).
  assert (BY : Forall2 RY yq ys).
  { clear - Y EY. induction Y as [|a b l l' AB Y IH]; [constructor|]. inversion EY; subst. constructor; [split; assumption|auto]. }
  assert (BX : Forall2 RX fq fs).
  { clear - FN WF. induction FN as [|a b l l' AB Y IH]; [constructor|]. inversion WF; subst. constructor; [split; assumption|auto]. }
  assert (R : res_rel rows_of_ratios (bzipM (trapz_axis1_q nh) yq fq) (bzip (trapz_axis1 nh) ys fs)).
  { unfold bzip. apply (rel_bzipM RY RX); [exact BY|exact BX|]. intros a b x z (A & WA) (X & WX).
    destruct (trapz_axis1_si _ _ nh _ _ _ _ A X WA WX) as (r & z' & -> & R). cbn. exists z'. exact R. }
  destruct (bzipM _ yq _) as [rq|err], (bzip _ ys _) as [rr|err']; cbn [res_rel] in R; try contradiction; [|now subst].
  cbn [rbind]. now apply returned_si.
Qed.
