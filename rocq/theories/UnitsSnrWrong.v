(** UnitsSnrWrong.v -- observation times of the wrong dimension in snr.py. *)
From Coq Require Import String Reals ZArith List Bool Lra Lia.
From Verif Require Import Num NumFacts Np NpFacts Utils UtilsFacts Strain Evol EvolFacts Psd Snr Units UnitsSpec UnitsFacts UnitsThms UnitsStrain
  UnitsEvol UnitsEvolSpec UnitsEvolFacts UnitsEvolThms UnitsPsd UnitsPsdSpec UnitsPsdFacts UnitsSnr UnitsSnrSpec UnitsSnrFacts UnitsSnrEvol UnitsSnrEcc UnitsTimes.
Import ListNotations.
Open Scope list_scope.
Open Scope R_scope.
Open Scope res_scope.

Lemma any_ratio a b x y d : isv d a x -> isv time_dim b y -> decompose_value (vdiv a b) = Ok (x / y)%num.
Proof.
  intros A B. apply carries_decompose. split; [rewrite quantity_div, (not_plain _ _ _ time_not_none B); apply orb_true_r|].
  apply (reads_of (ddiv d time_dim)). unfold isv in *. mean.
Qed.
Lemma any_root a b x y d : isv d a x -> isv time_dim b y -> decompose_value (vpow (vdiv a b) (1/2)) = Ok (nsqrt (x / y)).
Proof.
  intros A B. apply carries_decompose. split; [rewrite quantity_pow, quantity_div, (not_plain _ _ _ time_not_none B); apply orb_true_r|].
  apply (reads_of (dpow (ddiv d time_dim) (1/2))). unfold isv, nsqrt in *. mean.
Qed.

(** With an interpolated sensitivity curve the stationary functions take an observation time of any dimension, or a plain
    number, and read it in SI base units. *)
Theorem circ_any_time w jv gi m f d m' f' d' tq s s' g g' kw kw' :
  Forall2 reads m m' -> all_is frequency_dim f f' -> Forall2 reads d d' -> proper tq -> sky_reads s s' -> same_curve (Some g) (Some g') ->
  snr_circ_stationary_q w jv gi m f d tq s (Some g) kw = snr_circ_stationary w jv gi m' f' d' (si tq) s' (Some g') kw'.
Proof.
  intros M F D P S (z & C). assert (T : isv (dim_of tq) tq (si tq)) by (split; [exact P|split; reflexivity]).
  unfold snr_circ_stationary_q, snr_circ_stationary. rewrite (all_quantities _ _ _ frequency_not_none F). cbn [negb].
  rewrite (h_0_n_si jv gi m (newaxis f) _ [2%Z] d s m' (newaxis f') d' s' M (rel_newaxis _ _ _ (all_reads _ _ _ F)) D S).
  replace (map (fun _ : val => Fin 0) f) with (map (fun _ : num => Fin 0) f') by (clear - F; induction F; cbn; congruence).
  destruct (h_0_n _ _ _ _ _ _ _ _) as [h|e]; [|reflexivity]. cbn [rbind noise_q noise].
  eapply (bzip_decompose (isv (dim_of tq)) (isv time_dim)).
  - apply (forall2_map_l (isv (dim_of tq)) (fun x => vmul (Pl x) tq) (fun x => (x * si tq)%num)). intros x. now apply isv_times.
  - eapply rel_map; [eapply rel_map; [exact F|intros v x; apply isv_double]|]. intros v x V. now apply C.
  - intros. eapply any_root; eassumption.
Qed.
Theorem ecc_any_time w jv gi m f ecc d m' f' d' tq nh g g' rm rs kw kw' :
  Forall2 reads m m' -> all_is frequency_dim f f' -> Forall2 reads d d' -> proper tq -> same_curve (Some g) (Some g') ->
  snr_ecc_stationary_q w jv gi m f ecc d tq nh (Some g) rm rs kw = snr_ecc_stationary w jv gi m' f' ecc d' (si tq) nh (Some g') rm rs kw'.
Proof.
  intros M F D P (z & C). assert (T : isv (dim_of tq) tq (si tq)) by (split; [exact P|split; reflexivity]).
  unfold snr_ecc_stationary_q, snr_ecc_stationary. cbv zeta.
  rewrite (h_0_n_si jv gi m (newaxis f) _ _ d no_sky_args m' (newaxis f') d' no_sky M (rel_newaxis _ _ _ (all_reads _ _ _ F)) D no_sky_reads).
  destruct (h_0_n _ _ _ _ _ _ _ _) as [h|e]; [|reflexivity]. cbn [rbind]. rewrite (rel_length _ _ _ M).
  destruct (negb _); [reflexivity|]. unfold noise2_q, noise2, noise_q, noise. cbn [rbind].
  pose proof (harmonics_is (arange1 nh) f f' F) as FN. set (fq := map _ f) in *. set (fs := map _ f') in *.
  assert (N : Forall2 (Forall2 (isv time_dim)) (regroup fq (map g (concat fq))) (regroup fs (map g' (concat fs)))).
  { eapply rel_regroup; [exact FN|]. eapply rel_map; [apply rel_concat; exact FN|]. intros v x V. now apply C. }
  set (n := regroup fq _) in *. set (n' := regroup fs _) in *.
  assert (E : (r <- bzip2 vdiv (map (map (fun x => vmul (Pl (x ^^ 2)%num) tq)) (map (@concat num) h)) n ;; mapM (mapM decompose_value) r)
    = bzip2 ndiv (map (map (fun x => x ^^ 2 * si tq)%num) (map (@concat num) h)) n').
  { apply (bzip2_decompose (isv (dim_of tq)) (isv time_dim)); [|exact N|intros; eapply any_ratio; eassumption].
    apply forall2_map_l. intros r. apply forall2_map_l. intros x. now apply isv_times. }
  rewrite <- E. destruct (bzip2 vdiv _ n); reflexivity.
Qed.

(** The evolving functions raise a unit error. *)
Lemma bzip_some {A B C} (f : A -> B -> C) xs ys l : xs <> [] -> ys <> [] -> bzip f xs ys = Ok l -> l <> [].
Proof.
  intros NX NY E ->. apply bzipM_in in E. destruct E as (_ & _ & P & _). destruct ys as [|y ys]; [congruence|].
  destruct (P NX y (or_introl eq_refl)) as (_ & _ & _ & [] & _).
Qed.
Lemma check_some m1 m2 f ba : m1 <> [] -> m2 <> [] -> f <> [] -> check_arr None (Some m1) (Some m2) None (Some f) = Ok ba ->
  fst ba <> [] /\ snd ba <> [].
Proof.
  intros N1 N2 NF. unfold check_arr, check_mass_freq_input, beta_arr, get_a_arr.
  destruct (bzip beta m1 m2) as [b|] eqn:EB; [|discriminate]. cbn [rbind].
  match goal with |- context [bzip ?g m1 m2] => destruct (bzip g m1 m2) as [mm|] eqn:EM end; [|discriminate]. cbn [rbind].
  match goal with |- context [bzip ?g mm f] => destruct (bzip g mm f) as [a|] eqn:EA end; [|discriminate]. cbn [rbind].
  intros E. injection E as <-. cbn [fst snd].
  split; [exact (bzip_some _ _ _ _ N1 N2 EB)|exact (bzip_some _ _ _ _ (bzip_some _ _ _ _ N1 N2 EM) NF EA)].
Qed.
Lemma circ_merge_some m1 m2 f l : m1 <> [] -> m2 <> [] -> f <> [] -> get_t_merge_circ None (Some m1) (Some m2) None (Some f) = Ok l -> l <> [].
Proof.
  intros N1 N2 NF. unfold get_t_merge_circ. destruct (check_arr _ _ _ _ _) as [ba|] eqn:E; [|discriminate]. cbn [rbind].
  destruct (check_some _ _ _ _ N1 N2 NF E). now apply bzip_some.
Qed.
Lemma ecc_merge_some quad ecc m1 m2 f s g x l : ecc <> [] -> m1 <> [] -> m2 <> [] -> f <> [] ->
  get_t_merge_ecc quad ecc None (Some f) None (Some m1) (Some m2) s g x = Ok l -> l <> [].
Proof.
  intros NE N1 N2 NF. unfold get_t_merge_ecc. destruct (check_arr _ _ _ _ _) as [ba|] eqn:E; [|discriminate]. cbn [rbind].
  destruct (check_some _ _ _ _ N1 N2 NF E). unfold get_t_merge_ecc_core. destruct (forallb _ ecc); [now apply bzip_some|].
  destruct (negb _); [discriminate|]. cbv zeta. intros L. injection L as L. intros ->. apply NE. apply length_zero_iff_nil.
  apply (f_equal (@length num)) in L. destruct x; rewrite !NpFacts.scatter_length, map_length in L; exact L.
Qed.

Theorem evolving_wrong_time w jv gi quad m1 m2 f d tq n tm sc kw u1 u2 uf um :
  unit_for mass_dim u1 -> unit_for mass_dim u2 -> unit_for frequency_dim uf -> unit_for time_dim um -> wrong time_dim tq ->
  m1 <> [] -> m2 <> [] -> f <> [] -> tm <> Some [] ->
  (forall d' t' sc' kw' r, snr_circ_evolving w jv gi quad m1 m2 f d' t' n tm sc' kw' = Ok r ->
   snr_circ_evolving_q w jv gi quad (map (in_unit u1) m1) (map (in_unit u2) m2) (map (in_unit uf) f) d tq n (list_in um tm) sc kw = Err UnitError) /\
  (forall odeint sched ecc nh np rm rs d' t' sc' kw' r, ecc <> [] ->
   snr_ecc_evolving w jv gi quad odeint sched m1 m2 f d' ecc nh t' n tm sc' np rm rs kw' = Ok r ->
   snr_ecc_evolving_q w jv gi quad odeint sched (map (in_unit u1) m1) (map (in_unit u2) m2) (map (in_unit uf) f) d ecc nh tq n
     (list_in um tm) sc np rm rs kw = Err UnitError).
Proof.
  intros U1 U2 UF UM (_ & D & A) N1 N2 NF NT.
  assert (W : forall u y, unit_for time_dim u -> vsum nmin (in_unit u y) tq = Err UnitError).
  { intros u y UU. apply sum_wrong; [|discriminate|exact A]. intros E. apply D. rewrite <- E. exact (proj2 UU). }
  split.
  - intros d' t' sc' kw' r. unfold snr_circ_evolving_q, snr_circ_evolving. rewrite chirp_masses by assumption.
    destruct (bzip chirp_mass m1 m2) as [mc|e]; [|discriminate]. cbn [rmap rbind].
    destruct (circ_merge_times m1 m2 f tm u1 u2 uf um U1 U2 UF UM) as (u & UU & E). rewrite E. clear E.
    destruct (match tm with Some _ => _ | None => _ end) as [tms|e] eqn:T; [|discriminate]. intros _. cbn [rmap rbind].
    assert (NS : tms <> []) by (destruct tm as [l|]; [congruence|eapply circ_merge_some; [| | |exact T]; assumption]).
    destruct tms as [|x tms]; [congruence|]. cbn [map mapM]. unfold vsub.
    rewrite (vsum_in nsub sub_scale time_dim u x _ _ UU time_not_none one_second). cbn [rbind]. now rewrite W.
  - intros odeint sched ecc nh np rm rs d' t' sc' kw' r NE. unfold snr_ecc_evolving_q, snr_ecc_evolving. rewrite chirp_masses by assumption.
    destruct (bzip chirp_mass m1 m2) as [mc|e]; [|discriminate]. cbn [rmap rbind].
    destruct (ecc_merge_times quad ecc m1 m2 f tm u1 u2 uf um U1 U2 UF UM) as (u & UU & E). rewrite E. clear E.
    destruct (match tm with Some _ => _ | None => _ end) as [tms|e] eqn:T; [|discriminate]. intros _. cbn [rmap rbind].
    assert (NS : tms <> []) by (destruct tm as [l|]; [congruence|eapply ecc_merge_some; [| | | |exact T]; assumption]).
    destruct tms as [|x tms]; [congruence|]. cbn [map mapM]. unfold vsub. rewrite t_before_in.
    rewrite (vsum_in nsub sub_scale time_dim u x _ _ UU time_not_none (isv_in _ _ _ unit_year)). cbn [rbind]. now rewrite W.
Qed.
