(** PropSnr.v -- properties C12 (SNR part), C40-C45, C78-C80 (signal-to-noise ratios). *)
From Coq Require Import String Reals ZArith List Bool Lra Lia.
From Verif Require Import Num NumFacts Np Utils Spec UtilsFacts Strain Evol EvolSpec OdeintFacts StrainSpec Psd PsdSpec PsdFacts Snr SnrSpec SnrThms SnrThms2 SnrThms3 SnrThms4 PositiveFacts.
Import ListNotations.
Open Scope R_scope.

(** A Bessel routine with the right values at 0, the kwargs of TianQin, and an interpolated curve. *)
Definition jv0 (k : Z) (x : num) : num := match x with Fin r => Fin (if (k =? 0)%Z then 1 else 0) | _ => NaN end.
Definition kw_lisa : psd_kwargs := mkKw "LISA" None Auto true (CName "auto").
Definition kw_tianqin : psd_kwargs := mkKw "TianQin" None Auto false (CName "auto").
Definition flat_curve (x : num) : num := Fin 1e-40.
Example noise_satisfiable : forall w,
  (exists p, noise_curve w kw_lisa None (4 * year) p /\ proper_noise p) /\
  (noise_curve w default_kw (Some flat_curve) (4 * year) flat_curve /\ proper_noise flat_curve).
Proof.
  intros w. split.
  - destruct (built_in_noise w kw_lisa (4 * year) (fun f => 1e-7 <= f <= 2)) as [p [A [B _]]]; [|unfold year; lra|eauto].
    apply (lisa_curve_used w kw_lisa (4 * year) 2.5e9 (CName "karnesis21")); [reflexivity|right; split; reflexivity|lra|now left|left; split; reflexivity|unfold builtin; auto 10].
  - split; [intros fs; reflexivity|]. intros f Hf. right. exists 1e-40. split; [reflexivity|lra].
Qed.
Example sources_satisfiable : good_source (fun _ _ => NaN) (Some (fun n _ => Fin (/ IZR n))) 1e30 1e-3 (1/2) 1e20 /\
  good_source jv0 None 1e30 1e-3 (1/2) 1e20 /\ circular_powers jv0 None /\ odeint_shape odeint_model.
Proof.
  assert (P : forall n e, (1 <= n)%Z -> exists g, power_used jv0 None n e g).
  { intros n e Hn. eexists. cbn. apply (peters_g_fin jv0 (fun k _ => if (k =? 0)%Z then 1 else 0) n e); auto. intros k x. reflexivity. }
  split; [|split; [|split]].
  - repeat split; try lra. intros n Hn. eexists. cbn. eexists. split; [reflexivity|reflexivity].
  - repeat split; try lra. intros n Hn. now apply P.
  - exists 1. intros n Hn. cbn. exact (eq_trans (peters_g_fin jv0 (fun k _ => if (k =? 0)%Z then 1 else 0) n 0 ltac:(intros k x; reflexivity) Hn) (f_equal Fin (gR_at_0 (fun k _ => if (k =? 0)%Z then 1 else 0) n (fun k => eq_refl) Hn))).
  - exact odeint_model_shape.
Qed.

(** ** C12 (SNR): a sky position never increases the SNR *)
Theorem C12_located_snr_is_smaller : forall w jv gi X (m f d : X -> R) xs (o : X -> angles) t sc kw p,
  noise_curve w kw sc t p -> proper_noise p -> 0 <= t -> (exists g, power_used jv gi 2 0 g) ->
  (forall x, In x xs -> 0 < m x /\ 0 < f x /\ 0 < d x) ->
  let call sky := snr_circ_stationary w jv gi (map (fun x => Fin (m x)) xs) (map (fun x => Fin (f x)) xs) (map (fun x => Fin (d x)) xs) (Fin t) sky sc kw in
  exists s s' : X -> R, call (pop_sky xs None) = Ok (map (fun x => Fin (s x)) xs) /\ call (pop_sky xs (Some o)) = Ok (map (fun x => Fin (s' x)) xs) /\
    forall x, In x xs -> 0 <= s' x <= s x /\ (0 < s x -> s' x < s x).
Proof. exact @located_snr. Qed.
Print Assumptions C12_located_snr_is_smaller.

(** ** C40: the SNR is the quadrature sum over the harmonics 1..harmonics_required *)
Theorem C40_stationary_flags : forall w jv gi X (m f e d : X -> num) xs t hr sc kw p,
  noise_curve w kw sc t p ->
  let call rm r2 := snr_ecc_stationary w jv gi (map m xs) (map f xs) (map e xs) (map d xs) (Fin t) hr sc rm r2 kw in
  exists rows, length rows = length xs /\ List.Forall (fun r => length r = hr) rows /\
    (forall rm, call rm true = Ok (Snr2 rows)) /\ call false false = Ok (Snr (snr_of_rows rows)) /\
    ((1 <= hr)%nat -> exists hs, length hs = length xs /\ call true false = Ok (SnrMax (snr_of_rows rows) hs)).
Proof. exact @flags_stationary. Qed.
Print Assumptions C40_stationary_flags.
Theorem C40_evolving_flags : forall w jv gi quad odeint sched n_proc X (m1 m2 f d e : X -> num) xs hr t n (tm : option (X -> num)) sc kw p,
  noise_curve w kw sc t p -> (1 <= n)%nat -> odeint_shape odeint -> ((1 < n_proc)%nat -> complete_schedule (length xs) sched) ->
  (forall x, In x xs -> exists r, e x = Fin r /\ 0 <= r <= 1) ->
  let call rm r2 := snr_ecc_evolving w jv gi quad odeint sched (map m1 xs) (map m2 xs) (map f xs) (map d xs) (map e xs) hr (Fin t) n (option_map (fun g => map g xs) tm) sc n_proc rm r2 kw in
  exists rows, length rows = length xs /\ List.Forall (fun r => length r = hr) rows /\
    (forall rm, call rm true = Ok (Snr2 rows)) /\ call false false = Ok (Snr (snr_of_rows rows)) /\
    ((1 <= hr)%nat -> exists hs, length hs = length xs /\ call true false = Ok (SnrMax (snr_of_rows rows) hs)).
Proof. exact @flags_evolving. Qed.
Print Assumptions C40_evolving_flags.
(** Each SNR^2 is h_n^2 t_obs / S_n(n f_orb) for the strain h_n of the same source and harmonic. *)
Theorem C40_stationary_value : forall w jv gi X (m f e d : X -> R) xs t hr sc kw p,
  noise_curve w kw sc t p -> proper_noise p -> 0 <= t ->
  (forall x, In x xs -> good_source jv gi (m x) (f x) (e x) (d x)) ->
  let call rm r2 := snr_ecc_stationary w jv gi (map (fun x => Fin (m x)) xs) (map (fun x => Fin (f x)) xs) (map (fun x => Fin (e x)) xs)
                        (map (fun x => Fin (d x)) xs) (Fin t) hr sc rm r2 kw in
  exists v : X -> Z -> R,
    call false true = Ok (Snr2 (map (fun x => map (fun n => Fin (v x n)) (map Z.of_nat (seq 1 hr))) xs)) /\
    call false false = Ok (Snr (map (fun x => Fin (sqrt (Rsum (map (v x) (map Z.of_nat (seq 1 hr)))))) xs)) /\
    forall x n, In x xs -> (1 <= n <= Z.of_nat hr)%Z -> 0 <= v x n /\
      exists h, h_0_single jv gi (m x) (f x) (e x) n (d x) None = Ok [[[Fin h]]] /\
                signal_to_noise_squared h t (p (Fin (IZR n * f x))) (v x n).
Proof. exact @stationary_formula. Qed.
Print Assumptions C40_stationary_value.

(** ** C41: the reported harmonic *)
Theorem C41_loudest_stationary : forall w jv gi m f e d t hr sc rm kw rows s hs i vs h,
  snr_ecc_stationary w jv gi m f e d t hr sc rm true kw = Ok (Snr2 rows) ->
  snr_ecc_stationary w jv gi m f e d t hr sc true false kw = Ok (SnrMax s hs) ->
  nth_error rows i = Some (map Fin vs) -> nth_error hs i = Some h -> is_loudest vs h.
Proof. exact @loudest_stationary. Qed.
Print Assumptions C41_loudest_stationary.
Theorem C41_loudest_evolving : forall w jv gi quad odeint sched m1 m2 f d e hr t n tm sc np rm kw rows s hs i vs h,
  snr_ecc_evolving w jv gi quad odeint sched m1 m2 f d e hr t n tm sc np rm true kw = Ok (Snr2 rows) ->
  snr_ecc_evolving w jv gi quad odeint sched m1 m2 f d e hr t n tm sc np true false kw = Ok (SnrMax s hs) ->
  nth_error rows i = Some (map Fin vs) -> nth_error hs i = Some h -> is_loudest vs h.
Proof. exact @loudest_evolving. Qed.
Print Assumptions C41_loudest_evolving.
Example C41_satisfiable : exists rows s hs,
  snr_ecc_stationary (mkEnv None (fun _ _ _ => NaN)) (fun _ _ => NaN) (Some (fun n _ => Fin (IZR n))) [Fin 1] [Fin 1] [Fin (1/2)] [Fin 1] (Fin 1) 3 (Some flat_curve) false true default_kw = Ok (Snr2 rows) /\
  snr_ecc_stationary (mkEnv None (fun _ _ _ => NaN)) (fun _ _ => NaN) (Some (fun n _ => Fin (IZR n))) [Fin 1] [Fin 1] [Fin (1/2)] [Fin 1] (Fin 1) 3 (Some flat_curve) true false default_kw = Ok (SnrMax s hs) /\
  exists vs h, nth_error rows 0 = Some (map Fin vs) /\ nth_error hs 0 = Some h.
Proof.
  set (w := mkEnv None (fun _ _ _ => NaN)). set (jv := fun (_ : Z) (_ : num) => NaN). set (gi := Some (fun (n : Z) (_ : num) => Fin (IZR n))).
  assert (G : good_source jv gi 1 1 (1/2) 1). { repeat split; try lra. intros n Hn. exists (Rmax (IZR n) 0). exists (IZR n). split; reflexivity. }
  destruct (stationary_formula w jv gi unit (fun _ => 1) (fun _ => 1) (fun _ => 1/2) (fun _ => 1) [tt] 1 3 (Some flat_curve) default_kw flat_curve) as [v [E _]]; auto; try lra.
  { intros fs. reflexivity. } { intros f Hf. right. exists 1e-40. split; [reflexivity|lra]. }
  destruct (flags_stationary w jv gi unit (fun _ => Fin 1) (fun _ => Fin 1) (fun _ => Fin (1/2)) (fun _ => Fin 1) [tt] 1 3 (Some flat_curve) default_kw flat_curve) as [rows [_ [_ [F [_ H]]]]].
  { intros fs. reflexivity. } destruct (H ltac:(lia)) as [hs [L E2]]. cbn [map] in *.
  rewrite E. do 3 eexists. split; [reflexivity|]. split; [exact E2|]. destruct hs as [|h hs]; [discriminate L|].
  exists (map (v tt) (map Z.of_nat (seq 1 3))), h. split; reflexivity.
Qed.

(** ** C42: circular and eccentric agree at e = 0 *)
Theorem C42_agree_at_zero_eccentricity : forall w jv gi X (m f d : X -> R) xs t hr sc kw p,
  noise_curve w kw sc t p -> proper_noise p -> 0 <= t ->
  circular_powers jv gi -> (forall x, In x xs -> 0 < m x /\ 0 < f x /\ 0 < d x) -> (2 <= hr)%nat ->
  let ms := map (fun x => Fin (m x)) xs in let fs := map (fun x => Fin (f x)) xs in let ds := map (fun x => Fin (d x)) xs in
  let es := map (fun _ => Fin 0) xs in
  exists s : X -> R, (forall x, In x xs -> 0 <= s x) /\
    snr_circ_stationary w jv gi ms fs ds (Fin t) no_sky sc kw = Ok (map (fun x => Fin (s x)) xs) /\
    snr_ecc_stationary w jv gi ms fs es ds (Fin t) hr sc false false kw = Ok (Snr (map (fun x => Fin (s x)) xs)) /\
    exists hm : X -> Z, snr_ecc_stationary w jv gi ms fs es ds (Fin t) hr sc true false kw = Ok (SnrMax (map (fun x => Fin (s x)) xs) (map hm xs)) /\
      forall x, In x xs -> 0 < s x -> hm x = 2%Z.
Proof. exact @circ_ecc_agree. Qed.
Print Assumptions C42_agree_at_zero_eccentricity.

(** ** C43: scaling laws *)
Theorem C43_distance : forall w jv gi quad odeint sched n_proc X (m m1 m2 f d e : X -> num) xs (o : option (X -> angles)) hr t n (tm : option (X -> num)) sc rm r2 kw p k,
  noise_curve w kw sc t p -> (1 <= n)%nat -> odeint_shape odeint -> ((1 < n_proc)%nat -> complete_schedule (length xs) sched) ->
  (forall x, In x xs -> exists r, e x = Fin r /\ 0 <= r <= 1) -> 0 < k ->
  let ds := map d xs in let far := map (fun x => nmul (Fin k) (d x)) xs in
  let tms := option_map (fun g => map g xs) tm in
  snr_circ_stationary w jv gi (map m xs) (map f xs) far (Fin t) (pop_sky xs o) sc kw
    = rmap (scaled (/ k)) (snr_circ_stationary w jv gi (map m xs) (map f xs) ds (Fin t) (pop_sky xs o) sc kw) /\
  snr_ecc_stationary w jv gi (map m xs) (map f xs) (map e xs) far (Fin t) hr sc rm r2 kw
    = rmap (scaled_ret (/ k)) (snr_ecc_stationary w jv gi (map m xs) (map f xs) (map e xs) ds (Fin t) hr sc rm r2 kw) /\
  snr_circ_evolving w jv gi quad (map m1 xs) (map m2 xs) (map f xs) far (Fin t) n tms sc kw
    = rmap (scaled (/ k)) (snr_circ_evolving w jv gi quad (map m1 xs) (map m2 xs) (map f xs) ds (Fin t) n tms sc kw) /\
  snr_ecc_evolving w jv gi quad odeint sched (map m1 xs) (map m2 xs) (map f xs) far (map e xs) hr (Fin t) n tms sc n_proc rm r2 kw
    = rmap (scaled_ret (/ k)) (snr_ecc_evolving w jv gi quad odeint sched (map m1 xs) (map m2 xs) (map f xs) ds (map e xs) hr (Fin t) n tms sc n_proc rm r2 kw).
Proof. exact @distance_scaling. Qed.
Print Assumptions C43_distance.
Theorem C43_observing_time : forall w jv gi X (m f d e : X -> num) xs (o : option (X -> angles)) hr t s rm r2 kw k,
  0 < k ->
  snr_circ_stationary w jv gi (map m xs) (map f xs) (map d xs) (Fin (k * t)) (pop_sky xs o) (Some s) kw
    = rmap (scaled (sqrt k)) (snr_circ_stationary w jv gi (map m xs) (map f xs) (map d xs) (Fin t) (pop_sky xs o) (Some s) kw) /\
  snr_ecc_stationary w jv gi (map m xs) (map f xs) (map e xs) (map d xs) (Fin (k * t)) hr (Some s) rm r2 kw
    = rmap (scaled_ret (sqrt k)) (snr_ecc_stationary w jv gi (map m xs) (map f xs) (map e xs) (map d xs) (Fin t) hr (Some s) rm r2 kw).
Proof. exact @time_scaling. Qed.
Print Assumptions C43_observing_time.

(** ** C44 *)
Theorem C44_out_of_band : forall w jv gi X (m f e d : X -> R) xs t hr kw B,
  built_in_curve w kw t B -> 0 < t ->
  (forall x, In x xs -> good_source jv gi (m x) (f x) (e x) (d x)) ->
  exists v : X -> Z -> R,
    snr_ecc_stationary w jv gi (map (fun x => Fin (m x)) xs) (map (fun x => Fin (f x)) xs) (map (fun x => Fin (e x)) xs)
      (map (fun x => Fin (d x)) xs) (Fin t) hr None false true kw
    = Ok (Snr2 (map (fun x => map (fun n => Fin (v x n)) (map Z.of_nat (seq 1 hr))) xs)) /\
    forall x n, In x xs -> (1 <= n <= Z.of_nat hr)%Z -> ~ B (IZR n * f x) -> v x n = 0.
Proof. exact @out_of_band. Qed.
Print Assumptions C44_out_of_band.
Theorem C44_more_harmonics : forall w jv gi X (m f e d : X -> R) xs t hr hr' sc kw p,
  noise_curve w kw sc t p -> proper_noise p -> 0 <= t ->
  (forall x, In x xs -> good_source jv gi (m x) (f x) (e x) (d x)) -> (hr <= hr')%nat ->
  let call h := snr_ecc_stationary w jv gi (map (fun x => Fin (m x)) xs) (map (fun x => Fin (f x)) xs) (map (fun x => Fin (e x)) xs)
                        (map (fun x => Fin (d x)) xs) (Fin t) h sc false false kw in
  exists s s' : X -> R, call hr = Ok (Snr (map (fun x => Fin (s x)) xs)) /\ call hr' = Ok (Snr (map (fun x => Fin (s' x)) xs)) /\
    forall x, In x xs -> 0 <= s x <= s' x.
Proof. exact @more_harmonics. Qed.
Print Assumptions C44_more_harmonics.
Example C44_band_satisfiable : forall w, built_in_curve w kw_lisa (4 * year) (fun f => 1e-7 <= f <= 2) /\
  built_in_curve w kw_tianqin (5 * year) (fun _ => True) /\
  built_in_curve w (mkKw "DECIGO" None Auto false (CName "robson19")) (4 * year) (fun f => 1e-3 <= f <= 1e2).
Proof.
  intros w. split; [|split].
  - apply (lisa_curve_used w kw_lisa (4 * year) 2.5e9 (CName "karnesis21")); [reflexivity|right; split; reflexivity|lra|now left|left; split; reflexivity|unfold builtin; auto 10].
  - apply (tianqin_curve_used w kw_tianqin (5 * year) (sqrt 3 * 1e8) (CName "huang20")); [reflexivity|right; split; reflexivity| |left; split; reflexivity|unfold builtin; auto 10].
    apply Rmult_lt_0_compat; [apply sqrt_lt_R0|]; lra.
  - apply (decigo_curve_used w _ (4 * year) (CName "robson19")); [reflexivity|right; split; [discriminate|reflexivity]|unfold builtin; auto 10].
Qed.

(** ** C45: well-definedness of the evolving SNR.  [tiny] is the separation below which the code declares a merger and 100 Hz the
    frequency it gives to merged binaries. *)
Theorem C45_circular : forall w jv gi quad m1 m2 f d t n tm aT fT sc kw p,
  noise_curve w kw sc t p -> proper_noise p -> (1 <= n)%nat ->
  0 < m1 -> 0 < m2 -> 0 < f -> 0 < d -> 0 <= t -> (exists g, power_used jv gi 2 0 g) ->
  get_t_merge_circ_sc None (Some (Fin m1)) (Some (Fin m2)) None (Some (Fin f)) = Ok (Fin tm) -> 1 <= tm ->
  circ_call_freq quad m1 m2 f n [Fin (Rmin (tm - 1) t)] ["a"%string] = Ok (Single (E1 [Fin aT])) -> tiny < aT ->
  circ_call_freq quad m1 m2 f n [Fin (Rmin (tm - 1) t)] ["f_orb"%string] = Ok (Single (E1 [Fin fT])) -> fT < 100 ->
  exists s, snr_circ_evolving w jv gi quad [Fin m1] [Fin m2] [Fin f] [Fin d] (Fin t) n None sc kw = Ok [Fin s] /\ 0 <= s /\
    ((2 <= n)%nat -> 0 < t -> 1 < tm -> (forall g, power_used jv gi 2 0 g -> 0 < g) -> p (Fin (2 * f)) <> PInf -> 0 < s).
Proof. exact @circ_well_defined. Qed.
Print Assumptions C45_circular.
Example C45_circular_satisfiable : exists tm aT fT quad,
  get_t_merge_circ_sc None (Some (Fin 1e30)) (Some (Fin 1e30)) None (Some (Fin 1e-3)) = Ok (Fin tm) /\ 1 < tm /\
  circ_call_freq quad 1e30 1e30 1e-3 100 [Fin (Rmin (tm - 1) (4 * year))] ["a"%string] = Ok (Single (E1 [Fin aT])) /\ tiny < aT /\
  circ_call_freq quad 1e30 1e30 1e-3 100 [Fin (Rmin (tm - 1) (4 * year))] ["f_orb"%string] = Ok (Single (E1 [Fin fT])) /\ fT < 100.
Proof. exact early_circ. Qed.
Theorem C45_eccentric : forall w jv gi quad odeint sched np m1 m2 f d e0 hr t n tmo tm b a0 c0 e aT fT sc kw p,
  noise_curve w kw sc t p -> proper_noise p -> (1 <= n)%nat -> odeint_shape odeint -> odeint_exact odeint ->
  ((1 < np)%nat -> complete_schedule 1 sched) ->
  0 < m1 -> 0 < m2 -> 0 < f -> 0 < d -> 0 < e0 < 1 ->
  (forall k x, (1 <= k)%Z -> 0 < x < 1 -> exists g, power_used jv gi k x g) ->
  beta (Fin m1) (Fin m2) = Fin b -> get_a_from_f_orb (Fin f) (Fin m1) (Fin m2) = Fin a0 -> c_0 (Fin a0) (Fin e0) = Fin c0 ->
  merger_time_used quad m1 m2 f e0 tm tmo ->
  let T := Rmin (tm - year / 10) t in
  0 <= T -> e 0 = e0 -> follows_de_dt b c0 T e ->
  get_a_from_ecc (Fin (e T)) (Fin c0) = Fin aT -> tiny < aT ->
  get_f_orb_from_a (Fin aT) (Fin m1) (Fin m2) = Fin fT -> fT < 100 ->
  exists vs, length vs = hr /\ List.Forall (fun v => 0 <= v) vs /\
    snr_ecc_evolving w jv gi quad odeint sched [Fin m1] [Fin m2] [Fin f] [Fin d] [Fin e0] hr (Fin t) n tmo sc np false true kw = Ok (Snr2 [map Fin vs]) /\
    snr_ecc_evolving w jv gi quad odeint sched [Fin m1] [Fin m2] [Fin f] [Fin d] [Fin e0] hr (Fin t) n tmo sc np false false kw = Ok (Snr [Fin (sqrt (Rsum vs))]).
Proof. exact @ecc_well_defined_any. Qed.
Print Assumptions C45_eccentric.
Example C45_eccentric_satisfiable : let e0 := 1/10 in let t := year / 2 in let tm := year in let T := Rmin (tm - year / 10) t in
  odeint_shape odeint_model /\ odeint_exact odeint_model /\ (forall k x, (1 <= k)%Z -> 0 < x < 1 -> exists g, power_used jv0 None k x g) /\
  exists b a0 c0 e aT fT, beta (Fin 1e30) (Fin 1e30) = Fin b /\ get_a_from_f_orb (Fin 1e-3) (Fin 1e30) (Fin 1e30) = Fin a0 /\ c_0 (Fin a0) (Fin e0) = Fin c0 /\
  0 < T /\ e 0 = e0 /\ follows_de_dt b c0 T e /\ get_a_from_ecc (Fin (e T)) (Fin c0) = Fin aT /\ tiny < aT /\
  get_f_orb_from_a (Fin aT) (Fin 1e30) (Fin 1e30) = Fin fT /\ fT < 100.
Proof.
  split; [exact odeint_model_shape|]. split; [exact odeint_model_exact|]. split; [|exact early_ecc].
  intros n e Hn _. eexists. cbn. apply (peters_g_fin jv0 (fun k _ => if (k =? 0)%Z then 1 else 0) n e); auto. intros k x. reflexivity.
Qed.
(** A circular binary less than a second from its merger is "evolved" backwards in time: the integral is negative and the SNR
    not a number. *)
Theorem C45_last_second_refuted : forall w jv gi quad m1 m2 f d t n tm a sc kw p,
  noise_curve w kw sc t p -> proper_noise p -> (2 <= n)%nat ->
  0 < m1 -> 0 < m2 -> 0 < f < 100 -> 0 < d -> 0 <= t -> (exists g, power_used jv gi 2 0 g /\ 0 < g) ->
  get_a_from_f_orb (Fin f) (Fin m1) (Fin m2) = Fin a -> tiny < a -> (forall x, 0 < x <= 2 * f -> p (Fin x) <> PInf) ->
  get_t_merge_circ_sc None (Some (Fin m1)) (Some (Fin m2)) None (Some (Fin f)) = Ok (Fin tm) -> tm < 1 ->
  snr_circ_evolving w jv gi quad [Fin m1] [Fin m2] [Fin f] [Fin d] (Fin t) n None sc kw = Ok [NaN].
Proof. exact @circ_late_any. Qed.
Print Assumptions C45_last_second_refuted.
Example C45_last_second_satisfiable : forall w,
  (exists p, noise_curve w kw_tianqin None (5 * year) p /\ proper_noise p /\ forall x, 0 < x <= 2 * 50 -> p (Fin x) <> PInf) /\
  (exists g, power_used jv0 None 2 0 g /\ 0 < g) /\
  exists a tm, get_a_from_f_orb (Fin 50) (Fin 1e31) (Fin 1e31) = Fin a /\ tiny < a /\
    get_t_merge_circ_sc None (Some (Fin 1e31)) (Some (Fin 1e31)) None (Some (Fin 50)) = Ok (Fin tm) /\ 0 < tm < 1.
Proof.
  intros w. split; [|split; [|exact late_binary]].
  - destruct (built_in_noise w kw_tianqin (5 * year) (fun _ => True)) as [p [A [B C]]]; [|unfold year; lra|].
    + apply C44_band_satisfiable.
    + exists p. repeat split; auto. intros x Hx E. apply (C x ltac:(lra)) in E. auto.
  - exists 1. split; [|lra]. cbn. exact (eq_trans (peters_g_fin jv0 (fun k _ => if (k =? 0)%Z then 1 else 0) 2 0 ltac:(intros k x; reflexivity) ltac:(lia)) (f_equal Fin (gR_at_0 (fun k _ => if (k =? 0)%Z then 1 else 0) 2 (fun k => eq_refl) ltac:(lia)))).
Qed.

(** ** C78: sources are treated independently *)
Theorem C78_stationary_is_local : forall w jv gi X (m f d e : X -> num) xs (o : option (X -> angles)) hr t sc kw p,
  noise_curve w kw sc t p -> (1 <= hr)%nat ->
  let circ ys := snr_circ_stationary w jv gi (map m ys) (map f ys) (map d ys) (Fin t) (pop_sky ys o) sc kw in
  let ecc rm r2 ys := snr_ecc_stationary w jv gi (map m ys) (map f ys) (map e ys) (map d ys) (Fin t) hr sc rm r2 kw in
  exists (s s' : X -> num) (h : X -> Z) (r : X -> list num), forall ys, (forall y, In y ys -> In y xs) ->
    circ ys = Ok (map s ys) /\ ecc false false ys = Ok (Snr (map s' ys)) /\ ecc true false ys = Ok (SnrMax (map s' ys) (map h ys)) /\
    ecc false true ys = Ok (Snr2 (map r ys)).
Proof. exact @local_stationary. Qed.
Print Assumptions C78_stationary_is_local.
Theorem C78_evolving_is_local : forall w jv gi quad odeint X (m1 m2 f d e : X -> num) xs hr t n (tm : option (X -> num)) sc kw p,
  noise_curve w kw sc t p -> (1 <= hr)%nat -> (1 <= n)%nat -> odeint_shape odeint ->
  (forall x, In x xs -> exists r, e x = Fin r /\ 0 <= r <= 1) ->
  let tms ys := option_map (fun g => map g ys) tm in
  let circ ys := snr_circ_evolving w jv gi quad (map m1 ys) (map m2 ys) (map f ys) (map d ys) (Fin t) n (tms ys) sc kw in
  let ecc n_proc sched rm r2 ys := snr_ecc_evolving w jv gi quad odeint sched (map m1 ys) (map m2 ys) (map f ys) (map d ys) (map e ys) hr (Fin t) n (tms ys) sc n_proc rm r2 kw in
  exists (s s' : X -> num) (h : X -> Z) (r : X -> list num), forall ys, (forall y, In y ys -> In y xs) ->
    circ ys = Ok (map s ys) /\ 
    forall n_proc sched, ((1 < n_proc)%nat -> complete_schedule (length ys) sched) ->
      ecc n_proc sched false false ys = Ok (Snr (map s' ys)) /\ ecc n_proc sched true false ys = Ok (SnrMax (map s' ys) (map h ys)) /\
      ecc n_proc sched false true ys = Ok (Snr2 (map r ys)).
Proof. exact @local_evolving. Qed.
Print Assumptions C78_evolving_is_local.

(** ** C79: the evolving SNR^2 is the trapezium integral of h_c^2 / (f^2 S_n) over the gravitational-wave frequency *)
Theorem C79_circular : forall w jv gi quad m1 m2 f d t n tm mc fs sc kw p,
  noise_curve w kw sc t p -> proper_noise p -> (1 <= n)%nat ->
  0 < mc -> 0 < d -> chirp_mass m1 m2 = Fin mc ->
  evol_circ quad (TArr [nmin (nsub tm (Fin 1)) (Fin t)]) n SNone PNone (PQArr [m1] tt) (PQArr [m2] tt) PNone (PQArr [f] tt) ["f_orb"%string]
    = Ok (Single (E2 [map Fin fs])) ->
  (forall x, In x fs -> 0 < x /\ x <> 100) -> sorted fs -> (exists g, power_used jv gi 2 0 g) ->
  exists ys, Forall2 (integrand jv gi p mc d 2) (map (fun x => (x, 0)) fs) ys /\
    snr_circ_evolving w jv gi quad [m1] [m2] [f] [Fin d] (Fin t) n (Some [tm]) sc kw
    = Ok [Fin (sqrt (trapezium (combine (map (Rmult 2) fs) ys)))].
Proof. exact @circ_integral. Qed.
Print Assumptions C79_circular.
Theorem C79_eccentric : forall w jv gi quad odeint sched np m1 m2 f d e hr t n tm mc es fs ts sc kw p,
  noise_curve w kw sc t p -> proper_noise p -> (1 <= n)%nat ->
  odeint_shape odeint -> ((1 < np)%nat -> complete_schedule 1 sched) -> 0 <= e <= 1 ->
  0 < mc -> 0 < d -> chirp_mass m1 m2 = Fin mc ->
  evol_ecc quad odeint sched (PArr [Fin e]) (TArr [nmin (nsub tm (Fin (year / 10))) (Fin t)]) n SNone PNone (PQArr [m1] tt) (PQArr [m2] tt) PNone (PQArr [f] tt)
    ["ecc"%string; "f_orb"%string] np true true (Fin (year / 10)) (Some [tm]) = Ok (Many [E2 [map Fin es]; E2 [map Fin fs]], ts) ->
  (forall x, In x fs -> 0 < x /\ x <> 100) -> (forall x, In x es -> 0 <= x < 1 /\ forall k, (1 <= k)%Z -> exists g, power_used jv gi k x g) -> sorted fs ->
  exists v : Z -> R,
    (forall k, (1 <= k <= Z.of_nat hr)%Z -> exists ys, Forall2 (integrand jv gi p mc d k) (combine fs es) ys /\
       v k = trapezium (combine (map (Rmult (IZR k)) fs) ys) /\ 0 <= v k) /\
    snr_ecc_evolving w jv gi quad odeint sched [m1] [m2] [f] [Fin d] [Fin e] hr (Fin t) n (Some [tm]) sc np false true kw
    = Ok (Snr2 [map (fun k => Fin (v k)) (map Z.of_nat (seq 1 hr))]).
Proof. exact @ecc_integral. Qed.
Print Assumptions C79_eccentric.
Example C79_satisfiable : exists quad m1 m2 f tm t fs, evol_circ quad (TArr [nmin (nsub tm (Fin 1)) (Fin t)]) 2 SNone PNone (PQArr [m1] tt) (PQArr [m2] tt) PNone (PQArr [f] tt) ["f_orb"%string]
    = Ok (Single (E2 [map Fin fs])) /\ (forall x, In x fs -> 0 < x /\ x <> 100) /\ sorted fs /\ fs <> [].
Proof. exact integral_example. Qed.

(** ** C80: an unmerged source in band has a positive SNR.  True of circular binaries more than a second from merger and of
    eccentric ones more than 0.1 yr from merger, if the observation is cut into at least three steps (or two, when it ends
    0.1 yr before the merger); an eccentric source less than 0.1 yr from merger is given SNR 0. *)
Theorem C80_circular_partial : forall w jv gi quad m1 m2 f d t n tm aT fT sc kw p,
  noise_curve w kw sc t p -> proper_noise p -> (2 <= n)%nat ->
  0 < m1 -> 0 < m2 -> 0 < f -> 0 < d -> 0 < t -> (exists g, power_used jv gi 2 0 g /\ 0 < g) -> p (Fin (2 * f)) <> PInf ->
  get_t_merge_circ_sc None (Some (Fin m1)) (Some (Fin m2)) None (Some (Fin f)) = Ok (Fin tm) -> 1 < tm ->
  circ_call_freq quad m1 m2 f n [Fin (Rmin (tm - 1) t)] ["a"%string] = Ok (Single (E1 [Fin aT])) -> tiny < aT ->
  circ_call_freq quad m1 m2 f n [Fin (Rmin (tm - 1) t)] ["f_orb"%string] = Ok (Single (E1 [Fin fT])) -> fT < 100 ->
  exists s, snr_circ_evolving w jv gi quad [Fin m1] [Fin m2] [Fin f] [Fin d] (Fin t) n None sc kw = Ok [Fin s] /\ 0 < s.
Proof. exact @circ_positive. Qed.
Print Assumptions C80_circular_partial.
(** The remaining hypotheses are met by C45_circular_satisfiable. *)
Example C80_circular_satisfiable : exists gi : option (Z -> num -> num), (exists g, power_used jv0 gi 2 0 g /\ 0 < g) /\ flat_curve (Fin (2 * 1e-3)) <> PInf.
Proof. exists (Some (fun n _ => Fin (/ IZR n))). split; [|discriminate]. exists (Rmax (/ 2) 0). split; [eexists; split; reflexivity|]. rewrite Rmax_left; lra. Qed.

(** [T] is the time for which the source is followed, [e] its eccentricity; some harmonic among those summed carries power and
    lies where the noise is finite. *)
Theorem C80_eccentric_partial : forall w jv gi quad odeint sched np m1 m2 f d e0 hr t n tmo tm b a0 c0 e aT fT sc kw p,
  noise_curve w kw sc t p -> proper_noise p -> ((3 <= n)%nat \/ (2 <= n)%nat /\ t < tm - year / 10) -> odeint_shape odeint -> odeint_exact odeint ->
  ((1 < np)%nat -> complete_schedule 1 sched) ->
  0 < m1 -> 0 < m2 -> 0 < f -> 0 < d -> 0 < e0 < 1 ->
  (forall k x, (1 <= k)%Z -> 0 < x < 1 -> exists g, power_used jv gi k x g) ->
  beta (Fin m1) (Fin m2) = Fin b -> get_a_from_f_orb (Fin f) (Fin m1) (Fin m2) = Fin a0 -> c_0 (Fin a0) (Fin e0) = Fin c0 ->
  merger_time_used quad m1 m2 f e0 tm tmo ->
  let T := Rmin (tm - year / 10) t in
  0 < T -> e 0 = e0 -> follows_de_dt b c0 T e ->
  get_a_from_ecc (Fin (e T)) (Fin c0) = Fin aT -> tiny < aT ->
  get_f_orb_from_a (Fin aT) (Fin m1) (Fin m2) = Fin fT -> fT < 100 ->
  (exists h, (1 <= h <= Z.of_nat hr)%Z /\ (exists g, power_used jv gi h e0 g /\ 0 < g) /\ p (Fin (IZR h * f)) <> PInf) ->
  exists s, snr_ecc_evolving w jv gi quad odeint sched [Fin m1] [Fin m2] [Fin f] [Fin d] [Fin e0] hr (Fin t) n tmo sc np false false kw = Ok (Snr [Fin s]) /\ 0 < s.
Proof. exact @ecc_positive_any. Qed.
Print Assumptions C80_eccentric_partial.
(** The remaining hypotheses are met by C45_eccentric_satisfiable, of which the observation ends long before the merger. *)
Example C80_eccentric_satisfiable : exists gi, (forall k x, (1 <= k)%Z -> 0 < x < 1 -> exists g, power_used jv0 gi k x g) /\ year / 2 < year - year / 10 /\
  exists h, (1 <= h <= Z.of_nat 3)%Z /\ (exists g, power_used jv0 gi h (1/10) g /\ 0 < g) /\ flat_curve (Fin (IZR h * 1e-3)) <> PInf.
Proof.
  exists (Some (fun n _ => Fin (/ IZR n))). split; [intros k x _ _; eexists; eexists; split; reflexivity|]. split; [unfold year; lra|].
  exists 2%Z. split; [lia|]. split; [|discriminate]. exists (Rmax (/ 2) 0). split; [eexists; split; reflexivity|]. rewrite Rmax_left; lra.
Qed.

(** With two steps only, an observation that comes within 0.1 yr of the merger is given SNR 0 however early it starts: the second
    step is moved back onto the first. *)
Theorem C80_two_steps_refuted : forall w jv gi quad odeint sched np m1 m2 f d e0 hr t tmo tm sc kw p a0,
  noise_curve w kw sc t p -> proper_noise p -> odeint_shape odeint -> odeint_exact odeint ->
  ((1 < np)%nat -> complete_schedule 1 sched) ->
  0 < m1 -> 0 < m2 -> 0 < f < 100 -> 0 < d -> 0 < e0 < 1 ->
  (forall k x, (1 <= k)%Z -> 0 < x < 1 -> exists g, power_used jv gi k x g) ->
  get_a_from_f_orb (Fin f) (Fin m1) (Fin m2) = Fin a0 -> tiny < a0 ->
  merger_time_used quad m1 m2 f e0 tm tmo -> 0 <= tm - year / 10 <= t ->
  snr_ecc_evolving w jv gi quad odeint sched [Fin m1] [Fin m2] [Fin f] [Fin d] [Fin e0] hr (Fin t) 2 tmo sc np false false kw = Ok (Snr [Fin 0]).
Proof. exact @ecc_two_steps. Qed.
Print Assumptions C80_two_steps_refuted.
Example C80_two_steps_satisfiable : (exists a0, get_a_from_f_orb (Fin 1e-3) (Fin 1e30) (Fin 1e30) = Fin a0 /\ tiny < a0) /\
  (forall quad, merger_time_used quad 1e30 1e30 1e-3 (1/10) year (Some [Fin year])) /\ 0 <= year - year / 10 <= year.
Proof. split; [exact early_separation|]. split; [constructor|]. unfold year. lra. Qed.

(** An eccentric source less than 0.1 yr from merger is given SNR 0. *)
Theorem C80_last_month_refuted : forall w jv gi quad odeint sched np m1 m2 f d e0 hr t n tmo tm sc kw p a0,
  noise_curve w kw sc t p -> proper_noise p -> (1 <= n)%nat -> odeint_shape odeint -> odeint_exact odeint ->
  ((1 < np)%nat -> complete_schedule 1 sched) ->
  0 < m1 -> 0 < m2 -> 0 < f < 100 -> 0 < d -> 0 < e0 < 1 -> 0 <= t ->
  (forall k x, (1 <= k)%Z -> 0 < x < 1 -> exists g, power_used jv gi k x g) ->
  get_a_from_f_orb (Fin f) (Fin m1) (Fin m2) = Fin a0 -> tiny < a0 ->
  merger_time_used quad m1 m2 f e0 tm tmo -> tm < year / 10 ->
  snr_ecc_evolving w jv gi quad odeint sched [Fin m1] [Fin m2] [Fin f] [Fin d] [Fin e0] hr (Fin t) n tmo sc np false false kw = Ok (Snr [Fin 0]).
Proof. exact @ecc_late_any. Qed.
Print Assumptions C80_last_month_refuted.
Example C80_satisfiable : exists a tm quad, get_a_from_f_orb (Fin 50) (Fin 1e31) (Fin 1e31) = Fin a /\ tiny < a /\
  0 < tm /\ tm < year / 10 /\ merger_time_used quad 1e31 1e31 50 (1/10) tm None.
Proof. exact late_ecc. Qed.

