(** PropFloat.v -- C105-C107: accuracy of closed formulae, of sums and of circular evolution in double precision.

    [computed d v e] evaluates the Python expression [e] (Float.v) with a rounding after every operation; the right-hand sides [Fin x] are
    the values of the functions of Utils.v and Strain.v, about which the other files prove their theorems. *)
From Coq Require Import Reals ZArith List Lra Lia Permutation.
From Verif Require Import Num NumFacts Np Utils Psd Strain Snr Evol Float FloatSpec FloatFacts FloatThms FloatSum FloatIEEE FloatNoise FloatEvol FloatMerge FloatMergeFacts.
Import ListNotations.
Open Scope R_scope.

(** ** C105: closed formulae are computed accurately in double precision *)
Theorem C105_chirp_mass : forall d, ieee d -> forall m1 m2, within 140 m1 -> within 140 m2 ->
  exists x, chirp_mass (Fin m1) (Fin m2) = Fin x /\ 0 < x /\ accurate (/ 10 ^ 13) x (computed d (args [m1; m2]) chirp_mass_ex).
Proof. exact chirp_mass_accurate. Qed.
Print Assumptions C105_chirp_mass.
(** Which of the masses is called the first does not change a bit. *)
Theorem C105_chirp_mass_symmetric : forall d m1 m2, computed d (args [m1; m2]) chirp_mass_ex = computed d (args [m2; m1]) chirp_mass_ex.
Proof. exact chirp_mass_symmetric. Qed.
Print Assumptions C105_chirp_mass_symmetric.
Theorem C105_separation : forall d, ieee d -> forall f m1 m2, within 60 f -> within 140 m1 -> within 140 m2 ->
  exists x, get_a_from_f_orb (Fin f) (Fin m1) (Fin m2) = Fin x /\ 0 < x /\ accurate (/ 10 ^ 13) x (computed d (args [f; m1; m2]) get_a_ex).
Proof. exact get_a_accurate. Qed.
Print Assumptions C105_separation.
Theorem C105_frequency : forall d, ieee d -> forall a m1 m2, within 106 a -> within 140 m1 -> within 140 m2 ->
  exists x, get_f_orb_from_a (Fin a) (Fin m1) (Fin m2) = Fin x /\ 0 < x /\ accurate (/ 10 ^ 13) x (computed d (args [a; m1; m2]) get_f_ex).
Proof. exact get_f_accurate. Qed.
Print Assumptions C105_frequency.
(** From a frequency to a separation and back. *)
Theorem C105_there_and_back : forall d, ieee d -> forall f m1 m2, within 60 f -> within 140 m1 -> within 140 m2 ->
  accurate (/ 10 ^ 12) f (computed d (args [computed d (args [f; m1; m2]) get_a_ex; m1; m2]) get_f_ex).
Proof. exact round_trip_accurate. Qed.
Print Assumptions C105_there_and_back.
Theorem C105_beta : forall d, ieee d -> forall m1 m2, within 140 m1 -> within 140 m2 ->
  exists x, beta (Fin m1) (Fin m2) = Fin x /\ 0 < x /\ accurate (/ 10 ^ 13) x (computed d (args [m1; m2]) beta_ex).
Proof. exact beta_accurate. Qed.
Print Assumptions C105_beta.
(** The error grows with 1 / (1 - e^2), because 1 - e^2 loses digits near e = 1. *)
Theorem C105_enhancement : forall d, ieee d -> forall e, eccentricity e ->
  exists x, peters_f (Fin e) = Fin x /\ 0 < x /\ accurate (/ 10 ^ 13 / (1 - e ^ 2)) x (computed d (args [e]) peters_f_ex).
Proof. exact peters_f_accurate. Qed.
Print Assumptions C105_enhancement.
Theorem C105_enhancement_circular : forall d, ieee d -> computed d (args [0]) peters_f_ex = 1.
Proof. exact peters_f_circular. Qed.
Print Assumptions C105_enhancement_circular.
Theorem C105_peters_constant : forall d, ieee d -> forall a e, within 110 a -> ecc_box e ->
  exists x, c_0 (Fin a) (Fin e) = Fin x /\ 0 < x /\ accurate (/ 10 ^ 13 / (1 - e ^ 2)) x (computed d (args [a; e]) c_0_ex).
Proof. exact c_0_accurate. Qed.
Print Assumptions C105_peters_constant.
Theorem C105_peters_separation : forall d, ieee d -> forall e c, ecc_box e -> within 200 c ->
  exists x, get_a_from_ecc (Fin e) (Fin c) = Fin x /\ 0 < x /\ accurate (/ 10 ^ 13 / (1 - e ^ 2)) x (computed d (args [e; c]) get_a_from_ecc_ex).
Proof. exact get_a_from_ecc_accurate. Qed.
Print Assumptions C105_peters_separation.
(** Merger times of eccentric binaries where the code uses a closed formula, for all tolerances a caller may give. *)
Theorem C105_merger_small : forall d, ieee d -> forall quad a beta e small large ex, within 60 a -> within 160 beta -> within 40 e -> ecc_box e -> e < small ->
  exists x, get_t_merge_ecc_sc quad (Fin e) (Some (Fin a)) None (Some (Fin beta)) None None (Fin small) large ex = Ok (Fin x) /\ 0 < x /\
    accurate (/ 10 ^ 12 / (1 - e ^ 2)) x (computed d (args [computed d (args [a; e]) c_0_ex; beta; e]) t_small_ex).
Proof. exact merger_small. Qed.
Print Assumptions C105_merger_small.
Theorem C105_merger_large : forall d, ieee d -> forall quad a beta e small large ex, within 60 a -> within 160 beta -> within 20 e -> ecc_box e -> small <= e -> large < e ->
  exists x, get_t_merge_ecc_sc quad (Fin e) (Some (Fin a)) None (Some (Fin beta)) None None (Fin small) (Fin large) ex = Ok (Fin x) /\ 0 < x /\
    accurate (/ 10 ^ 12 / (1 - e ^ 2)) x (computed d (args [computed d (args [a; e]) c_0_ex; beta; e]) t_large_ex).
Proof. exact merger_large. Qed.
Print Assumptions C105_merger_large.
Example C105_merger_example : within 60 (2 * 10 ^ 8) /\ within 160 (10 ^ 18) /\ (within 40 (/ 10) /\ ecc_box (/ 10) /\ / 10 < 15 / 100) /\
  within 20 (1 - / 10 ^ 5) /\ ecc_box (1 - / 10 ^ 5) /\ 15 / 100 <= 1 - / 10 ^ 5 /\ 1 - / 10 ^ 4 < 1 - / 10 ^ 5.
Proof.
  assert (W : forall n m x, m = INR n -> / 2 ^ n <= x <= 2 ^ n -> within m x) by (intros n m x -> H; unfold within; now rewrite Rpower_Ropp, Rpower_pow by lra).
  assert (E : Rpower 2 (-30) = / 2 ^ 30).
  { replace (-30) with (- (30)) by lra. rewrite Rpower_Ropp. f_equal. replace 30 with (INR 30) by (cbn; lra). now rewrite Rpower_pow by lra. }
  split; [apply (W 60%nat); [cbn; lra|lra]|]. split; [apply (W 160%nat); [cbn; lra|lra]|]. split; [split; [apply (W 40%nat); [cbn; lra|lra]|split; [|lra]]|].
  - split; [apply (W 100%nat); [cbn; lra|lra]|rewrite E; lra].
  - split; [apply (W 20%nat); [cbn; lra|lra]|]. split; [|lra]. split; [apply (W 100%nat); [cbn; lra|lra]|rewrite E; lra].
Qed.
Theorem C105_chirp : forall d, ieee d -> forall n mc f e, (1 <= n <= 2 ^ 40)%Z -> within 140 mc -> within 60 f -> eccentricity e ->
  exists x, fn_dot_elem (Fin mc) (Fin f) (Fin e) n = Fin x /\ 0 < x /\ accurate (/ 10 ^ 12 / (1 - e ^ 2)) x (computed d (args [mc; f; e]) (fn_dot_ex n)).
Proof. exact fn_dot_accurate. Qed.
Print Assumptions C105_chirp.
(** The strains, given the double g for the power radiated in the harmonic. *)
Theorem C105_strain : forall d, ieee d -> forall jv gi n mc f dist e g, (1 <= n <= 2 ^ 40)%Z -> within 140 mc -> within 60 f -> within 110 dist -> within 200 g ->
  g_value jv gi n e = Fin g ->
  exists x, h0_elem jv gi (Fin mc) (Fin f) e n (Fin dist) None = Fin x /\ 0 < x /\ accurate (/ 10 ^ 12) x (computed d (args [mc; f; dist; g]) (h_0_ex n)).
Proof. exact h_0_accurate. Qed.
Print Assumptions C105_strain.
Theorem C105_characteristic_strain : forall d, ieee d -> forall jv gi n mc f dist e g, (1 <= n <= 2 ^ 40)%Z -> within 140 mc -> within 60 f -> within 110 dist ->
  eccentricity e -> within 200 g -> g_value jv gi n (Fin e) = Fin g ->
  exists x, hc_elem jv gi (Fin mc) (Fin f) (Fin e) n (Fin dist) None = Fin x /\ 0 < x /\
    accurate (/ 10 ^ 12 / (1 - e ^ 2)) x (computed d (args [mc; f; dist; g; e]) (h_c_ex n)).
Proof. exact h_c_accurate. Qed.
Print Assumptions C105_characteristic_strain.
(** The noise curves at one frequency, with the confusion noise c given. *)
Theorem C105_lisa_noise : forall d, ieee d -> forall w f L t conf c, 1e-7 <= f <= 2 -> within 34 L -> confusion_of Bare [Fin f] t conf = Ok [Fin c] -> 0 <= c <= 2 ^ 900 ->
  exists x, lisa_psd w [Fin f] t (Fin L) true conf = Ok [Fin x] /\ 0 < x /\
    accurate (/ 10 ^ 9) x (rnd d (computed d (args [f; L; computed d (args [f; L]) approximate_R_ex]) lisa_ex + c)).
Proof. exact lisa_psd_accurate. Qed.
Print Assumptions C105_lisa_noise.
(** With a response R from the file. *)
Theorem C105_lisa_instrument_noise : forall d, ieee d -> forall f L R, within 24 f -> f <= 2 -> within 34 L -> within 100 R ->
  exists x, lisa_noise (Fin L) (Fin (clight / (2 * PI * L))) (Fin f) (Fin R) = Fin x /\ 0 < x /\ accurate (/ 10 ^ 10) x (computed d (args [f; L; R]) lisa_ex).
Proof. exact lisa_accurate. Qed.
Print Assumptions C105_lisa_instrument_noise.
Theorem C105_tianqin_noise : forall d, ieee d -> forall f L t conf c, within 30 f -> within 40 L -> confusion_of Quantity [Fin f] t conf = Ok [Fin c] -> 0 <= c <= 2 ^ 900 ->
  exists x, tianqin_psd [Fin f] t (Fin L) conf = Ok [Fin x] /\ 0 < x /\ accurate (/ 10 ^ 12) x (rnd d (computed d (args [f; L]) tianqin_ex + c)).
Proof. exact tianqin_accurate. Qed.
Print Assumptions C105_tianqin_noise.
Theorem C105_decigo_noise : forall d, ieee d -> forall f t conf c, 1e-3 <= f <= 1e2 -> confusion_of Bare [Fin f] t conf = Ok [Fin c] -> 0 <= c <= 2 ^ 900 ->
  exists x, decigo_psd [Fin f] t conf decigo_f_low decigo_f_high = Ok [Fin x] /\ 0 < x /\ accurate (/ 10 ^ 12) x (rnd d (computed d (args [f]) decigo_ex + c)).
Proof. exact decigo_accurate. Qed.
Print Assumptions C105_decigo_noise.
Example C105_noise_example : within 34 25e8 /\ within 100 0.3 /\ within 30 1e-3 /\ confusion_of Bare [Fin 1e-3] (Fin 1) CNone = Ok [Fin 0] /\ confusion_of Quantity [Fin 1e-3] (Fin 1) CNone = Ok [Fin 0].
Proof.
  assert (W : forall n m x, m = INR n -> / 2 ^ n <= x <= 2 ^ n -> within m x) by (intros n m x -> H; unfold within; now rewrite Rpower_Ropp, Rpower_pow by lra).
  split; [apply (W 34%nat); [cbn; lra|lra]|]. split; [apply (W 100%nat); [cbn; lra|lra]|]. split; [apply (W 30%nat); [cbn; lra|lra]|]. now split.
Qed.
(** All the power of a circular binary is computed to be in the second harmonic, and none in the others, exactly. [J] is the Bessel function at 0, for every order. *)
Theorem C105_circular_power : forall d, ieee d -> forall n, (1 <= n)%Z -> let J k := if (k =? 0)%Z then 1 else 0 in
  computed d (args [0; J (n - 2)%Z; J (n - 1)%Z; J n; J (n + 1)%Z; J (n + 2)%Z]) (peters_g_ex n) = if (n =? 2)%Z then 1 else 0.
Proof. exact circular_powers. Qed.
Print Assumptions C105_circular_power.
(** The SNR of a circular stationary binary, given a noise N' that is accurate up to tN (jv is scipy's Bessel function). *)
Theorem C105_circular_snr : forall d, ieee d -> forall w jv kw sc mc f dist t h N N' tN,
  within 140 mc -> within 60 f -> within 110 dist -> within 60 t -> jv 0%Z (Fin 0) = Fin 1 -> (forall k, (1 <= k <= 4)%Z -> jv k (Fin 0) = Fin 0) ->
  h0_elem jv None (Fin mc) (Fin f) (Fin 0) 2 (Fin dist) None = Fin h -> within 300 h ->
  noise w kw sc (Fin t) [Fin (2 * f)] = Ok [Fin N] -> within 300 N -> 0 <= tN <= / 8 -> accurate tN N N' ->
  exists s, snr_circ_stationary w jv None [Fin mc] [Fin f] [Fin dist] (Fin t) no_sky sc kw = Ok [Fin s] /\ 0 < s /\
    let g' := computed d (args [0; 1; 0; 0; 0; 0]) (peters_g_ex 2) in
    let h' := computed d (args [mc; f; dist; g']) (h_0_ex 2) in
    accurate (/ 10 ^ 11 + 2 * tN) s (computed d (args [h'; t; N']) snr_circ_ex).
Proof. exact snr_circ_accurate. Qed.
Print Assumptions C105_circular_snr.
(** A chirp mass of half a solar mass at 1 mHz and 10 kpc, four years of observation, a flat noise curve. *)
Example C105_circular_snr_example : exists h, let noise_ := fun _ => Fin (/ 10 ^ 38) in
  within 140 (10 ^ 30) /\ within 60 (/ 10 ^ 3) /\ within 110 (3 * 10 ^ 20) /\ within 60 (12 * 10 ^ 7) /\ within 300 h /\ within 300 (/ 10 ^ 38) /\
  h0_elem bessel_at_0 None (Fin (10 ^ 30)) (Fin (/ 10 ^ 3)) (Fin 0) 2 (Fin (3 * 10 ^ 20)) None = Fin h /\
  (forall w kw, noise w kw (Some noise_) (Fin (12 * 10 ^ 7)) [Fin (2 * / 10 ^ 3)] = Ok [Fin (/ 10 ^ 38)]).
Proof.
  destruct (snr_circ_example flocq flocq_ieee) as (h & H & E). exists h. cbv zeta.
  assert (W : forall n m x, m = INR n -> / 2 ^ n <= x <= 2 ^ n -> within m x) by (intros n m x -> X; unfold within; now rewrite Rpower_Ropp, Rpower_pow by lra).
  split; [apply (W 140%nat); [cbn; lra|lra]|]. split; [apply (W 60%nat); [cbn; lra|lra]|]. split; [apply (W 110%nat); [cbn; lra|lra]|].
  split; [apply (W 60%nat); [cbn; lra|lra]|]. split; [exact H|]. split; [apply (W 300%nat); [rewrite INR_IZR_INZ; reflexivity|lra]|]. split; [exact E|reflexivity].
Qed.
(** Rounding to nearest even with 53 bits is [ieee]; a galactic double white dwarf lies in the boxes. *)
Example C105_ieee_example : ieee flocq.
Proof. exact flocq_ieee. Qed.
Lemma within_pow n m x : m = INR n -> / 2 ^ n <= x <= 2 ^ n -> within m x.
Proof. intros -> H. unfold within. now rewrite Rpower_Ropp, Rpower_pow by lra. Qed.
Example C105_box_example : within 140 (12 * 10 ^ 29) /\ within 60 (/ 10 ^ 3) /\ within 110 (3 * 10 ^ 20) /\ within 106 (2 * 10 ^ 8) /\ eccentricity 0 /\ ecc_box (/ 10).
Proof.
  assert (E : Rpower 2 (-30) = / 2 ^ 30).
  { replace (-30) with (- (30)) by lra. rewrite Rpower_Ropp. f_equal. replace 30 with (INR 30) by (cbn; lra). now rewrite Rpower_pow by lra. }
  split; [apply (within_pow 140); [cbn; lra|lra]|]. split; [apply (within_pow 60); [cbn; lra|lra]|]. split; [apply (within_pow 110); [cbn; lra|lra]|].
  split; [apply (within_pow 106); [cbn; lra|lra]|]. split; [now left|]. split; [apply (within_pow 100); [cbn; lra|lra]|rewrite E; lra].
Qed.

(** ** C106: sums over harmonics are accurate whatever the order of the additions *)
Theorem C106_sum : forall d t l l' o, ieee d -> terms t l l' -> 0 <= t <= / 8 -> INR (length l) <= 2 ^ 48 -> adds_all o (length l) ->
  exists x, nsum (map Fin l) = Fin x /\ accurate (4 * (t + INR (length l) * Rpower 2 (- 53))) x (sum_computed d (args l') o).
Proof. exact sum_accurate. Qed.
Print Assumptions C106_sum.
(** The SNR of a source from the squared SNRs of its harmonics. *)
Theorem C106_snr : forall d t l l' o, ieee d -> terms t l l' -> 0 <= t <= / 8 -> INR (length l) <= 2 ^ 48 -> adds_all o (length l) ->
  exists x, nsqrt (nsum (map Fin l)) = Fin x /\ accurate (2 * (t + (INR (length l) + 500) * Rpower 2 (- 53))) x (root_computed d (args l') o).
Proof. exact root_accurate. Qed.
Print Assumptions C106_snr.
Theorem C106_orders : forall d l o o', ieee d -> terms 0 l l -> INR (length l) <= 2 ^ 48 -> adds_all o (length l) -> adds_all o' (length l) ->
  accurate (INR (length l) * Rpower 2 (- 50)) (sum_computed d (args l) o) (sum_computed d (args l) o').
Proof. exact orders_agree. Qed.
Print Assumptions C106_orders.
Example C106_example : terms 0 [9; 0; 3] [9; 0; 3] /\ adds_all (Plus (Entry 2) (Plus (Entry 0) (Entry 1))) 3 /\ adds_all (Plus (Plus (Entry 0) (Entry 1)) (Entry 2)) 3.
Proof.
  assert (W : forall x, 1 <= x <= 9 -> within 900 x).
  { intros x H. unfold within. split; [apply Rle_trans with (Rpower 2 0); [apply Rle_Rpower; lra|rewrite Rpower_O; lra]|].
    apply Rle_trans with (Rpower 2 4); [replace 4 with (INR 4) by (cbn; lra); rewrite Rpower_pow by lra; lra|apply Rle_Rpower; lra]. }
  assert (A : forall x, accurate 0 x x) by (intros x; unfold accurate; rewrite Rminus_diag_eq, Rabs_R0 by reflexivity; lra).
  split; [|split].
  - unfold terms. apply Forall2_cons; [right; split; [apply W; lra|apply A]|]. apply Forall2_cons; [now left|]. apply Forall2_cons; [right; split; [apply W; lra|apply A]|constructor].
  - apply (Permutation_cons_app [0; 1]%nat [] 2%nat). apply Permutation_refl.
  - apply Permutation_refl.
Qed.

(** ** C107: circular evolution in double precision *)
Theorem C107_merger_time : forall d, ieee d -> forall beta a, within 420 beta -> within 110 a ->
  exists x, t_merge_circ_elem (Fin beta) (Fin a) = Fin x /\ 0 < x /\ accurate (/ 10 ^ 14) x (computed d (args [beta; a]) t_merge_ex).
Proof. exact t_merge_accurate. Qed.
Print Assumptions C107_merger_time.
(** At time 0. *)
Theorem C107_start : forall d, ieee d -> forall beta a, within 110 a -> accurate (/ 10 ^ 13) a (circ_a_computed d beta a 0).
Proof. exact start_accurate. Qed.
Print Assumptions C107_start.
(** The error grows with the inverse of the fraction of the merger time a^4 / (4 beta) that is left. *)
Theorem C107_separation : forall d, ieee d -> forall beta a t, within 420 beta -> within 110 a -> within 200 t -> Rpower 2 (- 30) <= 1 - t / (a ^ 4 / (4 * beta)) ->
  exists x, circ_a_elem (Fin a) (Fin beta) (Fin t) = Fin x /\ 0 < x /\ accurate (/ 10 ^ 13 / (1 - t / (a ^ 4 / (4 * beta)))) x (circ_a_computed d beta a t).
Proof. exact separation_accurate. Qed.
Print Assumptions C107_separation.
(** Evolved to its merger time, the default, a binary ends with less than a thousandth of its separation ... *)
Theorem C107_ends_close : forall d, ieee d -> forall beta a, within 420 beta -> within 110 a ->
  Rabs (circ_a_computed d beta a (computed d (args [beta; a]) last_time_ex)) <= a / 1000.
Proof. exact last_accurate. Qed.
Print Assumptions C107_ends_close.
(** ... but not always with separation 0, the mark of a merged binary: with rounding to nearest even, beta = 2.3e19 m^4/s and a = 1e9 m end
    more than 100 km apart, where exact arithmetic gives 0. *)
Theorem C107_ends_merged_refuted : exists beta a, within 420 beta /\ within 110 a /\ binary64 beta = beta /\ binary64 a = a /\
  circ_a_elem (Fin a) (Fin beta) (t_merge_circ_elem (Fin beta) (Fin a)) = Fin 0 /\
  100000 < circ_a_computed flocq beta a (computed flocq (args [beta; a]) last_time_ex).
Proof. exact not_merged_box. Qed.
Print Assumptions C107_ends_merged_refuted.
Example C107_example : within 420 23000000000000000000 /\ within 110 1000000000 /\ within 200 (10 ^ 15) /\
  Rpower 2 (- 30) <= 1 - 10 ^ 15 / (1000000000 ^ 4 / (4 * 23000000000000000000)).
Proof.
  split; [apply (within_pow 420); [rewrite INR_IZR_INZ; reflexivity|lra]|]. split; [apply (within_pow 110); [cbn; lra|lra]|]. split; [apply (within_pow 200); [cbn; lra|lra]|].
  replace (- 30) with (- (30)) by lra. rewrite Rpower_Ropp. replace 30 with (INR 30) by (cbn; lra). rewrite Rpower_pow by lra. lra.
Qed.
