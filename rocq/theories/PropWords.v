(** PropWords.v -- C108: harmonic numbers are machine integers.

    The functions ending in _w compute n**4, 3 * n**2 and n - 2, ..., n + 2 in integers of [b] bits that wrap around (Words.v); those without
    it, about which the other files prove their theorems, in integers without bounds. *)
From Coq Require Import Reals ZArith List Lra Lia.
From Verif Require Import Num NumFacts Np Utils Strain Psd Evol Snr SnrSpec Words WordsFacts.
Import ListNotations.
Open Scope R_scope.

(** While the fourth power of the harmonics fits, strains and SNRs are those of unbounded integers. *)
Theorem C108_strains : forall b jv gi m f e ns d s, (8 <= b)%Z -> List.Forall (fun n => (1 <= n)%Z -> (n ^ 4 < 2 ^ (b - 1))%Z) ns ->
  h_0_n_w b jv gi m f e ns d s = h_0_n jv gi m f e ns d s /\ h_c_n_w b jv gi m f e ns d s = h_c_n jv gi m f e ns d s.
Proof. exact (fun b jv gi m f e ns d s B H => conj (h_0_exact b jv gi m f e ns d s B H) (h_c_exact b jv gi m f e ns d s B H)). Qed.
Print Assumptions C108_strains.
Theorem C108_snr_stationary : forall b w jv gi m f e d t hr sc rm r2 kw, (8 <= b)%Z -> (Z.of_nat hr ^ 4 < 2 ^ (b - 1))%Z ->
  snr_ecc_stationary_w b w jv gi m f e d t hr sc rm r2 kw = snr_ecc_stationary w jv gi m f e d t hr sc rm r2 kw.
Proof. exact stationary_exact. Qed.
Print Assumptions C108_snr_stationary.
Theorem C108_snr_evolving : forall b w jv gi quad odeint sched m1 m2 f d e hr t n tm sc np rm r2 kw, (8 <= b)%Z -> (Z.of_nat hr ^ 4 < 2 ^ (b - 1))%Z ->
  snr_ecc_evolving_w b w jv gi quad odeint sched m1 m2 f d e hr t n tm sc np rm r2 kw = snr_ecc_evolving w jv gi quad odeint sched m1 m2 f d e hr t n tm sc np rm r2 kw.
Proof. exact evolving_exact. Qed.
Print Assumptions C108_snr_evolving.
(** In words of 64 bits that is so up to harmonic 55108, far more than the 10000 the collections use; in words of 32 bits up to 215. *)
Theorem C108_limits : forall n, (1 <= n)%Z -> ((n ^ 4 < 2 ^ (64 - 1))%Z <-> (n <= 55108)%Z) /\ ((n ^ 4 < 2 ^ (32 - 1))%Z <-> (n <= 215)%Z).
Proof. exact limits. Qed.
Print Assumptions C108_limits.
(** Just above, harmonics that carry power get strain nan ... *)
Theorem C108_strain_refuted : forall b jv n e g m f d, (8 <= b)%Z -> (1 <= n)%Z -> (2 ^ (b - 1) <= n ^ 4 < 2 ^ b)%Z -> peters_g jv n (Fin e) = Fin g -> 0 < g ->
  h_0_n_w b jv None [m] [[f]] [[Fin e]] [n] [d] no_sky = Ok [[[NaN]]] /\ h_c_n_w b jv None [m] [[f]] [[Fin e]] [n] [d] no_sky = Ok [[[NaN]]].
Proof. exact (fun b jv n e g m f d B N O P G => single_nan b jv n e g B N O P G m f d). Qed.
Print Assumptions C108_strain_refuted.
(** ... and so does the SNR of every source computed with such a number of harmonics. *)
Theorem C108_snr_refuted : forall b w jv X (m f d : X -> num) (e : X -> R) xs t hr sc kw p n g i x, (8 <= b)%Z -> noise_curve w kw sc t p ->
  (1 <= n <= Z.of_nat hr)%Z -> (2 ^ (b - 1) <= n ^ 4 < 2 ^ b)%Z -> nth_error xs i = Some x -> peters_g jv n (Fin (e x)) = Fin g -> 0 < g ->
  exists v, snr_ecc_stationary_w b w jv None (map m xs) (map f xs) (map (fun x => Fin (e x)) xs) (map d xs) (Fin t) hr sc false false kw = Ok (Snr v) /\ nth_error v i = Some NaN.
Proof. exact (fun b w jv X => @snr_nan b w jv X). Qed.
Print Assumptions C108_snr_refuted.
(** Harmonic 55109 in 64 bits and harmonic 216 in 32 bits, with Bessel functions taken to be 1. *)
Example C108_example : (2 ^ (64 - 1) <= 55109 ^ 4 < 2 ^ 64)%Z /\ (2 ^ (32 - 1) <= 216 ^ 4 < 2 ^ 32)%Z /\
  (forall n, (1 <= n)%Z -> exists g, peters_g (fun _ _ => Fin 1) n (Fin (1 / 2)) = Fin g /\ 0 < g) /\ (forall w kw, noise_curve w kw (Some (fun _ => Fin 1)) 1 (fun _ => Fin 1)) /\
  List.Forall (fun n => (1 <= n)%Z -> (n ^ 4 < 2 ^ (64 - 1))%Z) [1; 2; 10000]%Z.
Proof.
  split; [now split|]. split; [now split|]. split; [|split; [intros w kw fs; reflexivity|repeat constructor]].
  intros n N. exact (power_of_ones n N).
Qed.
