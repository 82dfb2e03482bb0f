(** PropParseval.v -- properties C113 and C114: the harmonics together; C05 for eccentric binaries. *)
From Coq Require Import String Reals ZArith List Lra Lia.
From Verif Require Import Num Np Utils Spec EvolSpec StrainSpec Bessel Psd PsdSpec Snr SnrSpec ConvSpec SumSpec ParsevalThms ParsevalStrain BesselPositive HarmonicSums.
Import ListNotations.
Open Scope R_scope.

(** ** C113: peters_f is the sum of peters_g over all harmonics *)
(** [jv] returns the Bessel functions of the first kind ([besselJ], defined by Bessel's integral). *)
Theorem C113_sum : forall jv e, (forall k x, jv k (Fin x) = Fin (besselJ k x)) -> 0 <= e < 1 -> exists (g : Z -> R) (F : R),
  (forall n, (1 <= n)%Z -> peters_g jv n (Fin e) = Fin (g n)) /\ peters_f (Fin e) = Fin F /\
  (forall N, Rsum (map g (map Z.of_nat (seq 1 N))) <= F) /\
  Un_cv (fun N => Rsum (map g (map Z.of_nat (seq 1 N)))) F.
Proof. exact peters_sum. Qed.
Print Assumptions C113_sum.
Example C113_sum_satisfiable : exists jv, forall k x, jv k (Fin x) = Fin (besselJ k x).
Proof. exists (fun k x => match x with Fin r => Fin (besselJ k r) | _ => NaN end). reflexivity. Qed.
(** Some number of harmonics holds all but a share [tol] of the power, whatever the tolerance. *)
Theorem C113_enough_harmonics : forall jv e tol, (forall k x, jv k (Fin x) = Fin (besselJ k x)) -> 0 <= e < 1 -> 0 < tol ->
  exists (g : Z -> R) (F : R) (N : nat),
  (forall n, (1 <= n)%Z -> peters_g jv n (Fin e) = Fin (g n)) /\ peters_f (Fin e) = Fin F /\
  forall M, (N <= M)%nat -> (1 - tol) * F <= Rsum (map g (map Z.of_nat (seq 1 M))) <= F.
Proof. exact enough_harmonics. Qed.
Print Assumptions C113_enough_harmonics.
(** The powers of the strains, which go with the squares of frequency times amplitude, add up to peters_f times that of the
    circular binary with the same masses, frequency, distance and orientation. *)
Theorem C113_strain : forall jv, (forall k x, jv k (Fin x) = Fin (besselJ k x)) -> forall m f e d o,
  0 < m -> 0 < f -> 0 < d -> 0 <= e < 1 -> exists (h : Z -> R) (hc F : R),
  (forall n, (1 <= n)%Z -> h_0_single jv None m f e n d o = Ok [[[Fin (h n)]]]) /\
  h_0_single jv None m f 0 2 d o = Ok [[[Fin hc]]] /\ peters_f (Fin e) = Fin F /\
  Un_cv (fun N => Rsum (map (fun n => (IZR n * h n) ^ 2) (map Z.of_nat (seq 1 N)))) ((2 * hc) ^ 2 * F).
Proof. exact strain_sum. Qed.
Print Assumptions C113_strain.
(** The energy radiated per unit of orbital frequency does not depend on the eccentricity: the squares of the characteristic
    strains, weighted with the harmonic numbers, add up to the value of the circular binary. *)
Theorem C113_characteristic : forall jv, (forall k x, jv k (Fin x) = Fin (besselJ k x)) -> forall m f e d o,
  0 < m -> 0 < f -> 0 < d -> 0 <= e < 1 -> exists (h : Z -> R) (hc : R),
  (forall n, (1 <= n)%Z -> h_c_single jv None m f e n d o = Ok [[[Fin (h n)]]]) /\
  h_c_single jv None m f 0 2 d o = Ok [[[Fin hc]]] /\
  Un_cv (fun N => Rsum (map (fun n => IZR n * h n ^ 2) (map Z.of_nat (seq 1 N)))) (2 * hc ^ 2).
Proof. exact characteristic_sum. Qed.
Print Assumptions C113_characteristic.

(** ** C05: an eccentric binary radiates at every harmonic *)
Theorem C05_every_harmonic : forall jv n e, (forall k x, jv k (Fin x) = Fin (besselJ k x)) -> (1 <= n)%Z -> 0 < e < 1 ->
  exists g, peters_g jv n (Fin e) = Fin g /\ 0 < g.
Proof. exact every_harmonic. Qed.
Print Assumptions C05_every_harmonic.
(** Hence no number of harmonics holds all the power of an eccentric binary. *)
Theorem C113_never_all : forall jv e, (forall k x, jv k (Fin x) = Fin (besselJ k x)) -> 0 < e < 1 -> exists (g : Z -> R) (F : R),
  (forall n, (1 <= n)%Z -> peters_g jv n (Fin e) = Fin (g n) /\ 0 < g n) /\ peters_f (Fin e) = Fin F /\
  forall N, Rsum (map g (first_harmonics N)) < F.
Proof. exact strictly_below. Qed.
Print Assumptions C113_never_all.

(** ** C114: an SNR of harmonics holding all but a share of the luminosity misses at most that share of the squared SNR *)
(** True if the squared frequency times the noise does not fall from one harmonic to a higher one. *)
Theorem C114_rising_noise_partial : forall w jv kw sc p m f e d t, (forall k x, jv k (Fin x) = Fin (besselJ k x)) ->
  noise_curve w kw sc t p -> proper_noise p -> 0 < m -> 0 < f -> 0 < d -> 0 <= t -> 0 <= e < 1 -> forall M N tol,
  rising_noise p f -> (N <= M)%nat -> 0 <= tol -> within_luminosity jv e tol N ->
  exists s s', snr_first w jv m f e d t sc kw N = Ok (Snr [Fin s]) /\ snr_first w jv m f e d t sc kw M = Ok (Snr [Fin s']) /\
  0 <= s <= s' /\ (1 - tol) * s' ^ 2 <= s ^ 2.
Proof. exact rising. Qed.
Print Assumptions C114_rising_noise_partial.
Example C114_rising_noise_satisfiable : forall w kw t, let p := fun x : num => Fin 1e-40 in
  noise_curve w kw (Some p) t p /\ proper_noise p /\ forall f, rising_noise p f.
Proof.
  intros w kw t p. split; [intros fs; reflexivity|]. split; [intros f _; right; exists 1e-40; split; [reflexivity|lra]|].
  intros f i j qi qj Hij [(A & _)|(s & A & ->)]; [discriminate A|]. intros [(B & _)|(s' & B & ->)]; [discriminate B|].
  injection A as <-. injection B as <-. apply Rmult_le_compat_l; [left; apply Rinv_0_lt_compat; lra|].
  apply pow_incr. split; apply IZR_le; lia.
Qed.
Example C114_luminosity_satisfiable : forall jv e tol, (forall k x, jv k (Fin x) = Fin (besselJ k x)) -> 0 <= e < 1 -> 0 < tol ->
  exists N, within_luminosity jv e tol N.
Proof.
  intros jv e tol J He Ht. destruct (enough_harmonics jv e tol J He Ht) as (g & F & N & G & HF & B).
  exists N, g, F. split; [exact G|]. split; [exact HF|]. apply (B N). lia.
Qed.
(** In general the SNR of more and more harmonics converges, and a share [tol] of the luminosity costs at most a share [tol] of
    what the total luminosity at the next harmonic would give against the lowest noise [1 / W]. *)
Theorem C114_truncation : forall w jv kw sc p m f e d t, (forall k x, jv k (Fin x) = Fin (besselJ k x)) ->
  noise_curve w kw sc t p -> proper_noise p -> 0 < m -> 0 < f -> 0 < d -> 0 <= t -> 0 <= e < 1 -> forall W,
  (forall x q, 0 < x -> inverse_noise p x q -> q <= W) ->
  exists (s : nat -> R) (S hc F : R), (forall N, snr_first w jv m f e d t sc kw N = Ok (Snr [Fin (s N)])) /\
  peters_f (Fin e) = Fin F /\ h_0_single jv None m f 0 2 d None = Ok [[[Fin hc]]] /\
  Un_cv s S /\ (forall N, 0 <= s N <= S) /\
  forall N tol, within_luminosity jv e tol N -> S ^ 2 - s N ^ 2 <= tol * ((2 * hc / INR (N + 1)) ^ 2 * F * t * W).
Proof. exact truncation. Qed.
Print Assumptions C114_truncation.
Example C114_truncation_satisfiable : forall x q, 0 < x -> inverse_noise (fun _ => Fin 1e-40) x q -> q <= 1e40.
Proof. intros x q _ [(A & _)|(s & A & ->)]; [discriminate A|]. injection A as <-. lra. Qed.
(** False in general: whatever the tolerance, at some frequency all harmonics that hold this share of the luminosity lie below the
    band of LISA or DECIGO and the next one in it, so that the SNR is 0 instead of positive. *)
Theorem C114_below_band_refuted : forall w jv kw m e d t tol lo hi, (forall k x, jv k (Fin x) = Fin (besselJ k x)) ->
  built_in_curve w kw t (fun f => lo <= f <= hi) -> 0 < lo -> lo <= hi -> 0 < m -> 0 < d -> 0 < t -> 0 < e < 1 -> 0 < tol ->
  exists N f s, within_luminosity jv e tol N /\ 0 < f /\
    snr_first w jv m f e d t None kw N = Ok (Snr [Fin 0]) /\ snr_first w jv m f e d t None kw (N + 1) = Ok (Snr [Fin s]) /\ 0 < s.
Proof. exact below_band. Qed.
Print Assumptions C114_below_band_refuted.
Example C114_below_band_satisfiable : forall w, built_in_curve w (mkKw "LISA" None Auto true (CName "auto")) (4 * 31557600) (fun f => 1e-7 <= f <= 2).
Proof.
  intros w. apply (lisa_curve_used w _ _ 2.5e9 (CName "karnesis21")); [reflexivity|right; split; reflexivity|lra|now left|left; split; reflexivity|unfold builtin; auto 10].
Qed.
