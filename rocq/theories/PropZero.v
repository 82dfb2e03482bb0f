(** PropZero.v -- property C116: when an SNR is zero; C43 for chirp masses; C80 for the Bessel functions themselves. *)
From Coq Require Import String Reals ZArith List Lra Lia.
From Verif Require Import Num Np Utils Spec EvolSpec Evol OdeintFacts Strain StrainSpec Bessel Psd PsdSpec Snr SnrSpec SnrThms2 ZeroFacts.
Import ListNotations.
Open Scope R_scope.

(** ** C116: a stationary source has SNR zero exactly if it radiates at no frequency in band *)
(** A circular binary radiates at the second harmonic, an eccentric one at every harmonic. *)
Theorem C116_eccentric : forall w jv kw t X (m f d : X -> R) xs B, (forall k x, jv k (Fin x) = Fin (besselJ k x)) ->
  built_in_curve w kw t B -> 0 < t -> forall (e : X -> R) hr, (forall x, In x xs -> 0 < m x /\ 0 < f x /\ 0 < d x /\ 0 <= e x < 1) ->
  exists s : X -> R,
    snr_ecc_stationary w jv None (map (fun x => Fin (m x)) xs) (map (fun x => Fin (f x)) xs) (map (fun x => Fin (e x)) xs)
      (map (fun x => Fin (d x)) xs) (Fin t) hr None false false kw = Ok (Snr (map (fun x => Fin (s x)) xs)) /\
    forall x, In x xs -> 0 <= s x /\
      (s x = 0 <-> forall n, (1 <= n <= Z.of_nat hr)%Z -> 0 < e x \/ n = 2%Z -> ~ B (IZR n * f x)).
Proof. exact zero_band. Qed.
Print Assumptions C116_eccentric.
Theorem C116_circular : forall w jv kw t X (m f d : X -> R) xs B, (forall k x, jv k (Fin x) = Fin (besselJ k x)) ->
  built_in_curve w kw t B -> 0 < t -> (forall x, In x xs -> 0 < m x /\ 0 < f x /\ 0 < d x) ->
  exists s : X -> R,
    snr_circ_stationary w jv None (map (fun x => Fin (m x)) xs) (map (fun x => Fin (f x)) xs) (map (fun x => Fin (d x)) xs) (Fin t) no_sky None kw
      = Ok (map (fun x => Fin (s x)) xs) /\
    forall x, In x xs -> 0 <= s x /\ (s x = 0 <-> ~ B (2 * f x)).
Proof. exact zero_band_circular. Qed.
Print Assumptions C116_circular.
Example C116_satisfiable : (exists jv, forall k x, jv k (Fin x) = Fin (besselJ k x)) /\
  (forall w, built_in_curve w (mkKw "LISA" None Auto true (CName "auto")) (4 * 31557600) (fun f => 1e-7 <= f <= 2)) /\
  forall x : unit, In x [tt] -> 0 < 1e30 /\ 0 < 1e-3 /\ 0 < 1e20 /\ 0 <= 1/2 < 1.
Proof.
  split; [exists (fun k x => match x with Fin r => Fin (besselJ k r) | _ => NaN end); reflexivity|]. split; [|intros; lra].
  intros w. apply (lisa_curve_used w _ _ 2.5e9 (CName "karnesis21")); [reflexivity|right; split; reflexivity|lra|now left|left; split; reflexivity|unfold builtin; auto 10].
Qed.
(** The same for any other curve, interpolated or custom, "in band" meaning that the noise is finite. *)
Theorem C116_any_curve : forall w jv kw sc p t X (m f d : X -> R) xs, (forall k x, jv k (Fin x) = Fin (besselJ k x)) ->
  noise_curve w kw sc t p -> proper_noise p -> 0 < t -> forall (e : X -> R) hr,
  (forall x, In x xs -> 0 < m x /\ 0 < f x /\ 0 < d x /\ 0 <= e x < 1) ->
  exists s : X -> R,
    snr_ecc_stationary w jv None (map (fun x => Fin (m x)) xs) (map (fun x => Fin (f x)) xs) (map (fun x => Fin (e x)) xs)
      (map (fun x => Fin (d x)) xs) (Fin t) hr sc false false kw = Ok (Snr (map (fun x => Fin (s x)) xs)) /\
    forall x, In x xs -> 0 <= s x /\
      (s x = 0 <-> forall n, (1 <= n <= Z.of_nat hr)%Z -> 0 < e x \/ n = 2%Z -> p (Fin (IZR n * f x)) = PInf).
Proof. exact zero_eccentric. Qed.
Print Assumptions C116_any_curve.

(** ** C43: chirp masses *)
(** Stationary SNRs go with the chirp mass to the power 5/3. *)
Theorem C43_mass_eccentric : forall w jv gi X (m f e d : X -> R) xs t hr sc kw p k,
  noise_curve w kw sc t p -> proper_noise p -> 0 <= t -> 0 < k ->
  (forall x, In x xs -> good_source jv gi (m x) (f x) (e x) (d x)) ->
  let call (M : X -> R) := snr_ecc_stationary w jv gi (map (fun x => Fin (M x)) xs) (map (fun x => Fin (f x)) xs) (map (fun x => Fin (e x)) xs)
      (map (fun x => Fin (d x)) xs) (Fin t) hr sc false false kw in
  exists s : X -> R, call m = Ok (Snr (map (fun x => Fin (s x)) xs)) /\
    call (fun x => k * m x) = Ok (Snr (map (fun x => Fin (Rpower k (5/3) * s x)) xs)).
Proof. exact mass_eccentric. Qed.
Print Assumptions C43_mass_eccentric.
Theorem C43_mass_circular : forall w jv gi X (m f d : X -> R) (o : option (X -> angles)) xs t sc kw p k,
  noise_curve w kw sc t p -> proper_noise p -> 0 <= t -> 0 < k ->
  (exists g, power_used jv gi 2 0 g) -> (forall x, In x xs -> 0 < m x /\ 0 < f x /\ 0 < d x) ->
  let call (M : X -> R) := snr_circ_stationary w jv gi (map (fun x => Fin (M x)) xs) (map (fun x => Fin (f x)) xs) (map (fun x => Fin (d x)) xs) (Fin t) (pop_sky xs o) sc kw in
  exists s : X -> R, call m = Ok (map (fun x => Fin (s x)) xs) /\ call (fun x => k * m x) = Ok (map (fun x => Fin (Rpower k (5/3) * s x)) xs).
Proof. exact mass_circular. Qed.
Print Assumptions C43_mass_circular.

(** ** C80: evolving eccentric sources *)
(** With the Bessel functions themselves every harmonic carries power, and one of those summed in band is enough. *)
Theorem C80_bessel_partial : forall w jv quad odeint sched np m1 m2 f d e0 hr t n tmo tm b a0 c0 e aT fT sc kw p,
  (forall k x, jv k (Fin x) = Fin (besselJ k x)) ->
  noise_curve w kw sc t p -> proper_noise p -> ((3 <= n)%nat \/ (2 <= n)%nat /\ t < tm - year / 10) -> odeint_shape odeint -> odeint_exact odeint ->
  ((1 < np)%nat -> complete_schedule 1 sched) ->
  0 < m1 -> 0 < m2 -> 0 < f -> 0 < d -> 0 < e0 < 1 ->
  beta (Fin m1) (Fin m2) = Fin b -> get_a_from_f_orb (Fin f) (Fin m1) (Fin m2) = Fin a0 -> c_0 (Fin a0) (Fin e0) = Fin c0 ->
  merger_time_used quad m1 m2 f e0 tm tmo ->
  let T := Rmin (tm - year / 10) t in
  0 < T -> e 0 = e0 -> follows_de_dt b c0 T e ->
  get_a_from_ecc (Fin (e T)) (Fin c0) = Fin aT -> tiny < aT ->
  get_f_orb_from_a (Fin aT) (Fin m1) (Fin m2) = Fin fT -> fT < 100 ->
  (exists h, (1 <= h <= Z.of_nat hr)%Z /\ p (Fin (IZR h * f)) <> PInf) ->
  exists s, snr_ecc_evolving w jv None quad odeint sched [Fin m1] [Fin m2] [Fin f] [Fin d] [Fin e0] hr (Fin t) n tmo sc np false false kw = Ok (Snr [Fin s]) /\ 0 < s.
Proof. exact bessel_positive. Qed.
Print Assumptions C80_bessel_partial.
