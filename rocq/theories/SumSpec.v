(** SumSpec.v -- specification: SNRs of the first harmonics of one source. *)
From Coq Require Import Reals ZArith List.
From Verif Require Import Num Utils Spec EvolSpec Psd PsdSpec Snr SnrSpec ConvSpec.
Import ListNotations.
Open Scope R_scope.

Definition first_harmonics (N : nat) : list Z := map Z.of_nat (seq 1 N).
(** The first [N] harmonics carry all but a share [tol] of the luminosity. *)
Definition within_luminosity (jv : Z -> num -> num) (e tol : R) (N : nat) : Prop := exists (g : Z -> R) (F : R),
  (forall n, (1 <= n)%Z -> peters_g jv n (Fin e) = Fin (g n)) /\ peters_f (Fin e) = Fin F /\
  (1 - tol) * F <= Rsum (map g (first_harmonics N)).
(** The stationary SNR of the first [N] harmonics of one source. *)
Definition snr_first w jv m f e d t sc kw (N : nat) :=
  snr_ecc_stationary w jv None [Fin m] [Fin f] [Fin e] [Fin d] (Fin t) N sc false false kw.
(** The squared frequency times the noise does not fall from one harmonic of [f] to a higher one. *)
Definition rising_noise (p : num -> num) (f : R) : Prop := forall i j qi qj, (1 <= i <= j)%Z ->
  inverse_noise p (IZR i * f) qi -> inverse_noise p (IZR j * f) qj -> qj * IZR i ^ 2 <= qi * IZR j ^ 2.
