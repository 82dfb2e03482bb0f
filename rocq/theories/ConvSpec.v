(** ConvSpec.v -- vocabulary for the limit of many time steps and for the continuity of noise curves. *)
From Coq Require Import String Reals.
From Coquelicot Require Import Coquelicot.
From Verif Require Import Num Psd.
Open Scope R_scope.

(** [q] is the reciprocal of the noise power at frequency [x]: 0 where the noise is infinite. *)
Definition inverse_noise (p : num -> num) (x q : R) : Prop :=
  (p (Fin x) = PInf /\ q = 0) \/ exists s, p (Fin x) = Fin s /\ q = / s.
(** The noise power is a positive continuous function of the frequency between [lo] and [hi]. *)
Definition continuous_noise (p : num -> num) (lo hi : R) : Prop :=
  exists S : R -> R, forall f, lo <= f <= hi -> p (Fin f) = Fin (S f) /\ 0 < S f /\ continuous S f.
(** The interval contains none of the frequencies at which the confusion noise of [c] is cut off. *)
Definition no_cut (c : conf) (lo hi : R) : Prop :=
  c = CName "huang20" -> hi < 1e-4 \/ (1e-4 < lo /\ hi < 1) \/ 1 < lo.
