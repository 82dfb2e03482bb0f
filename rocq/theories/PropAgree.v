(** PropAgree.v -- property C110: stationary and evolving SNRs of circular binaries. *)
From Coq Require Import String ZArith Reals List Lra Lia.
From Verif Require Import Num NumFacts Np Utils Strain StrainSpec StrainFacts Evol EvolSpec CircFacts Psd PsdSpec Snr SnrSpec AgreeFacts.
Import ListNotations.
Open Scope R_scope.

(** ** C110: the evolving SNR continues the stationary one *)
(** [fT] is the orbital frequency after the observation and [eta] the factor within which the noise stays constant on the way.  Any
    number of time steps from two on gives the same bounds. *)
Theorem C110_agreement : forall w jv gi quad m1 m2 mc f d t n tm aT fT sc kw p S eta, noise_curve w kw sc t p -> proper_noise p -> (2 <= n)%nat ->
  0 < m1 -> 0 < m2 -> 0 < f -> 0 < d -> 0 < t -> (exists g, power_used jv gi 2 0 g) -> chirp_mass (Fin m1) (Fin m2) = Fin mc ->
  get_t_merge_circ_sc None (Some (Fin m1)) (Some (Fin m2)) None (Some (Fin f)) = Ok (Fin tm) -> t <= tm - 1 ->
  circ_call_freq quad m1 m2 f n [Fin t] ["a"%string] = Ok (Single (E1 [Fin aT])) -> tiny < aT ->
  circ_call_freq quad m1 m2 f n [Fin t] ["f_orb"%string] = Ok (Single (E1 [Fin fT])) -> fT < 100 ->
  0 < S -> 1 <= eta -> p (Fin (2 * f)) = Fin S -> (forall x, 2 * f <= x <= 2 * fT -> exists s, p (Fin x) = Fin s /\ S / eta <= s <= eta * S) ->
  exists st ev, snr_circ_stationary w jv gi [Fin mc] [Fin f] [Fin d] (Fin t) no_sky sc kw = Ok [Fin st] /\
    snr_circ_evolving w jv gi quad [Fin m1] [Fin m2] [Fin f] [Fin d] (Fin t) n None sc kw = Ok [Fin ev] /\ 0 <= st /\ 0 <= ev /\
    f <= fT /\ st ^ 2 / (eta * Rpower (fT / f) (7/3)) <= ev ^ 2 <= st ^ 2 * (eta * Rpower (fT / f) (11/3)).
Proof. exact snr_agree. Qed.
Print Assumptions C110_agreement.
(** So treating a binary as stationary when it is labelled so moves its squared SNR by at most these factors. *)
Theorem C110_labelled_stationary : forall w jv gi quad m1 m2 mc f d t n tm aT fT sc kw p S eta tol, noise_curve w kw sc t p -> proper_noise p -> (2 <= n)%nat ->
  0 < m1 -> 0 < m2 -> 0 < f -> 0 < d -> 0 < t -> (exists g, power_used jv gi 2 0 g) -> chirp_mass (Fin m1) (Fin m2) = Fin mc ->
  get_t_merge_circ_sc None (Some (Fin m1)) (Some (Fin m2)) None (Some (Fin f)) = Ok (Fin tm) -> t <= tm - 1 ->
  circ_call_freq quad m1 m2 f n [Fin t] ["a"%string] = Ok (Single (E1 [Fin aT])) -> tiny < aT ->
  circ_call_freq quad m1 m2 f n [Fin t] ["f_orb"%string] = Ok (Single (E1 [Fin fT])) -> fT < 100 ->
  0 < S -> 1 <= eta -> p (Fin (2 * f)) = Fin S -> (forall x, 2 * f <= x <= 2 * fT -> exists s, p (Fin x) = Fin s /\ S / eta <= s <= eta * S) ->
  determine_stationarity [Fin f] [Fin t] [Fin 0] None None (Some [Fin mc]) (Fin tol) = Ok [true] ->
  exists st ev, snr_circ_stationary w jv gi [Fin mc] [Fin f] [Fin d] (Fin t) no_sky sc kw = Ok [Fin st] /\
    snr_circ_evolving w jv gi quad [Fin m1] [Fin m2] [Fin f] [Fin d] (Fin t) n None sc kw = Ok [Fin ev] /\ 0 <= st /\ 0 <= ev /\
    st ^ 2 / (eta * Rpower (1 + tol) (7/3)) <= ev ^ 2 <= st ^ 2 * (eta * Rpower (1 + tol) (11/3)).
Proof. exact snr_agree_labelled. Qed.
Print Assumptions C110_labelled_stationary.
(** A white dwarf binary at 1 mHz observed for four years with flat noise, stationary with the default tolerance. *)
Example C110_satisfiable : exists mc tm aT fT quad, chirp_mass (Fin 1e30) (Fin 1e30) = Fin mc /\
  get_t_merge_circ_sc None (Some (Fin 1e30)) (Some (Fin 1e30)) None (Some (Fin 1e-3)) = Ok (Fin tm) /\ 4 * year <= tm - 1 /\
  circ_call_freq quad 1e30 1e30 1e-3 100 [Fin (4 * year)] ["a"%string] = Ok (Single (E1 [Fin aT])) /\ tiny < aT /\
  circ_call_freq quad 1e30 1e30 1e-3 100 [Fin (4 * year)] ["f_orb"%string] = Ok (Single (E1 [Fin fT])) /\ fT < 100 /\
  determine_stationarity [Fin 1e-3] [Fin (4 * year)] [Fin 0] None None (Some [Fin mc]) (Fin 1e-2) = Ok [true].
Proof. exact quiet_binary. Qed.
Example C110_noise_satisfiable : forall w kw t, noise_curve w kw (Some (fun _ => Fin 1e-40)) t (fun _ => Fin 1e-40) /\ proper_noise (fun _ => Fin 1e-40).
Proof. intros w kw t. split; [intros fs; reflexivity|]. intros f _. right. exists 1e-40. split; [reflexivity|lra]. Qed.
