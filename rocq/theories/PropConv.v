(** PropConv.v -- property C111: evolving SNRs in the limit of many time steps. *)
From Coq Require Import String ZArith Reals List Lra Lia.
From Coquelicot Require Import Coquelicot.
From Verif Require Import Num NumFacts Np Utils UtilsFacts Strain StrainSpec StrainFacts Evol EvolSpec OdeintFacts Psd PsdSpec Snr SnrSpec SnrThms4 ConvSpec ConvFacts.
Import ListNotations.
Open Scope R_scope.

(** ** C111: with more time steps the evolving SNR tends to that of the continuous inspiral *)
(** [fo s] is the orbital frequency and [h s] the strain amplitude after [s] seconds, [q] the reciprocal of the noise power and
    [T] the time for which the binary is followed. *)
Theorem C111_circular : forall w jv gi quad m1 m2 mc f d t n0 tm aT sc kw p (fo h q : R -> R), noise_curve w kw sc t p -> proper_noise p ->
  0 < m1 -> 0 < m2 -> 0 < f -> 0 < d -> (exists g, power_used jv gi 2 0 g) -> chirp_mass (Fin m1) (Fin m2) = Fin mc ->
  get_t_merge_circ_sc None (Some (Fin m1)) (Some (Fin m2)) None (Some (Fin f)) = Ok (Fin tm) ->
  let T := Rmin (tm - 1) t in 0 < T ->
  (forall s, 0 <= s <= T -> circ_call_freq quad m1 m2 f n0 [Fin s] ["f_orb"%string] = Ok (Single (E1 [Fin (fo s)]))) ->
  circ_call_freq quad m1 m2 f n0 [Fin T] ["a"%string] = Ok (Single (E1 [Fin aT])) -> tiny < aT -> fo T < 100 ->
  (forall s, 0 <= s <= T -> h_0_single jv gi mc (fo s) 0 2 d None = Ok [[[Fin (h s)]]]) ->
  (forall x, 2 * f <= x <= 2 * fo T -> inverse_noise p x (q x) /\ continuous q x) ->
  ex_RInt (fun s => h s ^ 2 * q (2 * fo s)) 0 T /\
  exists v : nat -> R, (forall n, (3 <= n)%nat -> snr_circ_evolving w jv gi quad [Fin m1] [Fin m2] [Fin f] [Fin d] (Fin t) n None sc kw = Ok [Fin (v n)]) /\
    Un_cv v (sqrt (RInt (fun s => h s ^ 2 * q (2 * fo s)) 0 T)).
Proof. exact @circ_converges. Qed.
Print Assumptions C111_circular.
Example C111_circular_satisfiable : forall jv, exists quad mc tm aT (fo h : R -> R), chirp_mass (Fin 1e30) (Fin 1e30) = Fin mc /\
  get_t_merge_circ_sc None (Some (Fin 1e30)) (Some (Fin 1e30)) None (Some (Fin 1e-3)) = Ok (Fin tm) /\
  let T := Rmin (tm - 1) (4 * year) in 0 < T /\
  (forall s, 0 <= s <= T -> circ_call_freq quad 1e30 1e30 1e-3 100 [Fin s] ["f_orb"%string] = Ok (Single (E1 [Fin (fo s)]))) /\
  circ_call_freq quad 1e30 1e30 1e-3 100 [Fin T] ["a"%string] = Ok (Single (E1 [Fin aT])) /\ tiny < aT /\ fo T < 100 /\
  (forall s, 0 <= s <= T -> h_0_single jv flat_gi mc (fo s) 0 2 1e20 None = Ok [[[Fin (h s)]]]).
Proof. exact early_circ_track. Qed.
Example C111_noise_satisfiable : forall w kw t, let p := fun _ => Fin 1e-40 in
  noise_curve w kw (Some p) t p /\ proper_noise p /\ forall x, inverse_noise p x (/ 1e-40) /\ continuous (fun _ : R => / 1e-40) x.
Proof.
  intros w kw t. split; [intros fs; reflexivity|]. split. - intros f _. right. exists 1e-40. split; [reflexivity|lra].
  - intros x. split; [right; exists 1e-40; auto|apply cont_const].
Qed.

(** [g k] is the relative power in harmonic [k], [h k s] the amplitude of the harmonic after [s] seconds. *)
Theorem C111_eccentric : forall w jv gi quad odeint sched np m1 m2 mc f d e0 hr t tmo tm b a0 c0 aT sc kw p (e fo q : R -> R) (g h : Z -> R -> R),
  noise_curve w kw sc t p -> proper_noise p -> odeint_shape odeint -> odeint_exact odeint -> ((1 < np)%nat -> complete_schedule 1 sched) ->
  0 < m1 -> 0 < m2 -> 0 < f -> 0 < d -> 0 < e0 < 1 -> chirp_mass (Fin m1) (Fin m2) = Fin mc ->
  (forall k x, (1 <= k)%Z -> 0 < x < 1 -> power_used jv gi k x (g k x) /\ continuous (g k) x) ->
  beta (Fin m1) (Fin m2) = Fin b -> get_a_from_f_orb (Fin f) (Fin m1) (Fin m2) = Fin a0 -> c_0 (Fin a0) (Fin e0) = Fin c0 ->
  merger_time_used quad m1 m2 f e0 tm tmo ->
  let T := Rmin (tm - year / 10) t in 0 < T -> e 0 = e0 -> follows_de_dt b c0 T e ->
  (forall s, 0 <= s <= T -> exists a, get_a_from_ecc (Fin (e s)) (Fin c0) = Fin a /\ get_f_orb_from_a (Fin a) (Fin m1) (Fin m2) = Fin (fo s)) ->
  get_a_from_ecc (Fin (e T)) (Fin c0) = Fin aT -> tiny < aT -> fo T < 100 ->
  (forall k s, (1 <= k)%Z -> 0 <= s <= T -> h_0_single jv gi mc (fo s) (e s) k d None = Ok [[[Fin (h k s)]]]) ->
  (forall k x, (1 <= k <= Z.of_nat hr)%Z -> IZR k * f <= x <= IZR k * fo T -> inverse_noise p x (q x) /\ continuous q x) ->
  (forall k, (1 <= k <= Z.of_nat hr)%Z -> ex_RInt (fun s => h k s ^ 2 * q (IZR k * fo s)) 0 T) /\
  exists v : nat -> R,
    (forall n, (3 <= n)%nat -> snr_ecc_evolving w jv gi quad odeint sched [Fin m1] [Fin m2] [Fin f] [Fin d] [Fin e0] hr (Fin t) n tmo sc np false false kw = Ok (Snr [Fin (v n)])) /\
    Un_cv v (sqrt (Rsum (map (fun k => RInt (fun s => h k s ^ 2 * q (IZR k * fo s)) 0 T) (map Z.of_nat (seq 1 hr))))).
Proof. exact @ecc_converges. Qed.
Print Assumptions C111_eccentric.
(** The same binary with eccentricity 0.1, a given merger time of a year and half a year of observation. *)
Example C111_eccentric_satisfiable : odeint_shape odeint_model /\ odeint_exact odeint_model /\ forall jv, 
  let e0 := 1/10 in let t := year / 2 in let tm := year in let T := Rmin (tm - year / 10) t in
  (forall k x, (1 <= k)%Z -> 0 < x < 1 -> power_used jv flat_gi k x (/ IZR k) /\ continuous (fun _ : R => / IZR k) x) /\
  exists mc b a0 c0 aT (e fo : R -> R) (h : Z -> R -> R), chirp_mass (Fin 1e30) (Fin 1e30) = Fin mc /\
  beta (Fin 1e30) (Fin 1e30) = Fin b /\ get_a_from_f_orb (Fin 1e-3) (Fin 1e30) (Fin 1e30) = Fin a0 /\ c_0 (Fin a0) (Fin e0) = Fin c0 /\
  0 < T /\ e 0 = e0 /\ follows_de_dt b c0 T e /\
  (forall s, 0 <= s <= T -> exists a, get_a_from_ecc (Fin (e s)) (Fin c0) = Fin a /\ get_f_orb_from_a (Fin a) (Fin 1e30) (Fin 1e30) = Fin (fo s)) /\
  get_a_from_ecc (Fin (e T)) (Fin c0) = Fin aT /\ tiny < aT /\ fo T < 100 /\
  (forall k s, (1 <= k)%Z -> 0 <= s <= T -> h_0_single jv flat_gi mc (fo s) (e s) k 1e20 None = Ok [[[Fin (h k s)]]]).
Proof. split; [exact odeint_model_shape|]. split; [exact odeint_model_exact|]. exact early_ecc_track. Qed.
