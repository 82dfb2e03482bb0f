(** PropDraws.v -- C100: what random draws can change. *)
From Coq Require Import String Reals ZArith List Lra Lia Bool.
From Verif Require Import Num NumFacts Np Utils Strain StrainSpec Psd Snr SnrSpec Evol Harmonics ScParams Source Index SourceSpec History CurveSpec InitSpec MethodSpec
  FileIO Verification VerificationSpec VerificationData VerificationThms FileSpec ReachFacts SkySpec Toy Toy2 ToyFile PropVerification DrawsSpec DrawsThms DrawsToy.
Import ListNotations.
Open Scope R_scope.

(** A collection without sky positions, or with all angles given, is built without drawing. *)
Theorem C100_given : forall x inc pol k i,
  angles_given i -> init (redraw x inc pol) k i = init x k i.
Proof. exact @init_redraw. Qed.
Print Assumptions C100_given.
(** Constructor arguments with a position and both angles, which the constructor accepts; without the polarisation they are not of this kind. *)
Definition told_args (ps : R) : init_args :=
  mkInit (PQArr [Fin 2e30] tt) (PQArr [Fin 1e30] tt) (PArr [Fin 0]) (PQArr [Fin 1e20] tt) 1 (PQArr [Fin 1e-3] tt) PNone (Some [(Fin 0, Fin 0)]) (Some [Fin ps]) (Some [Fin (PI/2)]) PNone
         (Fin (1/20)) (Fin (1/100)) false false (custom_params 0).
Example C100_given_satisfiable : (forall ps, angles_given (told_args ps) /\ init x_toy KSource (told_args ps) = Ok (edge_src ps)) /\ ~ angles_given edge_args.
Proof.
  split.
  - intros ps. split; [intros _; split; discriminate|]. exact (edge_init ps).
  - intros H. destruct (H ltac:(discriminate)) as [_ C]. apply C. reflexivity.
Qed.

(** Nothing that is done with a collection later draws: results, errors and the state it is left in are the same whatever the draws. *)
Theorem C100_histories : forall x inc pol ops s,
  run (redraw x inc pol) ops s = run x ops s.
Proof. exact @run_redraw. Qed.
Print Assumptions C100_histories.
(** Nor does the construction of an evolved copy. *)
Theorem C100_evolved_copy : forall strict x inc pol n t s,
  reachable strict x s n -> evolve_new (redraw x inc pol) t s = evolve_new x t s.
Proof. exact @evolve_redraw_thm. Qed.
Print Assumptions C100_evolved_copy.
Example C100_evolved_copy_satisfiable : reachable true x_toy (edge_src 1) 1.
Proof. apply (reach_new true x_toy KSource (told_args 1) (edge_src 1)); [exact (edge_init 1)|]. split; [intros H; now destruct H|]. intros p H. injection H as <-. repeat split. Qed.

(** With other draws the constructor also succeeds, and the collections differ in the angles that were left out only. *)
Theorem C100_only_angles : forall x inc pol k i s,
  init x k i = Ok s -> exists a b, init (redraw x inc pol) k i = Ok (with_angles a b s) /\
  (i_inclination i <> None \/ i_position i = None -> a = s_inclination s) /\ (i_polarisation i <> None \/ i_position i = None -> b = s_polarisation s).
Proof. exact @init_angles. Qed.
Print Assumptions C100_only_angles.
(** The verification binaries differ in their polarisations only. *)
Theorem C100_verification : forall x inc pol ecl t b,
  verification_binaries x ecl t = Ok b -> exists pol', verification_binaries (redraw x inc pol) ecl t =
  Ok (mkVB (with_angles (s_inclination (vb_source b)) pol' (vb_source b)) (vb_labels b) (vb_true_snr b)).
Proof. exact @verification_redraw. Qed.
Print Assumptions C100_verification.
Example C100_only_angles_satisfiable : init (drawing 0) KSource edge_args = Ok (edge_src 0) /\ forall ecl, exists b, verification_binaries x_vb ecl published = Ok b.
Proof. split; [apply edge_init|]. intros ecl. destruct (C99_histories_satisfiable ecl) as (b & H & _). now exists b. Qed.

(** How the draws matter: two collections that differ in sky angles only; the SNR of a circular source that is treated as stationary is the averaged one
    times the square root of the modulation of its own angles. *)
Theorem C100_draws_matter : forall x s1 s2 xs1 xs2 a t n i r1 r2,
  computable x s1 xs1 (class_args (s_class s1) a) t n -> computable x s2 xs2 (class_args (s_class s2) a) t n ->
  without_sky s1 = without_sky s2 -> s_position s1 <> None -> s_position s2 <> None -> nth_error xs1 i = Some r1 -> nth_error xs2 i = Some r2 ->
  is_circular s1 r1 /\ treated_stationary s1 t r1 -> is_circular s2 r2 /\ treated_stationary s2 t r2 -> r_merged r1 = false -> r_merged r2 = false ->
  exists s1' s2' s0 v1 v2 u v1i v2i ui, get_snr x a n None s1 = (s1', Ok v1) /\ get_snr x a n None s2 = (s2', Ok v2) /\ get_snr x a n None (without_sky s1) = (s0, Ok u) /\
    nth_error v1 i = Some v1i /\ nth_error v2 i = Some v2i /\ nth_error u i = Some ui /\ modulated (r_sky r1) ui v1i /\ modulated (r_sky r2) ui v2i.
Proof. exact @draws_matter_thm. Qed.
Print Assumptions C100_draws_matter.
Example C100_draws_matter_satisfiable : let s1 := edge_src 0 in let s2 := edge_src (PI/4) in
  computable x_toy s1 [edge 0] (class_args (s_class s1) no_args) toy_time 1 /\ computable x_toy s2 [edge (PI/4)] (class_args (s_class s2) no_args) toy_time 1 /\
  without_sky s1 = without_sky s2 /\ is_circular s1 (edge 0) /\ treated_stationary s1 toy_time (edge 0) /\ is_circular s2 (edge (PI/4)) /\ treated_stationary s2 toy_time (edge (PI/4)).
Proof.
  cbv zeta. split; [apply edge_computable|]. split; [apply edge_computable|]. split; [reflexivity|]. split; [apply edge_circular|]. split; [apply edge_stationary|]. split; [apply edge_circular|apply edge_stationary].
Qed.
(** So the exception is needed: the same call gives different SNRs in two sessions. *)
Theorem C100_irreproducible : exists x pol i s1 s2 s1' s2' v1 v2, init x KSource i = Ok s1 /\ init (redraw x (x_inc x) pol) KSource i = Ok s2 /\
  get_snr x no_args 1 None s1 = (s1', Ok [Fin v1]) /\ get_snr (redraw x (x_inc x) pol) no_args 1 None s2 = (s2', Ok [Fin v2]) /\ v1 <> v2.
Proof. exact irreproducible. Qed.
Print Assumptions C100_irreproducible.
