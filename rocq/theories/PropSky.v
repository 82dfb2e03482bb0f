(** Property C93: what sky positions change. *)
From Coq Require Import String Reals ZArith List Lra Lia Bool.
From Verif Require Import Num NumFacts Np Utils UtilsFacts Spec Strain StrainSpec Psd Snr SnrSpec Evol EvolSpec Harmonics HarmSpec ScParams Source Index SourceSpec CurveSpec MethodSpec
  MethodFacts MethodThms SourceThms SourceThms2 Toy Toy2 Toy3 SkySpec SkyThms.
Import ListNotations.
Open Scope R_scope.

(** Compared with the same collection without positions, get_snr multiplies the SNR of every inspiralling circular source it treats
    as stationary by the square root of the modulation of its own position, inclination and polarisation; all other SNRs are the same. *)
Theorem C93_stationary_circular : forall x s xs a t n,
  computable x s xs (class_args (s_class s) a) t n -> s_position s <> None ->
  exists s' v s0 u, get_snr x a n None s = (s', Ok v) /\ get_snr x a n None (without_sky s) = (s0, Ok u) /\
    length v = length xs /\ length u = length xs /\
    forall i r, nth_error xs i = Some r -> exists vi ui, nth_error v i = Some vi /\ nth_error u i = Some ui /\
      (is_circular s r /\ treated_stationary s t r -> r_merged r = false -> modulated (r_sky r) ui vi) /\
      (~ (is_circular s r /\ treated_stationary s t r) -> vi = ui).
Proof. exact @sky_thm. Qed.
Print Assumptions C93_stationary_circular.
(** Sources treated as evolving, circular or not: positions change nothing. *)
Theorem C93_evolving_refuted : forall x s xs a t n,
  computable x s xs (class_args (s_class s) a) t n -> s_position s <> None -> (forall r, In r xs -> ~ treated_stationary s t r) ->
  exists s' s0 v, get_snr x a n None s = (s', Ok v) /\ get_snr x a n None (without_sky s) = (s0, Ok v).
Proof. exact @evolving_sky_thm. Qed.
Print Assumptions C93_evolving_refuted.
(** The strains of all inspiralling sources are modulated, also those of eccentric sources. *)
Theorem C93_h_0_n : forall x s xs h ns which,
  collection s xs -> fits which (length xs) -> harmonics_list h = Some ns -> List.Forall (fun k => (1 <= k)%Z) ns -> s_position s <> None ->
  exists rows rows0, get_h_0_n x h which s = Ok rows /\ get_h_0_n x h which (without_sky s) = Ok rows0 /\
    forall i r, nth_error (chosen which xs) i = Some r -> exists us vs, nth_error rows0 i = Some us /\ nth_error rows i = Some vs /\
      if r_merged r then us = vs else strains_modulated (r_sky r) us vs.
Proof. exact @h_0_sky_thm. Qed.
Print Assumptions C93_h_0_n.
Theorem C93_h_c_n : forall x s xs h ns which,
  collection s xs -> fits which (length xs) -> harmonics_list h = Some ns -> List.Forall (fun k => (1 <= k)%Z) ns -> s_position s <> None ->
  exists rows rows0, get_h_c_n x h which s = Ok rows /\ get_h_c_n x h which (without_sky s) = Ok rows0 /\
    forall i r, nth_error (chosen which xs) i = Some r -> exists us vs, nth_error rows0 i = Some us /\ nth_error rows i = Some vs /\
      if r_merged r then us = vs else strains_modulated (r_sky r) us vs.
Proof. exact @h_c_sky_thm. Qed.
Print Assumptions C93_h_c_n.

(** Two circular binaries and an eccentric one, with positions, in a Stationary and in an Evolving collection. *)
Definition located := [b1; b2; b3].
Definition located_src (k : klass) : src := of_class k (with_sky located (toy_of located)).
Example C93_satisfiable :
  (forall k, computable x_toy (located_src k) located (class_args k no_args) toy_time 5 /\ s_position (located_src k) <> None /\ collection (located_src k) located) /\
  is_circular (located_src KStationary) b1 /\ treated_stationary (located_src KStationary) toy_time b1 /\ r_merged b1 = false /\
  (forall r, In r located -> ~ treated_stationary (located_src KEvolving) toy_time r).
Proof.
  assert (HC : computable x_toy (with_sky located (toy_of located)) located no_args toy_time 5)
    by (apply computable_with_sky, toy_computable; [lia|apply toy_of_like|apply toy_collection|apply toy_ecc]).
  split; [|split; [|split; [exact Logic.I|split; [reflexivity|intros r _ H; exact H]]]].
  - intros k. pose proof (computable_of_class k _ _ _ _ _ _ HC) as HK. split; [destruct k; exact HK|]. split; [discriminate|]. exact (ok_rows _ _ _ _ _ _ HK).
  - destruct toy_tol as (t & E & Ht). exists (Fin t). split; [exact E|]. cbn. unfold Rleb. destruct (Rle_dec 0 t); [reflexivity|lra].
Qed.
