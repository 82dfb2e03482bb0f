(** PropVerification.v -- C99: the verification binaries. *)
From Coq Require Import String Reals ZArith List Lra Lia Bool.
From Verif Require Import Num NumFacts Np Utils Strain Psd Snr Evol Harmonics HarmThms ScParams Source Index SourceSpec History
  Verification VerificationSpec VerificationData VerificationFacts VerificationThms Toy.
Import ListNotations.
Open Scope R_scope.

(** The toy world with a response file. *)
Definition x_vb : ext :=
  mkExt (mkEnv (Some ([Fin 0; Fin 1], [Fin 1; Fin 2])) (fun _ _ _ => Fin (3/10))) (x_jv x_toy) (x_quad x_toy) (x_odeint x_toy) (x_sched x_toy) (x_lum x_toy) (x_g x_toy)
        (x_psd_fun x_toy) (x_conf_fun x_toy) (x_inc x_toy) (x_pol x_toy).
Lemma x_vb_ready : world_ready x_vb.
Proof. split; [exists toy_h; exact toy_h_ok|discriminate]. Qed.

(** ** C99 *)
(** Whatever table of binaries the package comes with: the object is built and holds it, column by column and in the order of the labels. *)
Theorem C99_built : forall x ecl t n,
  full_table t n -> world_ready x -> exists b, verification_binaries x ecl t = Ok b /\ holds_table x ecl t n b.
Proof. exact @built_thm. Qed.
Print Assumptions C99_built.
Example C99_built_satisfiable : full_table published 16 /\ world_ready x_vb.
Proof. exact (conj published_full x_vb_ready). Qed.

(** Whatever operations follow, whether they raise or not: masses, distances and sky stay those of the labels, orbits stay circular, the loudest harmonic stays the second. *)
Theorem C99_histories : forall x ecl t b ops,
  verification_binaries x ecl t = Ok b -> let s := fst (run x ops (vb_source b)) in
  same_binaries (vb_source b) s /\ (forall e, In e (s_ecc s) -> e = Fin 0) /\ s_max_snr_harmonic s = Some (repeat 2%Z (n_sources (vb_source b))).
Proof. exact @histories_thm. Qed.
Print Assumptions C99_histories.
Example C99_histories_satisfiable : forall ecl, exists b, verification_binaries x_vb ecl published = Ok b /\ n_sources (vb_source b) = 16%nat.
Proof.
  intros ecl. destruct (built_thm x_vb ecl published 16 published_full x_vb_ready) as (b & H & T). exists b. split; auto.
  unfold n_sources. rewrite (ht_m_1 _ _ _ _ _ T). exact (ft_m_1 _ _ published_full).
Qed.

(** Subsets, whose labels would be lost, are refused at every moment. *)
Theorem C99_no_subset : forall x ecl t b ops ind,
  verification_binaries x ecl t = Ok b -> getitem ind (fst (run x ops (vb_source b))) = Err NotImplementedErr.
Proof. exact @no_subset_thm. Qed.
Print Assumptions C99_no_subset.

(** The table in the package: sixteen binaries with different labels; all are stationary for every observation of up to five years, and the default one of four. *)
Theorem C99_published : forall x ecl,
  world_ready x -> exists b, verification_binaries x ecl published = Ok b /\ holds_table x ecl published 16 b /\ NoDup (vb_labels b) /\
  forall v t, (v = PNil /\ t = 4 * yr \/ v = PVal (Fin t)) -> 0 <= t <= 5 * yr ->
    get_source_mask TriNone TriTrue v (vb_source b) = Ok (repeat true 16) /\ get_source_mask TriNone TriFalse v (vb_source b) = Ok (repeat false 16).
Proof. exact @published_thm. Qed.
Print Assumptions C99_published.
