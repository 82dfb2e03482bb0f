(** Property C57: indexing and copying a Source. *)
From Coq Require Import String Reals ZArith List Lra Lia Bool Sorted.
From Verif Require Import Num Np Utils Spec Psd Snr Evol Harmonics ScParams Source Index SourceSpec IndexSpec CurveSpec Toy IndexThms.
Import ListNotations.
Open Scope R_scope.

(** ** C57: indexing a collection *)
(** Every per-source attribute of what is returned is the original one at the positions numpy would select; the settings are the same. *)
Theorem C57_rows : forall ind s s2 n,
  aligned s n -> keys (s_params s) = documented -> getitem ind s = Ok s2 ->
  exists js, selects n ind js /\ rows js s s2 /\ same_settings s s2.
Proof. exact @index_thm. Qed.
Print Assumptions C57_rows.
(** The positions are determined by the index. *)
Theorem C57_unique : forall n ind js js',
  selects n ind js -> selects n ind js' -> js = js'.
Proof. exact @selects_unique. Qed.
Print Assumptions C57_unique.
(** An index is accepted exactly if it selects something in this sense. *)
Theorem C57_accepts : forall ind s n,
  aligned s n -> keys (s_params s) = documented -> s_class s <> KVerification ->
  (exists s2, getitem ind s = Ok s2) <-> exists js, selects n ind js.
Proof. exact @accepts_thm. Qed.
Print Assumptions C57_accepts.
(** Indexing twice is indexing once by the composed positions. *)
Theorem C57_twice : forall ind ind2 s s1 s2 n,
  aligned s n -> keys (s_params s) = documented -> getitem ind s = Ok s1 -> getitem ind2 s1 = Ok s2 ->
  exists js1 js2 js, selects n ind js1 /\ selects (length js1) ind2 js2 /\ picked js2 js1 js /\
                     getitem (IArray (map Z.of_nat js)) s = Ok s2.
Proof. exact @twice_thm. Qed.
Print Assumptions C57_twice.
(** A copy has every attribute of the original. *)
Theorem C57_copy : forall s n,
  aligned s n -> keys (s_params s) = documented -> s_class s <> KVerification -> copy s = Ok s.
Proof. exact @copy_thm. Qed.
Print Assumptions C57_copy.
(** Wrong indices raise. *)
Theorem C57_errors : forall s n,
  aligned s n -> s_class s <> KVerification ->
  (forall m, length m <> n -> getitem (IMask m) s = Err ValueError) /\
  getitem IOther s = Err ValueError /\
  (forall z, (z < - Z.of_nat n \/ Z.of_nat n <= z)%Z -> getitem (IInt z) s = Err IndexError) /\
  (forall a b, getitem (ISlice a b (Some 0%Z)) s = Err ValueError).
Proof. exact @errors_thm. Qed.
Print Assumptions C57_errors.
(** An empty Python list is rejected although an empty integer array is accepted. *)
Theorem C57_empty_list_refuted : forall s n,
  aligned s n -> s_class s <> KVerification -> keys (s_params s) = documented ->
  getitem (IList []) s = Err ValueError /\ exists s2, getitem (IArray []) s = Ok s2 /\ rows [] s s2.
Proof. exact @empty_list_thm. Qed.
Print Assumptions C57_empty_list_refuted.
(** A bool is used as a mask of length one, not as the integer 0 or 1. *)
Theorem C57_bool_refuted : forall s n b,
  aligned s n -> s_class s <> KVerification -> keys (s_params s) = documented ->
  (n <> 1%nat -> getitem (IBool b) s = Err IndexError) /\ (n = 1%nat -> exists s2, getitem (IBool b) s = Ok s2 /\ rows (if b then [0%nat] else []) s s2).
Proof. exact @bool_thm. Qed.
Print Assumptions C57_bool_refuted.
(** VerificationBinaries can not be copied. *)
Theorem C57_verification_copy_refuted : forall s,
  s_class s = KVerification -> copy s = Err NotImplementedErr.
Proof. exact @verification_copy. Qed.
Print Assumptions C57_verification_copy_refuted.
Example C57_satisfiable : exists s, init x_toy KSource (toy_args [Fin 1; Fin 2] [Fin 1; Fin 1] [Fin 0; Fin (1/2)] [Fin 3; Fin 4] [Fin 5; Fin 6] false []) = Ok s /\
  aligned s 2 /\ keys (s_params s) = documented /\ s_class s <> KVerification /\ selects 2 (IInt (-1)) [1%nat] /\ selects 2 (ISlice None None (Some (-1)%Z)) [1%nat; 0%nat].
Proof.
  eexists. split; [apply (toy_init KSource _ _ _ _ _ false [] default_params None); reflexivity|].
  split; [apply toy_aligned; reflexivity|]. split; [reflexivity|]. split; [discriminate|]. split.
  - cbn. exists 1%nat. split; auto. split; auto. right. split; [reflexivity|]. reflexivity.
  - cbn. split; [discriminate|]. split; [repeat constructor|]. split; [repeat constructor|].
    intros [|[|j]]; cbn; (split; [intros [H|[H|[]]]; try discriminate H|intros [H _]; try tauto; lia]); (split; [lia|]); [exists 1%Z|exists 0%Z]; cbn; lia.
Qed.
