(** MessagesFacts.v -- proofs about how messages are shown. *)
From Coq Require Import String List Bool Arith Lia.
From Verif Require Import Num Np Psd Snr ScParams Source FileIO FileSpec Vis Logging LoggingSpec Messages Toy ToyFile.
Import ListNotations.

(** A logger with a level silences what is logged below it. *)
Lemma silenced_thm r lv s : report_channel r = Log lv -> (lv < l_level s)%nat -> seen_by_user (report_channel r) s = false.
Proof.
  intros -> H. unfold seen_by_user, deliveries, effective_level. assert (N : (l_level s =? 0)%nat = false) by (apply Nat.eqb_neq; lia).
  rewrite N. assert (L : (l_level s <=? lv)%nat = false) by (apply Nat.leb_gt; lia). now rewrite L.
Qed.
Lemma all_logged r : exists lv, report_channel r = Log lv /\ is_level lv.
Proof. destruct r; eexists; (split; [reflexivity|]); unfold is_level; auto. Qed.
Lemma reported_thm r s : l_handlers s = [] -> seen_by_user (report_channel r) (import_module s) = true.
Proof.
  intros H. destruct (all_logged r) as (lv & E & _). rewrite E. assert (L : INFO <= lv) by (destruct r; injection E as <-; unfold INFO, ERROR, WARNING; lia).
  unfold seen_by_user, deliveries, effective_level, import_module. rewrite H. cbn [has existsb add_handler app l_handlers l_level l_propagate r_handlers r_level].
  change (INFO =? 0)%nat with false. cbv iota. rewrite (proj2 (Nat.leb_le INFO lv) L). reflexivity.
Qed.
(** The warnings of save and from_file can not be silenced. *)
Lemma printed_thm : exists s d ws, reachable true x_toy s 2 /\ save io_toy "binaries"%string false None s no_files = (d, Ok ws) /\ ws <> [] /\
  forall w, In w ws -> forall st, seen_by_user (warning_channel w) st = true.
Proof.
  exists (two KSource false None (custom_params 3)). do 2 eexists. split; [now apply (two_reachable true KSource false None (custom_params 3))|]. split; [reflexivity|].
  split; [discriminate|]. intros w I st. now destruct w.
Qed.
