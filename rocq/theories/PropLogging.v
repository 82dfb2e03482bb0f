(** PropLogging.v -- C73, C91: LEGWORK's messages. *)
From Coq Require Import String Ascii List Bool Arith Lia.
From Verif Require Import Num Np Psd Snr ScParams Source FileIO FileSpec Vis Logging LoggingSpec LoggingFacts Messages MessagesFacts Toy ToyFile.
Import ListNotations.
Open Scope string_scope.

(** ** C73: the logger *)
(** However often the package is imported and reloaded and whatever the user does in between, there is at most one handler of
    LEGWORK's, *)
Theorem C73_one_handler : forall s, reached s -> (List.length (package_handlers s) <= 1)%nat.
Proof. exact one_handler_thm. Qed.
Print Assumptions C73_one_handler.
(** and every message gets to every handler at most once. *)
Theorem C73_delivered_once : forall s lv, reached s -> NoDup (deliveries lv s).
Proof. exact once_thm. Qed.
Print Assumptions C73_delivered_once.
(** Once LEGWORK has attached its handler, messages do not go to the root logger, unless the user asks for it. *)
Theorem C73_not_passed_to_root : forall s es lv h, l_handlers s = [] -> no_propagate es -> ~ In (AtRoot h) (deliveries lv (history es (import_module s))).
Proof. exact no_duplicate_thm. Qed.
Print Assumptions C73_not_passed_to_root.
(** If there are handlers, importing or reloading changes nothing; handlers of the user's and the root logger are never changed. *)
Theorem C73_handlers_respected : forall s, l_handlers s <> [] -> import_module s = s.
Proof. exact respected_thm. Qed.
Print Assumptions C73_handlers_respected.
Theorem C73_handlers_kept : forall s h, In h (l_handlers s) -> In h (l_handlers (import_module s)).
Proof. exact kept_thm. Qed.
Print Assumptions C73_handlers_kept.
Theorem C73_root_kept : forall s, r_handlers (import_module s) = r_handlers s /\ r_level (import_module s) = r_level s.
Proof. exact root_kept. Qed.
Print Assumptions C73_root_kept.
(** Where no handler was attached, importing the package shows messages from level INFO on, once. *)
Theorem C73_messages_shown : forall s lv message, l_handlers s = [] -> (INFO <= lv)%nat ->
  written lv message (import_module s) = [format (Some (l_stdout s)) lv (level_name lv) message].
Proof. exact shown_thm. Qed.
Print Assumptions C73_messages_shown.
Example C73_satisfiable : reached (history [AddHandler 0 true; SetLevel DEBUG; Import; AddHandler 30 false; Import; RemoveHandler 1; AddAgain 0 false; Import] (fresh (mkStream true))) /\
  l_handlers (history [AddHandler 0 true; SetLevel DEBUG] (fresh (mkStream true))) = [] /\ no_propagate [AddHandler 30 false; Import; SetPropagate false].
Proof. split; [eexists _, _; reflexivity|]. split; [reflexivity|]. unfold no_propagate. cbn. intuition discriminate. Qed.
(** A level the user set is overwritten if no handler is attached: before the first import, *)
Theorem C73_level_before_import_refuted : forall out, l_level (history [SetLevel ERROR; Import] (fresh out)) = INFO /\
  deliveries INFO (history [SetLevel ERROR] (fresh out)) = [] /\ deliveries INFO (history [SetLevel ERROR; Import] (fresh out)) = [AtLegwork (mkHandler 0 0 (Package out))].
Proof. exact level_before_import. Qed.
Print Assumptions C73_level_before_import_refuted.
(** and when the module is reloaded after removing the handler. *)
Theorem C73_level_before_reload_refuted : forall out, l_level (history [Import; RemoveHandler 0; SetLevel ERROR; Import] (fresh out)) = INFO /\
  written WARNING "x" (history [Import; RemoveHandler 0; SetLevel ERROR] (fresh out)) = [] /\
  written WARNING "x" (history [Import; RemoveHandler 0; SetLevel ERROR; Import] (fresh out)) = [format (Some out) WARNING "WARNING" "x"].
Proof. exact level_before_reload. Qed.
Print Assumptions C73_level_before_reload_refuted.
(** With a handler of the user's attached before the import, messages also go to the root logger. *)
Theorem C73_passed_to_root_refuted : forall out,
  deliveries WARNING (history [AddHandler 0 false; AddHandler 0 true; Import] (fresh out)) = [AtLegwork (mkHandler 0 0 User); AtRoot (mkHandler 1 0 User)].
Proof. exact to_root_too. Qed.
Print Assumptions C73_passed_to_root_refuted.
(** Text: "LEGWORK <level>: " and the message, for whatever stream. *)
Theorem C73_prefix : forall out lv message, is_level lv -> plain message ->
  visible_text (format out lv (level_name lv) message) false = (prefix_of lv ++ message)%string.
Proof. exact format_text. Qed.
Print Assumptions C73_prefix.
(** The name of the level is in small letters, also of levels that are not logging's own. *)
Theorem C73_level_in_small_letters : forall out lv name message, plain name -> plain message ->
  visible_text (format out lv name message) false = ("LEGWORK " ++ in_small_letters name ++ ": " ++ message)%string.
Proof. exact named_text. Qed.
Print Assumptions C73_level_in_small_letters.
Example C73_small_letters_satisfiable : plain "GREEN ZONE" /\ format None 25 "GREEN ZONE" "ok" = "LEGWORK green zone: ok".
Proof. split; [cbn; repeat split; discriminate|reflexivity]. Qed.
(** No escape codes if the stream is no terminal, or not known. *)
Theorem C73_no_colour : forall out lv message, is_level lv -> plain message -> (forall o, out = Some o -> is_tty o = false) ->
  format out lv (level_name lv) message = (prefix_of lv ++ message)%string /\ plain (format out lv (level_name lv) message).
Proof. exact no_colour. Qed.
Print Assumptions C73_no_colour.
(** On a terminal the prefix is bold and in the colour of the level. *)
Theorem C73_colour : forall lv message, is_level lv ->
  format (Some (mkStream true)) lv (level_name lv) message = (String "027" "[1m" ++ colour_of lv ++ prefix_word lv ++ String "027" "[0m" ++ ": " ++ message)%string.
Proof. exact on_terminal. Qed.
Print Assumptions C73_colour.
Example C73_text_satisfiable : is_level WARNING /\ plain "Generating random values" /\ format (Some (mkStream false)) WARNING "WARNING" "careful" = "LEGWORK warning: careful".
Proof. split; [unfold is_level; auto|]. split; [cbn; repeat split; discriminate|reflexivity]. Qed.

(** ** C91: silencing messages *)
(** What plots report is logged, and not shown if the logger's level is above that of the message. *)
Theorem C91_logged_partial : forall r, exists lv, report_channel r = Log lv /\ is_level lv.
Proof. exact all_logged. Qed.
Print Assumptions C91_logged_partial.
Theorem C91_silenced_partial : forall r lv s, report_channel r = Log lv -> (lv < l_level s)%nat -> seen_by_user (report_channel r) s = false.
Proof. exact silenced_thm. Qed.
Print Assumptions C91_silenced_partial.
(** It is shown, once imported, as long as the user configures nothing. *)
Theorem C91_shown_partial : forall r s, l_handlers s = [] -> seen_by_user (report_channel r) (import_module s) = true.
Proof. exact reported_thm. Qed.
Print Assumptions C91_shown_partial.
Example C91_satisfiable : report_channel NoSnr = Log ERROR /\ (ERROR < l_level (history [Import; SetLevel CRITICAL] (fresh (mkStream true))))%nat.
Proof. split; [reflexivity|]. cbn. unfold ERROR, CRITICAL. lia. Qed.
(** The warnings of save are printed and can not be silenced. *)
Theorem C91_printed_refuted : exists s d ws, reachable true x_toy s 2 /\ save io_toy "binaries"%string false None s no_files = (d, Ok ws) /\ ws <> [] /\
  forall w, In w ws -> forall st, seen_by_user (warning_channel w) st = true.
Proof. exact printed_thm. Qed.
Print Assumptions C91_printed_refuted.
