(** LoggingSpec.v -- vocabulary for messages (C73, C91). *)
From Coq Require Import String Ascii List Bool Arith.
From Verif Require Import Num Logging.
Import ListNotations.
Open Scope string_scope.

Definition added_by_package (h : handler) : Prop := exists out, h_owner h = Package out.
(** The handlers LEGWORK added, of both loggers. *)
Definition package_handlers (s : logging) : list handler :=
  filter (fun h => match h_owner h with Package _ => true | User => false end) (l_handlers s ++ r_handlers s).
(** A state some program reaches. *)
Definition reached (s : logging) : Prop := exists out es, s = history es (fresh out).
(** The user has not asked for messages to be passed to the root logger. *)
Definition no_propagate (es : list event) : Prop := ~ In (SetPropagate true) es.
(** Text without escape codes. *)
Fixpoint plain (s : string) : Prop := match s with EmptyString => True | String c t => c <> escape /\ plain t end.
(** The text on a terminal: an escape, what follows up to the letter m is not shown. *)
Fixpoint visible_text (s : string) (hidden : bool) : string :=
  match s with
  | EmptyString => EmptyString
  | String c t => if hidden then visible_text t (negb (Ascii.eqb c "m"))
                  else if Ascii.eqb c escape then visible_text t true else String c (visible_text t false)
  end.
Definition prefix_of (lv : nat) : string :=
  if (lv =? 10)%nat then "LEGWORK debug: " else if (lv =? 20)%nat then "LEGWORK info: " else if (lv =? 30)%nat then "LEGWORK warning: "
  else if (lv =? 40)%nat then "LEGWORK error: " else "LEGWORK critical: ".
Definition prefix_word (lv : nat) : string := substring 0 (String.length (prefix_of lv) - 2) (prefix_of lv).
(** The code of the colour: yellow for warnings, red for errors, none for the rest. *)
Definition colour_of (lv : nat) : string := if (lv =? 30)%nat then String "027" "[33m" else if (lv =? 40)%nat || (lv =? 50)%nat then String "027" "[31m" else "".
Definition is_level (lv : nat) : Prop := lv = DEBUG \/ lv = INFO \/ lv = WARNING \/ lv = ERROR \/ lv = CRITICAL.
(** In small letters: each letter of the first alphabet is replaced by that of the second. *)
Fixpoint replaced (from to : string) (c : ascii) : ascii :=
  match from, to with String a from, String b to => if Ascii.eqb c a then b else replaced from to c | _, _ => c end.
Fixpoint in_small_letters (s : string) : string :=
  match s with EmptyString => EmptyString | String c t => String (replaced "ABCDEFGHIJKLMNOPQRSTUVWXYZ" "abcdefghijklmnopqrstuvwxyz" c) (in_small_letters t) end.
