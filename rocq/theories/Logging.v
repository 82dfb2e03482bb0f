(** Logging.v -- model of src/legwork/_logging.py, of the parts of Python's logging library it uses, and of how messages are shown.

    Not represented: filters, logging.disable, exception and stack information of a record, locks. *)
From Coq Require Import String Ascii List Bool Arith.
From Verif Require Import Num.
Import ListNotations.
Open Scope string_scope.

(** Streams: whether they are terminals. *)
Record stream := mkStream { is_tty : bool }.
(** Handlers have an identity and a level; the one LEGWORK adds formats for its stream. *)
Inductive owner := Package (out : stream) | User.
Record handler := mkHandler { h_id : nat; h_level : nat; h_owner : owner }.
(** The logger "LEGWORK" and the root logger; [l_next]: the identity of the next handler; [l_stdout]: sys.stdout. *)
Record logging := mkLogging { l_handlers : list handler; l_level : nat; l_propagate : bool; r_handlers : list handler; r_level : nat;
                              l_next : nat; l_stdout : stream }.
Definition NOTSET := 0. Definition DEBUG := 10. Definition INFO := 20. Definition WARNING := 30. Definition ERROR := 40. Definition CRITICAL := 50.
(** A fresh interpreter: no handlers, the level of the root logger is WARNING. *)
Definition fresh (out : stream) : logging := mkLogging [] NOTSET true [] WARNING 0 out.

(** Logger.addHandler: nothing if it is there already; Logger.removeHandler. *)
Definition has (h : handler) (l : list handler) : bool := existsb (fun h' => (h_id h =? h_id h')%nat) l.
Definition add_handler (h : handler) (l : list handler) : list handler := if has h l then l else (l ++ [h])%list.
Definition remove_handler (i : nat) (l : list handler) : list handler := filter (fun h => negb (h_id h =? i)%nat) l.
Definition with_logger (hs : list handler) (lv : nat) (p : bool) (s : logging) : logging :=
  mkLogging hs lv p (r_handlers s) (r_level s) (l_next s) (l_stdout s).

(** _logging.py L55-67, run when the package is first imported and again when the module is reloaded; the handler has level
    NOTSET. *)
Definition import_module (s : logging) : logging :=
  match l_handlers s with
  | [] =>
      let handler := mkHandler (l_next s) NOTSET (Package (l_stdout s)) in
      mkLogging (add_handler handler (l_handlers s)) INFO false (r_handlers s) (r_level s) (Datatypes.S (l_next s)) (l_stdout s)
  | _ => s
  end.

(** What a program does about logging: import or reload the package; create a handler of its own and add it to one of the
    loggers (to both: with the same identity), remove a handler, set levels, set propagate, redirect sys.stdout. *)
Inductive event := Import | AddHandler (level : nat) (to_root : bool) | AddAgain (i : nat) (to_root : bool) | RemoveHandler (i : nat) | RootRemove (i : nat)
  | SetLevel (lv : nat) | RootLevel (lv : nat) | SetPropagate (b : bool) | NewStdout (out : stream).
Definition find_user (i : nat) (l : list handler) : option handler :=
  find (fun h => (h_id h =? i)%nat && match h_owner h with User => true | Package _ => false end) l.
Definition happen (e : event) (s : logging) : logging :=
  match e with
  | Import => import_module s
  | AddHandler lv root =>
      let h := mkHandler (l_next s) lv User in
      if root then mkLogging (l_handlers s) (l_level s) (l_propagate s) (add_handler h (r_handlers s)) (r_level s) (Datatypes.S (l_next s)) (l_stdout s)
      else mkLogging (add_handler h (l_handlers s)) (l_level s) (l_propagate s) (r_handlers s) (r_level s) (Datatypes.S (l_next s)) (l_stdout s)
  | AddAgain i root =>
      match find_user i (l_handlers s ++ r_handlers s)%list with
      | None => s
      | Some h => if root then mkLogging (l_handlers s) (l_level s) (l_propagate s) (add_handler h (r_handlers s)) (r_level s) (l_next s) (l_stdout s)
                  else with_logger (add_handler h (l_handlers s)) (l_level s) (l_propagate s) s
      end
  | RemoveHandler i => with_logger (remove_handler i (l_handlers s)) (l_level s) (l_propagate s) s
  | RootRemove i => mkLogging (l_handlers s) (l_level s) (l_propagate s) (remove_handler i (r_handlers s)) (r_level s) (l_next s) (l_stdout s)
  | SetLevel lv => with_logger (l_handlers s) lv (l_propagate s) s
  | RootLevel lv => mkLogging (l_handlers s) (l_level s) (l_propagate s) (r_handlers s) lv (l_next s) (l_stdout s)
  | SetPropagate b => with_logger (l_handlers s) (l_level s) b s
  | NewStdout out => mkLogging (l_handlers s) (l_level s) (l_propagate s) (r_handlers s) (r_level s) (l_next s) out
  end.
Definition history (es : list event) (s : logging) : logging := fold_left (fun s e => happen e s) es s.

(** Logger.getEffectiveLevel, Logger.isEnabledFor and Logger.callHandlers: where a message of level [lv] goes. *)
Definition effective_level (s : logging) : nat := if (l_level s =? 0)%nat then r_level s else l_level s.
Inductive place := AtLegwork (h : handler) | AtRoot (h : handler) | LastResort.
Definition deliveries (lv : nat) (s : logging) : list place :=
  if (effective_level s <=? lv)%nat then
    let pass := filter (fun h => (h_level h <=? lv)%nat) in
    let found := (l_handlers s ++ (if l_propagate s then r_handlers s else []))%list in
    match found with
    | [] => if (WARNING <=? lv)%nat then [LastResort] else []
    | _ => (map AtLegwork (pass (l_handlers s)) ++ (if l_propagate s then map AtRoot (pass (r_handlers s)) else []))%list
    end
  else [].

(** The escape codes, L20-26. *)
Definition escape : ascii := ascii_of_nat 27.
Definition BOLD : string := String escape "[1m".
Definition RESET : string := String escape "[0m".
Definition level_colour (lv : nat) : string :=
  if (lv =? WARNING)%nat then String escape "[33m" else if (lv =? ERROR)%nat then String escape "[31m" else if (lv =? CRITICAL)%nat then String escape "[31m" else "".
(** str.lower on ASCII. *)
Definition lower_char (c : ascii) : ascii := let n := nat_of_ascii c in if (65 <=? n)%nat && (n <=? 90)%nat then ascii_of_nat (n + 32) else c.
Fixpoint lower (s : string) : string := match s with EmptyString => EmptyString | String c t => String (lower_char c) (lower t) end.
(** L39-52, [LegworkFormatter]: [out] is the stream (None: not supplied); [name] is the level's name. *)
Definition use_colour (out : option stream) : bool := match out with None => false | Some o => is_tty o end.
Definition format (out : option stream) (lv : nat) (name message : string) : string :=
  let prefix := "LEGWORK " ++ lower name in
  let prefix := if use_colour out then BOLD ++ level_colour lv ++ prefix ++ RESET else prefix in
  prefix ++ ": " ++ message.
(** logging.getLevelName for the five levels. *)
Definition level_name (lv : nat) : string :=
  if (lv =? 10)%nat then "DEBUG" else if (lv =? 20)%nat then "INFO" else if (lv =? 30)%nat then "WARNING" else if (lv =? 40)%nat then "ERROR"
  else if (lv =? 50)%nat then "CRITICAL" else "NOTSET".
(** What LEGWORK's handler writes. *)
Definition written (lv : nat) (message : string) (s : logging) : list string :=
  flat_map (fun p => match p with AtLegwork (mkHandler _ _ (Package out)) => [format (Some out) lv (level_name lv) message] | _ => [] end) (deliveries lv s).
