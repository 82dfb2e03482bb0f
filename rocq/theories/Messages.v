(** Messages.v -- how LEGWORK's messages get to the user: printed or logged.  The warnings of saving and loading (FileIO.v) and
    those of plots (Vis.v); the progress reports of get_snr(verbose=True), which are printed as well (source.py L889-926, L1013, L1030,
    L1135, L1153), and the logged messages of evol.py L369, L379, psd.py L42, source.py L152, L156, L225 are not part of those models. *)
From Coq Require Import String List Bool Arith.
From Verif Require Import Num Logging FileIO Vis.
Import ListNotations.

Inductive channel := Print | Log (level : nat).
(** source.py L368, L430 and L460: print. *)
Definition warning_channel (w : warning) : channel := match w with FunctionDropped _ => Print | OtherVersion _ => Print | CustomPsdMissing => Print end.
(** visualisation.py L486; source.py L1485, L1506, L1512. *)
Definition report_channel (r : report) : channel :=
  match r with NoBinaries => Log ERROR | NoSnr => Log ERROR | CircularEvolving _ => Log WARNING | EccentricEvolving _ => Log WARNING end.
(** Whether the user gets to see the message: what is printed always, what is logged if it goes anywhere. *)
Definition seen_by_user (c : channel) (s : logging) : bool :=
  match c with Print => true | Log lv => match deliveries lv s with [] => false | _ => true end end.
