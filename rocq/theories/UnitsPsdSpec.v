(** UnitsPsdSpec.v -- vocabulary for the statements about units in psd.py and snr.py. *)
From Coq Require Import String Reals ZArith List Bool.
From Verif Require Import Num Np Psd Units UnitsSpec UnitsEvol UnitsEvolSpec UnitsPsd.
Import ListNotations.
Open Scope list_scope.
Open Scope R_scope.

(** An argument that may be "auto", written in the unit [u]. *)
Definition auto_in (u : unit_) (x : auto num) : auto val :=
  match x with Auto => Auto | Given x => Given (in_unit u x) end.

(** Values of [v] and SI numbers expressing the same physical quantities, all of dimension [d]. *)
Definition all_is (d : dim) : list val -> list num -> Prop := Forall2 (fun v x => is_ d x v).
Definition auto_is (d : dim) (v : auto val) (x : auto num) : Prop :=
  match v, x with Auto, Auto => True | Given v, Given x => is_ d x v | _, _ => False end.

(** The confusion noise argument [c] (with quantities) and [c'] (SI) are the same: the same name, None, or a function
    giving the same noise whatever the units of its arguments -- and giving it in 1/Hz when it is handed bare
    frequencies.  (A noise power per frequency has the dimension of a time.) *)
Definition same_noise (c : conf_q) (c' : conf) : Prop :=
  match c, c' with
  | CNameQ s, CName s' => s = s'
  | CNoneQ, CNone => True
  | CFunQ g, CFun g' =>
      (forall f tq t, is_ time_dim t tq -> g (BareQ f) tq = rmap (map (in_unit per_hertz)) (g' (Bare f) t)) /\
      (forall fq f tq t, all_is frequency_dim fq f -> is_ time_dim t tq ->
         res_rel (all_is time_dim) (g (QuantityQ fq) tq) (g' (Quantity f) t))
  | _, _ => False
  end.
