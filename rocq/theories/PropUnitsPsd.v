(** PropUnitsPsd.v -- C95: sensitivity curves do not depend on the units of the inputs.

    A quantity is a magnitude with a unit (Units.v); [in_unit u x] is the physical value [x] (SI) written in the unit [u].
    The functions ending in [_q] are psd.py on such quantities (UnitsPsd.v); the ones without are the same functions on SI
    numbers, which the other property files speak about. *)
From Coq Require Import String Reals ZArith List Bool Lra Lia.
From Verif Require Import Num NumFacts Np NpFacts Psd Units UnitsSpec UnitsFacts UnitsThms UnitsEvol UnitsEvolSpec UnitsEvolFacts UnitsPsd UnitsPsdSpec
  UnitsPsdFacts UnitsPsdWrong UnitsPsdThms.
Import ListNotations.
Open Scope list_scope.
Open Scope R_scope.
Open Scope res_scope.

(** With frequencies, mission length and arm length in any units of the right dimensions, power_spectral_density returns the
    SI result in 1/Hz, or the same error.  [same_noise]: the confusion noise argument is the same. *)
Theorem C95_sensitivity : forall w f instrument p p' t L a c c' uf ut uL,
  unit_for frequency_dim uf -> unit_for time_dim ut -> unit_for length_dim uL -> same_noise c c' -> instrument <> "custom"%string ->
  power_spectral_density_q w (map (in_unit uf) f) instrument p (auto_in ut t) (auto_in uL L) a c =
  rmap (map (in_unit per_hertz)) (power_spectral_density w f instrument p' t L a c').
Proof. exact psd_in_units. Qed.
Print Assumptions C95_sensitivity.

(** Confusion noise on its own: always in 1/Hz. *)
Theorem C95_confusion_noise : forall f m t uf ut, unit_for frequency_dim uf -> unit_for time_dim ut ->
  get_confusion_noise_q (map (in_unit uf) f) m (auto_in ut t) = rmap (map (in_unit per_hertz)) (get_confusion_noise f m t).
Proof. exact confusion_in_units. Qed.
Print Assumptions C95_confusion_noise.

(** Frequencies of the wrong dimension raise a unit error; without unit, an error too. *)
Theorem C95_frequency_wrong : forall w x l u i p t L a c, In i ["LISA"; "TianQin"; "DECIGO"]%string ->
  (u_dim u <> frequency_dim -> power_spectral_density_q w (map (fun x => Qy x u) (x :: l)) i p t L a c = Err UnitError) /\
  power_spectral_density_q w (map Pl (x :: l)) i p t L a c = Err (if String.eqb i "TianQin" then UnitError else AttributeError).
Proof. exact frequency_wrong. Qed.
Print Assumptions C95_frequency_wrong.

(** An arm length that is not a length (a plain number, say) raises a unit error. *)
Theorem C95_arm_length_wrong : forall w f x p t L a c uf, unit_for frequency_dim uf -> dim_of L <> length_dim ->
  power_spectral_density_q w (map (in_unit uf) (x :: f)) "LISA" p t (Given L) a c = Err UnitError /\
  power_spectral_density_q w (map (in_unit uf) (x :: f)) "TianQin" p t (Given L) a c = Err UnitError.
Proof. exact arm_in_units. Qed.
Print Assumptions C95_arm_length_wrong.

(** A mission length that is not a time ([wrong]: nor a plain 0, inf or nan) raises an error from every confusion noise. *)
Theorem C95_mission_length_wrong : forall f v uf, unit_for frequency_dim uf -> wrong time_dim v ->
  get_confusion_noise_q (map (in_unit uf) f) (Some "robson19"%string) (Given v) = Err UnitError /\
  get_confusion_noise_q (map (in_unit uf) f) (Some "huang20"%string) (Given v) = Err UnitError /\
  get_confusion_noise_q (map (in_unit uf) f) (Some "thiele21"%string) (Given v) = Err ValueError /\
  get_confusion_noise_q (map (in_unit uf) f) (Some "karnesis21"%string) (Given v) = Err (if is_quantity v then UnitError else AttributeError).
Proof. exact mission_in_units. Qed.
Print Assumptions C95_mission_length_wrong.

(** The unit of a custom confusion noise is dropped by LISA and DECIGO: the same noise of 1/Hz, returned in 1/mHz by the
    custom function, counts a thousand times less. *)
Theorem C95_custom_noise_refuted : forall w t i, i = "LISA"%string \/ i = "DECIGO"%string ->
  same (in_unit per_hertz (Fin 1)) (in_unit per_millihertz (Fin 1)) /\
  exists base, 0 < base /\
  power_spectral_density_q w [Qy (Fin (1/100)) hertz] i None (Given t) Auto true (CFunQ (fun _ _ => Ok [in_unit per_hertz (Fin 1)]))
    = Ok [Qy (Fin (base + 1)) per_hertz] /\
  power_spectral_density_q w [Qy (Fin (1/100)) hertz] i None (Given t) Auto true (CFunQ (fun _ _ => Ok [in_unit per_millihertz (Fin 1)]))
    = Ok [Qy (Fin (base + 1/1000)) per_hertz].
Proof. exact custom_noise_misread. Qed.
Print Assumptions C95_custom_noise_refuted.

(** A custom confusion noise without any unit is rejected by both. *)
Theorem C95_custom_noise_without_unit : forall w uf f t x l i, i = "LISA"%string \/ i = "DECIGO"%string -> unit_for frequency_dim uf ->
  power_spectral_density_q w (map (in_unit uf) f) i None (Given t) Auto true (CFunQ (fun _ _ => Ok (Pl x :: l))) = Err AttributeError.
Proof. exact custom_noise_bare. Qed.
Print Assumptions C95_custom_noise_without_unit.

(** TianQin adds it with its unit. *)
Theorem C95_custom_noise_tianqin : forall w f t u x, unit_for time_dim u ->
  power_spectral_density_q w [in_unit hertz f] "TianQin" None (Given t) Auto true (CFunQ (fun _ _ => Ok [in_unit u x]))
  = Ok [in_unit per_hertz (tianqin_noise tianqin_L f + x)%num].
Proof. exact custom_noise_kept. Qed.
Print Assumptions C95_custom_noise_tianqin.

(** LISA at 10 mHz over four years: in mHz and months, with an arm length in kilometres, the call succeeds. *)
Example C95_satisfiable :
  unit_for frequency_dim millihertz /\ unit_for time_dim month /\ unit_for length_dim kilometer /\
  same_noise (CNameQ "auto") (CName "auto") /\ same_noise (CFunQ (fun _ _ => Ok [Qy (Fin 1) per_hertz])) (CFun (fun _ _ => Ok [Fin 1])) /\
  (forall w, exists r, 0 < r /\ power_spectral_density w [Fin (1/100)] "LISA" None Auto Auto true (CName "auto") = Ok [Fin r]) /\
  wrong time_dim (Pl (Fin 4)) /\ wrong time_dim (Qy (Fin 4) kilometer) /\ dim_of (Pl (Fin 4)) <> length_dim.
Proof. exact psd_units_example. Qed.
