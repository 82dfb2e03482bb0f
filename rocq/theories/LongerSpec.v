(** LongerSpec.v -- vocabulary for C121: SNRs and the observing time. *)
From Coq Require Import String Reals ZArith List.
From Verif Require Import Num Psd PsdSpec Snr.
Open Scope R_scope.

(** The confusion model [c] that the settings [kw] stand for. *)
Definition uses (kw : psd_kwargs) (c : conf) : Prop :=
  (kw_instrument kw = "LISA"%string /\ chosen_conf (kw_confusion kw) "karnesis21" c) \/
  (kw_instrument kw = "TianQin"%string /\ chosen_conf (kw_confusion kw) "huang20" c) \/
  (kw_instrument kw = "DECIGO"%string /\ chosen_conf (kw_confusion kw) "karnesis21" c).
(** No confusion noise, the fit of Karnesis et al., which is given for any mission length, or a fit for a few mission lengths of which the
    same one is used for both times. *)
Inductive same_fit : conf -> R -> R -> Prop :=
| same_none t t' : same_fit CNone t t'
| same_karnesis t t' : same_fit (CName "karnesis21") t t'
| same_robson t t' r : nearest r_len robson_table (t / year) r -> nearest r_len robson_table (t' / year) r -> same_fit (CName "robson19") t t'
| same_huang t t' r : nearest h_len huang_table (t / year) r -> nearest h_len huang_table (t' / year) r -> same_fit (CName "huang20") t t'.
(** The noise [p'] is at no frequency above the noise [p]. *)
Definition nowhere_higher (p' p : num -> num) : Prop := forall f, 0 < f -> nle (p' (Fin f)) (p (Fin f)) = true.
