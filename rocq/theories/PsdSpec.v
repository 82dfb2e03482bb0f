(** PsdSpec.v -- published noise curves, independent of the model in Psd.v, and vocabulary for their theorems. *)
From Coq Require Import String Reals ZArith List Bool.
From Verif Require Import Num Np Psd.
Import ListNotations.
Open Scope R_scope.

Definition log10 (x : R) : R := ln x / ln 10.
Definition year : R := 365.25 * 24 * 3600.

(** Robson, Cornish & Liu (2019): Table 1 (mission length in years; alpha, beta, kappa, gamma, f_k) and Eq. 14, with
    the sign conventions of LEGWORK (exp (-f^alpha + beta f sin(kappa f)), A = 9e-45). *)
Record robson_row := { r_len : R; r_alpha : R; r_beta : R; r_kappa : R; r_gamma : R; r_fk : R }.
Definition robson_table : list robson_row :=
  [ Build_robson_row (1/2) 0.133 243 482 917 0.00258;
    Build_robson_row 1 0.171 292 1020 1680 0.00215;
    Build_robson_row 2 0.165 299 611 1340 0.00173;
    Build_robson_row 4 0.138 (-221) 521 1680 0.00113 ].
Definition robson_fit (r : robson_row) (f : R) : R :=
  9e-45 * Rpower f (-7/3) * exp (- Rpower f (r_alpha r) + r_beta r * f * sin (r_kappa r * f))
  * (1 + tanh (r_gamma r * (r_fk r - f))).

(** Huang et al. (2020) Table II: base-10 logarithm of the strain noise as a polynomial in log10(f / 1 mHz). *)
Record huang_row := { h_len : R; h_a0 : R; h_a1 : R; h_a2 : R; h_a3 : R; h_a4 : R; h_a5 : R; h_a6 : R }.
Definition huang_table : list huang_row :=
  [ Build_huang_row (1/2) (-18.6) (-1.22) 0.009 (-1.87) 0.65 3.6 (-4.6);
    Build_huang_row 1 (-18.6) (-1.13) (-0.945) (-1.02) 4.05 (-4.5) (-0.5);
    Build_huang_row 2 (-18.6) (-1.45) 0.315 (-1.19) (-4.48) 10.8 (-9.4);
    Build_huang_row 4 (-18.6) (-1.43) (-0.687) 0.24 (-0.15) (-1.8) (-3.2);
    Build_huang_row 5 (-18.6) (-1.51) (-0.71) (-1.13) (-0.83) 13.2 (-19.1) ].
Definition huang_fit (r : huang_row) (f : R) : R :=
  let x := log10 (f / 1e-3) in
  Rpower 10 (h_a0 r + h_a1 r * x + h_a2 r * x ^ 2 + h_a3 r * x ^ 3 + h_a4 r * x ^ 4 + h_a5 r * x ^ 5 + h_a6 r * x ^ 6) ^ 2.

(** Thiele et al. (2021) Eq. 16-17 (4 yr of LISA). *)
Definition thiele_fit (f : R) : R :=
  let x := log10 f in
  Rpower 10 (-540.315450 - 554.061115 * x - 233.748834 * x ^ 2 - 44.021504 * x ^ 3 - 3.112634 * x ^ 4) * (4 * year).

(** Karnesis et al. (2021) Eq. 6-7; [T] is the mission length in years. *)
Definition karnesis_fit (T f : R) : R :=
  let f1 := Rpower 10 (-0.15 * log10 T - 2.72) in
  let fk := Rpower 10 (-0.37 * log10 T - 2.49) in
  1.15e-44 / 2 * Rpower f (-7/3) * exp (- Rpower (f / f1) 1.56) * (1 + tanh ((fk - f) / 0.00067)).

(** [row] is the row of the table whose mission length is closest to [T] years, the shorter one on ties. *)
Definition nearest {A} (len : A -> R) (table : list A) (T : R) (row : A) : Prop :=
  In row table /\ forall r, In r table ->
    Rabs (T - len row) < Rabs (T - len r) \/ (Rabs (T - len row) = Rabs (T - len r) /\ len row <= len r).

(** Confusion noise [v] at frequency [f] > 0 for a mission of [t] seconds according to the built-in model [c]. *)
Inductive published_confusion : conf -> R -> R -> R -> Prop :=
| pub_none t f : published_confusion CNone t f 0
| pub_robson t f r : nearest r_len robson_table (t / year) r -> published_confusion (CName "robson19") t f (robson_fit r f)
| pub_huang_in t f r : nearest h_len huang_table (t / year) r -> 1e-4 <= f <= 1 ->
    published_confusion (CName "huang20") t f (huang_fit r f)
| pub_huang_out t f : ~ (1e-4 <= f <= 1) -> published_confusion (CName "huang20") t f 0
| pub_thiele f : published_confusion (CName "thiele21") (4 * year) f (thiele_fit f)
| pub_karnesis t f : published_confusion (CName "karnesis21") t f (karnesis_fit (t / year) f).

(** The built-in confusion models usable for a mission of [t] seconds. *)
Definition builtin (c : conf) (t : R) : Prop :=
  c = CNone \/ c = CName "robson19" \/ c = CName "huang20" \/ (c = CName "thiele21" /\ t = 4 * year) \/ c = CName "karnesis21".

(** Robson et al. Eq. 10-12 for an arm length [L] and a response [r]. *)
Definition lisa_curve (L r f : R) : R :=
  let fstar := 299792458 / (2 * PI * L) in
  let Poms := 1.5e-11 ^ 2 * (1 + (2e-3 / f) ^ 4) in
  let Pacc := 3e-15 ^ 2 * (1 + (4e-4 / f) ^ 2) * (1 + (f / 8e-3) ^ 4) in
  (Poms + 2 * (1 + cos (f / fstar) ^ 2) * Pacc / (2 * PI * f) ^ 4) / (L ^ 2 * r).
(** Robson et al. Eq. 9: approximation to the response function. *)
Definition robson_response (L f : R) : R :=
  let fstar := 299792458 / (2 * PI * L) in 3 / 10 / (1 + 6 / 10 * (f / fstar) ^ 2).
(** Huang et al. Eq. 13. *)
Definition tianqin_curve (L f : R) : R :=
  let fstar := 299792458 / (2 * PI * L) in
  10 / (3 * L ^ 2) * (4 * 1e-30 / (2 * PI * f) ^ 4 * (1 + 1e-4 / f) + 1e-24) * (1 + 6 / 10 * (f / fstar) ^ 2).
(** Yagi & Seto (2011) Eq. 5, with LEGWORK's shot noise level. *)
Definition decigo_curve (f : R) : R :=
  let x2 := (f / 7.36) ^ 2 in
  6.53e-48 * (1 + x2) + 4.8e-51 / (f ^ 4 * (1 + x2)) + 5.33e-52 / f ^ 4.

(** The response used by lisa_psd at a frequency in band: the approximation, or the interpolated file. *)
Definition response (w : psd_env) (L : R) (approximate_R : bool) (f r : R) : Prop :=
  if approximate_R then r = robson_response L f
  else load_response_function w [Fin f] (Fin (299792458 / (2 * PI * L))) = Ok [Fin r].
(** The file-based response is positive in band (part of the packaged data, not of the code). *)
Definition response_ok (w : psd_env) (L : R) (approximate_R : bool) : Prop :=
  approximate_R = true \/ forall f, 1e-7 <= f <= 2 -> exists r, response w L approximate_R f r /\ 0 < r.

Definition outside (lo hi : R) (x : num) : Prop := forall f, x = Fin f -> ~ (lo <= f <= hi).

(** [used] is what an argument that may be "auto" stands for, given the documented default. *)
Definition chosen {A} (x : auto A) (default used : A) : Prop := x = Given used \/ (x = Auto /\ used = default).
Definition chosen_conf (c : conf) (default : string) (used : conf) : Prop :=
  (c = CName "auto" /\ used = CName default) \/ (c <> CName "auto" /\ used = c).
(** The built-in instruments. *)
Definition known_instrument (s : string) : Prop := s = "LISA"%string \/ s = "TianQin"%string \/ s = "DECIGO"%string.
Definition known_model (s : string) : Prop :=
  s = "robson19"%string \/ s = "huang20"%string \/ s = "thiele21"%string \/ s = "karnesis21"%string.
Definition conf_of (m : option string) : conf := match m with None => CNone | Some s => CName s end.
