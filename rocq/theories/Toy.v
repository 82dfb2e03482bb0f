(** Toy.v -- a small concrete world and Source objects built in it, for the examples beside the theorems. *)
From Coq Require Import String Reals ZArith List Lra Lia Bool.
From Verif Require Import Num NumFacts Np Utils Strain Psd Snr Interp Evol Harmonics HarmSpec HarmThms ScParams Source Index
  History CurveSpec CurveFacts OdeintFacts MergeFacts.
Import ListNotations.
Open Scope R_scope.

(** Custom sensitivity curve number i is constant, i + 1; custom confusion noise number i is the observing time times i. *)
Definition toy_psd (i : nat) : psd_fun := fun fs _ _ _ _ => Ok (map (fun _ => Fin (INR i + 1)) fs).
Definition toy_conf (i : nat) (a : freq_arg) (t : num) : res (list num) := Ok [nmul (Fin (INR i)) t].
Definition x_toy : ext :=
  mkExt (mkEnv None (fun _ _ _ => Fin 1)) jv_toy quad_model odeint_model (fun k => seq 0 k) lum_ex (fun n _ => if (n =? 2)%Z then Fin 1 else Fin 0)
        toy_psd toy_conf (fun n => repeat (Fin 0) n) (fun n => repeat (Fin 0) n).
Lemma assign_one jv lum tol h0 h : assign_all jv lum [tol] h0 = (h, [Ok tt]) -> set_gw_lum_tol jv lum tol h0 = (fst (set_gw_lum_tol jv lum tol h0), Ok tt).
Proof. unfold assign_all. cbn [fold_left app]. destruct (set_gw_lum_tol _ _ _ _) as [h' r]. cbn. intros H. inversion H. reflexivity. Qed.
Definition toy_h : harm := fst (set_gw_lum_tol jv_toy lum_ex (Fin (1/20)) no_harm).
Lemma toy_h_ok : set_gw_lum_tol jv_toy lum_ex (Fin (1/20)) no_harm = (toy_h, Ok tt).
Proof. destruct toy_assign as [h H]. exact (assign_one _ _ _ _ h H). Qed.
Global Opaque toy_h.
(** Parameters of a custom instrument. *)
Definition custom_params (i : nat) : dict :=
  [("instrument", PStr "custom"); ("custom_psd", PFun i); ("t_obs", PStr "auto"); ("L", PStr "auto");
   ("approximate_R", PBool false); ("confusion_noise", PStr "auto")]%string.
Lemma custom_exact i : exact_curve x_toy (custom_params i) (fun _ => Fin (INR i + 1)).
Proof. intros fs. reflexivity. Qed.
Lemma curve_exists x d p : exact_curve x d p -> exists c, curve_of x d = Ok c.
Proof. intros H. unfold curve_of. rewrite H. cbn [rbind]. rewrite map_length, Nat.eqb_refl. eauto. Qed.

Definition toy_args (m1 m2 e d f : list num) (isc : bool) (params : dict) : init_args :=
  mkInit (PQArr m1 tt) (PQArr m2 tt) (PArr e) (PQArr d tt) 1 (PQArr f tt) PNone None None None PNone (Fin (1/20)) (Fin (1/100)) false
         isc params.
Definition toy_src (k : klass) (m1 m2 e d f : list num) (isc : bool) (sc : option (num -> num)) (params : dict) : src :=
  mkSrc k m1 m2 d f e None None None None None None None (np_repeat false (length m1)) (Fin (1/100)) 1 toy_h None isc sc params.
Lemma toy_init (k : klass) (m1 m2 e d f : list num) (isc : bool) (params dd : dict) (sc : option (num -> num)) :
  length m2 = length m1 -> length e = length m1 -> length d = length m1 -> length f = length m1 -> make_params params = Ok dd ->
  (if isc then exists c, curve_of x_toy dd = Ok c /\ sc = Some c else sc = None) ->
  init x_toy k (toy_args m1 m2 e d f isc params) = Ok (toy_src k m1 m2 e d f isc sc dd).
Proof.
  intros L2 L3 L4 L5 HP HC. unfold init, toy_args, toy_src. cbn [i_f_orb i_a i_position i_inclination i_polarisation py_exists negb andb rbind].
  cbn [i_m_1 i_m_2 i_ecc i_dist i_weights i_sc_params i_gw_lum_tol i_interpolate_g i_interpolate_sc i_stat_tol i_n_proc forallb py_has_units
    negb andb].
  cbn [ensure_array ensure_array_one py_exists py_has_units py_is_array negb andb fst len_of rbind list_of existsb].
  rewrite L2, L3, L4, L5, Nat.eqb_refl. cbn [negb orb].
  unfold assign_gw_lum_tol. unfold mbind at 1. cbn [s_harm x_jv x_lum x_toy]. rewrite toy_h_ok. cbv beta iota.
  unfold mbind at 1. rewrite assign_cases, HP. cbn zeta beta iota.
  unfold set_sc. cbn [s_interpolate_sc put_params set_curve set_harm s_params].
  destruct isc.
  - destruct HC as (c & -> & ->). reflexivity.
  - rewrite HC. reflexivity.
Qed.
