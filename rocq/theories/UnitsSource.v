(** UnitsSource.v -- the Source class with astropy quantities (the SI version is ScParams.v, Source.v and History.v).

    Arrays are lists of values, each with its own unit (in astropy an array carries one unit).  The eccentricities, weights,
    SNRs and tolerances are plain numbers.  The simplifications of the SI version apply here too. *)
From Coq Require Import String Reals ZArith List Bool.
From Verif Require Import Num Np Utils Strain Psd Snr Interp Evol Harmonics ScParams Source History
  Units UnitsEvol UnitsPsd UnitsSnr.
Import ListNotations.
Open Scope list_scope.
Open Scope num_scope.
Open Scope res_scope.
Open Scope string_scope.

(** ** Sensitivity curve parameters *)

(** As ScParams.pval, with quantities. *)
Inductive pval_q := PStrQ (s : string) | PNilQ | PBoolQ (b : bool) | PValQ (v : val) | PFunQ (id : nat).
(** [a == b]. *)
Definition peqb_q (a b : pval_q) : bool :=
  match a, b with
  | PStrQ s, PStrQ t => String.eqb s t
  | PNilQ, PNilQ => true
  | PBoolQ x, PBoolQ y => Bool.eqb x y
  | PValQ x, PValQ y => veqb x y
  | PFunQ i, PFunQ j => Nat.eqb i j
  | _, _ => false
  end.
(** Python's dict, as in ScParams.v. *)
Definition dict_q := list (string * pval_q).
Fixpoint lookup_q (k : string) (d : dict_q) : option pval_q :=
  match d with [] => None | (k', v) :: t => if String.eqb k k' then Some v else lookup_q k t end.
Fixpoint put_q (k : string) (v : pval_q) (d : dict_q) : dict_q :=
  match d with
  | [] => [(k, v)]
  | (k', v') :: t => if String.eqb k k' then (k', v) :: t else (k', v') :: put_q k v t
  end.
Definition put_all_q (new d : dict_q) : dict_q := fold_left (fun d kv => put_q (fst kv) (snd kv) d) new d.
Definition keys_q (d : dict_q) : list string := map fst d.
Definition get_or_none_q (k : string) (d : dict_q) : pval_q := match lookup_q k d with Some v => v | None => PNilQ end.
Definition dict_eqb_q (d1 d2 : dict_q) : bool :=
  (length d1 =? length d2)%nat &&
  forallb (fun kv => match lookup_q (fst kv) d2 with Some v => peqb_q (snd kv) v | None => false end) d1.

(** source.py L30-37, [DEFAULT_SC_PARAMS]; L1543-1549, [SensitivityCurveParams.__init__]. *)
Definition default_params_q : dict_q :=
  [("instrument", PStrQ "LISA"); ("custom_psd", PNilQ); ("t_obs", PStrQ "auto"); ("L", PStrQ "auto");
   ("approximate_R", PBoolQ false); ("confusion_noise", PStrQ "auto")].
Definition make_params_q (params : dict_q) : res dict_q :=
  _ <- check_keys (keys_q params) ;; Ok (put_all_q params default_params_q).

(** The world outside the class (ScParams.ext), where the user's functions handle quantities. *)
Record ext_q := mkExtQ { x_si : ext; xq_psd_fun : nat -> psd_fun_q; xq_conf_fun : nat -> freq_q -> val -> res (list val) }.

(** How power_spectral_density uses each value, as in ScParams.v. *)
Definition name_of_q (v : pval_q) : string := match v with PStrQ s => s | _ => "" end.
Definition custom_of_q (x : ext_q) (v : pval_q) : option psd_fun_q :=
  match v with PFunQ i => Some (xq_psd_fun x i) | _ => None end.
Definition truthy_q (v : pval_q) : bool :=
  match v with
  | PStrQ s => negb (String.eqb s "") | PNilQ => false | PBoolQ b => b
  | PValQ v => negb (neqb (mag v) (Fin 0)) | PFunQ _ => true
  end.
Definition conf_of_q (x : ext_q) (v : pval_q) : conf_q :=
  match v with
  | PStrQ s => CNameQ s | PNilQ => CNoneQ | PFunQ i => CFunQ (xq_conf_fun x i)
  | PBoolQ _ | PValQ _ => CNameQ ""
  end.
Definition quantity_of_q (v : pval_q) : res (auto val) :=
  match v with
  | PStrQ s => if String.eqb s "auto" then Ok Auto else Err TypeError
  | PValQ v => Ok (Given v)
  | _ => Err TypeError
  end.
Definition param_q (k : string) (d : dict_q) : pval_q :=
  match lookup_q k d with Some v => v | None => get_or_none_q k default_params_q end.
Definition kw_of_q (x : ext_q) (d : dict_q) : res psd_kwargs_q :=
  L <- quantity_of_q (param_q "L" d) ;;
  Ok (mkKwQ (name_of_q (param_q "instrument" d)) (custom_of_q x (param_q "custom_psd" d)) L
            (truthy_q (param_q "approximate_R" d)) (conf_of_q x (param_q "confusion_noise" d))).
Definition psd_of_q (x : ext_q) (d : dict_q) (f : list val) : res (list val) :=
  if negb (forallb known (keys_q d)) then Err TypeError
  else
    t_obs <- quantity_of_q (param_q "t_obs" d) ;;
    kw <- kw_of_q x d ;;
    power_spectral_density_q (x_psd (x_si x)) f (kwq_instrument kw) (kwq_custom kw) t_obs (kwq_L kw)
                             (kwq_approximate_R kw) (kwq_confusion kw).
(** L649-656: the frequencies are in Hz; scipy's interp1d takes the bare numbers of both arrays, whatever their units;
    [interp_sc(f.to(u.Hz)) / u.Hz] is [source_curve_q]. *)
Definition curve_of_q (x : ext_q) (d : dict_q) : res (val -> val) :=
  sc <- psd_of_q x d (times_hertz curve_grid) ;;
  if (length sc =? length curve_grid)%nat
  then Ok (source_curve_q (interp1d curve_grid (map mag sc) (Fin 1e30) (Fin 1e30)))
  else Err ValueError.

(** ** Objects and methods *)

(** The attributes (Source.src).  A position holds (lat, lon). *)
Record src_q := mkSrcQ {
  q_class : klass;
  q_m_1 : list val; q_m_2 : list val; q_dist : list val; q_f_orb : list val; q_ecc : list num;
  q_weights : option (list num);
  q_position : option (list (val * val)); q_inclination : option (list val); q_polarisation : option (list val);
  q_t_merge : option (list val); q_snr : option (list num); q_max_snr_harmonic : option (list Z);
  q_merged : list bool;
  q_stat_tol : num; q_n_proc : nat;
  q_harm : harm; q_g : option (Z -> num -> num);
  q_interpolate_sc : bool; q_sc : option (val -> val); q_params : dict_q }.

(** Attribute assignment. *)
Definition setq_snr (v : option (list num)) (s : src_q) : src_q :=
  mkSrcQ (q_class s) (q_m_1 s) (q_m_2 s) (q_dist s) (q_f_orb s) (q_ecc s) (q_weights s) (q_position s) (q_inclination s)
         (q_polarisation s) (q_t_merge s) v (q_max_snr_harmonic s) (q_merged s) (q_stat_tol s) (q_n_proc s) (q_harm s) (q_g s)
         (q_interpolate_sc s) (q_sc s) (q_params s).
Definition setq_max_snr_harmonic (v : option (list Z)) (s : src_q) : src_q :=
  mkSrcQ (q_class s) (q_m_1 s) (q_m_2 s) (q_dist s) (q_f_orb s) (q_ecc s) (q_weights s) (q_position s) (q_inclination s)
         (q_polarisation s) (q_t_merge s) (q_snr s) v (q_merged s) (q_stat_tol s) (q_n_proc s) (q_harm s) (q_g s)
         (q_interpolate_sc s) (q_sc s) (q_params s).
Definition setq_t_merge (v : option (list val)) (s : src_q) : src_q :=
  mkSrcQ (q_class s) (q_m_1 s) (q_m_2 s) (q_dist s) (q_f_orb s) (q_ecc s) (q_weights s) (q_position s) (q_inclination s)
         (q_polarisation s) v (q_snr s) (q_max_snr_harmonic s) (q_merged s) (q_stat_tol s) (q_n_proc s) (q_harm s) (q_g s)
         (q_interpolate_sc s) (q_sc s) (q_params s).
Definition setq_orbit (ecc : list num) (f_orb : list val) (merged : list bool) (s : src_q) : src_q :=
  mkSrcQ (q_class s) (q_m_1 s) (q_m_2 s) (q_dist s) f_orb ecc (q_weights s) (q_position s) (q_inclination s)
         (q_polarisation s) (q_t_merge s) (q_snr s) (q_max_snr_harmonic s) merged (q_stat_tol s) (q_n_proc s) (q_harm s) (q_g s)
         (q_interpolate_sc s) (q_sc s) (q_params s).
Definition setq_f_orb (f_orb : list val) (s : src_q) : src_q := setq_orbit (q_ecc s) f_orb (q_merged s) s.
Definition setq_harm (h : harm) (s : src_q) : src_q :=
  mkSrcQ (q_class s) (q_m_1 s) (q_m_2 s) (q_dist s) (q_f_orb s) (q_ecc s) (q_weights s) (q_position s) (q_inclination s)
         (q_polarisation s) (q_t_merge s) (q_snr s) (q_max_snr_harmonic s) (q_merged s) (q_stat_tol s) (q_n_proc s) h (q_g s)
         (q_interpolate_sc s) (q_sc s) (q_params s).
Definition setq_curve (interpolate_sc : bool) (sc : option (val -> val)) (params : dict_q) (s : src_q) : src_q :=
  mkSrcQ (q_class s) (q_m_1 s) (q_m_2 s) (q_dist s) (q_f_orb s) (q_ecc s) (q_weights s) (q_position s) (q_inclination s)
         (q_polarisation s) (q_t_merge s) (q_snr s) (q_max_snr_harmonic s) (q_merged s) (q_stat_tol s) (q_n_proc s) (q_harm s) (q_g s)
         interpolate_sc sc params.
Definition setq_g (g : option (Z -> num -> num)) (s : src_q) : src_q :=
  mkSrcQ (q_class s) (q_m_1 s) (q_m_2 s) (q_dist s) (q_f_orb s) (q_ecc s) (q_weights s) (q_position s) (q_inclination s)
         (q_polarisation s) (q_t_merge s) (q_snr s) (q_max_snr_harmonic s) (q_merged s) (q_stat_tol s) (q_n_proc s) (q_harm s) g
         (q_interpolate_sc s) (q_sc s) (q_params s).
Definition putq_params (params : dict_q) (s : src_q) : src_q := setq_curve (q_interpolate_sc s) (q_sc s) params s.
Definition putq_sc (sc : option (val -> val)) (s : src_q) : src_q := setq_curve (q_interpolate_sc s) sc (q_params s) s.
Definition setq_interpolate_sc (b : bool) (s : src_q) : src_q := setq_curve b (q_sc s) (q_params s) s.

(** Methods: the object afterwards and the result. *)
Definition MQ (A : Type) := src_q -> src_q * res A.
Definition ret_q {A} (a : A) : MQ A := fun s => (s, Ok a).
Definition raise_q {A} (e : exn) : MQ A := fun s => (s, Err e).
Definition lift_q {A} (r : res A) : MQ A := fun s => (s, r).
Definition modify_q (f : src_q -> src_q) : MQ unit := fun s => (f s, Ok tt).
Definition self_q : MQ src_q := fun s => (s, Ok s).
Definition mbind_q {A B} (m : MQ A) (f : A -> MQ B) : MQ B :=
  fun s => match m s with (s', Ok a) => f a s' | (s', Err e) => (s', Err e) end.
Declare Scope mq_scope.
Delimit Scope mq_scope with mq.
Notation "x <<~ m ;; k" := (mbind_q m (fun x => k)) (at level 61, m at next level, right associativity) : mq_scope.
Open Scope mq_scope.

(** L489-492, [n_sources]; L494-497, [m_c]; L499-504 and L506-511, [a]. *)
Definition n_sources_q (s : src_q) : nat := length (q_m_1 s).
Definition m_c_q (s : src_q) : res (list val) := bzipM chirp_mass_q (q_m_1 s) (q_m_2 s).
Definition a_getter_q (s : src_q) : res (list val) := get_a_arr_q (q_f_orb s) (q_m_1 s) (q_m_2 s).
Definition get_f_arr_q (a m_1 m_2 : list val) : res (list val) :=
  mm <- bzip (fun x y => (x, y)) m_1 m_2 ;;
  bzipM (fun (q : val * val) x => get_f_orb_from_a_q x (fst q) (snd q)) mm a.
Definition a_setter_q (a : pyval val unit) : MQ unit :=
  match a with
  | PQArr l _ => s <<~ self_q ;; f <<~ lift_q (get_f_arr_q l (q_m_1 s) (q_m_2 s)) ;; modify_q (setq_f_orb f)
  | PQScalar v _ => s <<~ self_q ;; f <<~ lift_q (get_f_arr_q [v] (q_m_1 s) (q_m_2 s)) ;; modify_q (setq_f_orb f)
  | _ => raise_q AssertionError
  end.
(** L590-598, [ecc_tol]; L610-618, the setter of gw_lum_tol; L620-639, [set_g]. *)
Definition ecc_tol_q (s : src_q) : res num := match h_ecc_tol (q_harm s) with Some t => Ok t | None => Err AttributeError end.
Definition assign_gw_lum_tol_q (x : ext_q) (tol : num) : MQ unit := fun s =>
  match set_gw_lum_tol (x_jv (x_si x)) (x_lum (x_si x)) tol (q_harm s) with (h, r) => (setq_harm h s, r) end.
Definition set_g_q (x : ext_q) (interpolate : bool) : MQ unit :=
  modify_q (setq_g (if interpolate then Some (x_g (x_si x)) else None)).

(** L641-658, [set_sc]; L679-686, the setter of sc_params; L1565-1579, [__setitem__] and [update]. *)
Definition set_sc_q (x : ext_q) : MQ unit := fun s =>
  if q_interpolate_sc s then
    match curve_of_q x (q_params s) with
    | Ok c => (putq_sc (Some c) s, Ok tt)
    | Err e => (s, Err e)
    end
  else (putq_sc None s, Ok tt).
Definition assign_params_q (x : ext_q) (new : dict_q) (current : option dict_q) : MQ unit :=
  new_params <<~ lift_q (make_params_q new) ;;
  let changed := match current with None => true | Some d => negb (dict_eqb_q new_params d) end in
  _ <<~ modify_q (putq_params new_params) ;;
  if changed then set_sc_q x else ret_q tt.
Definition params_setitem_q (x : ext_q) (k : string) (v : pval_q) : MQ unit :=
  _ <<~ lift_q (check_keys [k]) ;;
  s <<~ self_q ;;
  let changed := negb (peqb_q (get_or_none_q k (q_params s)) v) in
  _ <<~ modify_q (putq_params (put_q k v (q_params s))) ;;
  if changed then set_sc_q x else ret_q tt.
Definition params_update_q (x : ext_q) (new : dict_q) : MQ unit :=
  _ <<~ lift_q (check_keys (keys_q new)) ;;
  s <<~ self_q ;;
  let changed := existsb (fun kv => negb (peqb_q (get_or_none_q (fst kv) (q_params s)) (snd kv))) new in
  _ <<~ modify_q (putq_params (put_all_q new (q_params s))) ;;
  if changed then set_sc_q x else ret_q tt.

(** ** Masks and strains *)
(** L722-726 and the callers: the observing time of "auto". *)
Definition auto_t_obs_q (instrument : pval_q) : val :=
  if peqb_q instrument (PStrQ "LISA") then Qy (Fin 4) year else Qy (Fin 5) year.
Definition resolve_t_obs_q (t_obs instrument : pval_q) : pval_q :=
  if peqb_q t_obs (PStrQ "auto") then PValQ (auto_t_obs_q instrument) else t_obs.
Definition time_of_q (v : pval_q) : res val := match v with PValQ t => Ok t | _ => Err TypeError end.
Definition or_default_q (v d : pval_q) : pval_q := match v with PNilQ => d | _ => v end.

(** L688-732, [get_source_mask]. *)
Definition get_source_mask_q (circular stationary : tri) (t_obs : pval_q) (s : src_q) : res (list bool) :=
  circular_mask <- match circular with
                   | TriNone => Ok (np_repeat true (n_sources_q s))
                   | TriTrue => tol <- ecc_tol_q s ;; Ok (map (fun e => nle e tol) (q_ecc s))
                   | TriFalse => tol <- ecc_tol_q s ;; Ok (map (fun e => ngt e tol) (q_ecc s))
                   | TriOther => Err ValueError
                   end ;;
  stat_mask <- match stationary with
               | TriNone => Ok (np_repeat true (n_sources_q s))
               | TriOther => Err ValueError
               | _ =>
                   let t_obs := or_default_q t_obs (get_or_none_q "t_obs" (q_params s)) in
                   let t_obs := resolve_t_obs_q t_obs (get_or_none_q "instrument" (q_params s)) in
                   t <- time_of_q t_obs ;;
                   mc <- m_c_q s ;;
                   mask <- determine_stationarity_q (q_f_orb s) (np_repeat t (n_sources_q s)) (q_ecc s) None None (Some mc)
                                                    (q_stat_tol s) ;;
                   Ok (match stationary with TriFalse => map negb mask | _ => mask end)
               end ;;
  logical_and circular_mask stat_mask.

Definition which_or_all_q (which : option (list bool)) (s : src_q) : list bool :=
  match which with Some w => w | None => np_repeat true (n_sources_q s) end.
Definition masked_sky_q (mask : list bool) (s : src_q) : res sky_q :=
  match q_position s with
  | None => Ok no_sky_args
  | Some _ =>
      p <- take_opt mask (q_position s) ;;
      pol <- match q_polarisation s with None => Err TypeError | Some l => take_mask mask l end ;;
      inc <- match q_inclination s with None => Err TypeError | Some l => take_mask mask l end ;;
      Ok (mkSkyQ p (Some pol) (Some inc))
  end.
(** L734-780, [get_h_0_n], and L782-829, [get_h_c_n]. *)
Definition get_strain_q
  (f : (Z -> num -> num) -> option (Z -> num -> num) -> list val -> list (list val) -> list (list num) -> list Z ->
       list val -> sky_q -> res (list (list (list num))))
  (x : ext_q) (h : harmonics) (which : option (list bool)) (s : src_q) : res (list (list num)) :=
  let which := which_or_all_q which s in
  ns <- match h with HInt n => Ok [n] | HList l => Ok l | HNpInt _ => Err TypeError end ;;
  insp <- logical_and (map negb (q_merged s)) which ;;
  sk <- masked_sky_q insp s ;;
  mc <- m_c_q s ;;
  rows <- f (x_jv (x_si x)) (q_g s) (select insp mc) (newaxis (select insp (q_f_orb s))) (newaxis (select insp (q_ecc s))) ns
            (select insp (q_dist s)) sk ;;
  let table := scatter insp (map (fun r => hd [] r) rows) (np_repeat (np_repeat (Fin 0) (length ns)) (n_sources_q s)) in
  take_mask which table.
Definition get_h_0_n_q := get_strain_q h_0_n_q.
Definition get_h_c_n_q := get_strain_q h_c_n_q.

(** ** Signal-to-noise ratios *)
Record snr_args_q := mkArgsQ { aq_t_obs : pval_q; aq_instrument : pval_q; aq_custom : pval_q; aq_L : pval_q;
                               aq_approximate_R : pval_q; aq_confusion : pval_q }.
Definition fill_args_q (a : snr_args_q) (d : dict_q) : snr_args_q :=
  mkArgsQ (or_default_q (aq_t_obs a) (get_or_none_q "t_obs" d)) (or_default_q (aq_instrument a) (get_or_none_q "instrument" d))
          (or_default_q (aq_custom a) (get_or_none_q "custom_psd" d)) (or_default_q (aq_L a) (get_or_none_q "L" d))
          (or_default_q (aq_approximate_R a) (get_or_none_q "approximate_R" d))
          (or_default_q (aq_confusion a) (get_or_none_q "confusion_noise" d)).
Definition resolve_args_q (a : snr_args_q) : snr_args_q :=
  mkArgsQ (resolve_t_obs_q (aq_t_obs a) (aq_instrument a)) (aq_instrument a) (aq_custom a) (aq_L a) (aq_approximate_R a)
          (aq_confusion a).
Definition args_dict_q (a : snr_args_q) : dict_q :=
  [("t_obs", aq_t_obs a); ("instrument", aq_instrument a); ("custom_psd", aq_custom a); ("L", aq_L a);
   ("approximate_R", aq_approximate_R a); ("confusion_noise", aq_confusion a)].

Definition record_snr_q (insp : list bool) (snr : list num) (msh : list Z) : MQ unit :=
  _ <<~ modify_q (fun s => setq_max_snr_harmonic (Some (Source.store 0%Z (n_sources_q s) insp msh (q_max_snr_harmonic s))) s) ;;
  modify_q (fun s => setq_snr (Some (Source.store (Fin 0) (n_sources_q s) insp snr (q_snr s))) s).

(** L999-1051. *)
Definition stationary_values_q (x : ext_q) (a : snr_args_q) (insp : list bool) (s : src_q) : res (list num * list Z) :=
  t <- time_of_q (aq_t_obs a) ;;
  tol <- ecc_tol_q s ;;
  e_mask <- logical_and (map (fun e => ngt e tol) (q_ecc s)) insp ;;
  c_mask <- logical_and (map (fun e => nle e tol) (q_ecc s)) insp ;;
  kw <- kw_of_q x (args_dict_q a) ;;
  sk <- masked_sky_q c_mask s ;;
  mc <- m_c_q s ;;
  let snr := np_repeat (Fin 0) (n_sources_q s) in
  let msh := np_repeat 2%Z (n_sources_q s) in
  snr <- (if any c_mask then
            v <- snr_circ_stationary_q (x_psd (x_si x)) (x_jv (x_si x)) (q_g s) (select c_mask mc) (select c_mask (q_f_orb s))
                                       (select c_mask (q_dist s)) t sk (q_sc s) kw ;;
            Ok (scatter c_mask v snr)
          else Ok snr) ;;
  if any e_mask then
    run_groups (fun m upper =>
      snr_ecc_stationary_q (x_psd (x_si x)) (x_jv (x_si x)) (q_g s) (select m mc) (select m (q_f_orb s)) (select m (q_ecc s))
                           (select m (q_dist s)) t upper (q_sc s) true false kw)
      (map (h_required (q_harm s)) (q_ecc s)) e_mask snr msh
  else Ok (snr, msh).

(** L1128-1178. *)
Definition evolving_values_q (x : ext_q) (a : snr_args_q) (n_step : nat) (insp : list bool) (s : src_q)
  : res (list num * list Z) :=
  t <- time_of_q (aq_t_obs a) ;;
  tol <- ecc_tol_q s ;;
  e_mask <- logical_and (map (fun e => ngt e tol) (q_ecc s)) insp ;;
  c_mask <- logical_and (map (fun e => nle e tol) (q_ecc s)) insp ;;
  kw <- kw_of_q x (args_dict_q a) ;;
  let snr := np_repeat (Fin 0) (n_sources_q s) in
  let msh := np_repeat 2%Z (n_sources_q s) in
  snr <- (if any c_mask then
            t_merge <- take_opt c_mask (q_t_merge s) ;;
            v <- snr_circ_evolving_q (x_psd (x_si x)) (x_jv (x_si x)) (q_g s) (x_quad (x_si x)) (select c_mask (q_m_1 s))
                                     (select c_mask (q_m_2 s)) (select c_mask (q_f_orb s)) (select c_mask (q_dist s)) t n_step
                                     t_merge (q_sc s) kw ;;
            Ok (scatter c_mask v snr)
          else Ok snr) ;;
  if any e_mask then
    run_groups (fun m upper =>
      snr_ecc_evolving_q (x_psd (x_si x)) (x_jv (x_si x)) (q_g s) (x_quad (x_si x)) (x_odeint (x_si x))
                         (x_sched (x_si x) (length (select m (q_ecc s)))) (select m (q_m_1 s)) (select m (q_m_2 s))
                         (select m (q_f_orb s)) (select m (q_dist s)) (select m (q_ecc s)) upper t n_step None (q_sc s)
                         (q_n_proc s) true false kw)
      (map (h_required (q_harm s)) (q_ecc s)) e_mask snr msh
  else Ok (snr, msh).

(** L939-1061, [get_snr_stationary], and L1063-1188, [get_snr_evolving]. *)
Definition snr_method_q (x : ext_q) (values : snr_args_q -> list bool -> src_q -> res (list num * list Z)) (a : snr_args_q)
           (which : option (list bool)) : MQ (list num) :=
  s <<~ self_q ;;
  let which := which_or_all_q which s in
  let a := resolve_args_q (fill_args_q a (q_params s)) in
  _ <<~ params_update_q x (args_dict_q a) ;;
  s <<~ self_q ;;
  insp <<~ lift_q (logical_and which (map negb (q_merged s))) ;;
  v <<~ lift_q (values a insp s) ;;
  _ <<~ record_snr_q insp (fst v) (snd v) ;;
  lift_q (take_mask which (fst v)).
Definition get_snr_stationary_q (x : ext_q) (a : snr_args_q) (which : option (list bool)) : MQ (list num) :=
  snr_method_q x (stationary_values_q x) a which.
Definition get_snr_evolving_q (x : ext_q) (a : snr_args_q) (n_step : nat) (which : option (list bool)) : MQ (list num) :=
  snr_method_q x (fun a => evolving_values_q x a n_step) a which.

(** L831-937, [get_snr], and L1598-1601, L1610-1613 of the subclasses. *)
Definition get_snr_source_q (x : ext_q) (a : snr_args_q) (n_step : nat) (which : option (list bool)) : MQ (list num) :=
  s <<~ self_q ;;
  let a := fill_args_q a (q_params s) in
  _ <<~ params_update_q x (args_dict_q a) ;;
  s <<~ self_q ;;
  let snr := np_repeat (Fin 0) (n_sources_q s) in
  let which := which_or_all_q which s in
  stat <<~ lift_q (get_source_mask_q TriNone TriTrue (aq_t_obs a) s) ;;
  stat_mask <<~ lift_q (logical_and3 stat (map negb (q_merged s)) which) ;;
  evol <<~ lift_q (get_source_mask_q TriNone TriFalse (aq_t_obs a) s) ;;
  evol_mask <<~ lift_q (logical_and3 evol (map negb (q_merged s)) which) ;;
  snr <<~ (if any stat_mask then
             v <<~ get_snr_stationary_q x a (Some stat_mask) ;; ret_q (scatter stat_mask v snr)
           else ret_q snr) ;;
  snr <<~ (if any evol_mask then
             v <<~ get_snr_evolving_q x a n_step (Some evol_mask) ;; ret_q (scatter evol_mask v snr)
           else ret_q snr) ;;
  _ <<~ modify_q (setq_snr (Some snr)) ;;
  ret_q snr.
Definition get_snr_q (x : ext_q) (a : snr_args_q) (n_step : nat) (which : option (list bool)) : MQ (list num) :=
  s <<~ self_q ;;
  match q_class s with
  | KStationary =>
      v <<~ get_snr_stationary_q x (mkArgsQ (aq_t_obs a) (aq_instrument a) (aq_custom a) PNilQ PNilQ PNilQ) None ;;
      _ <<~ modify_q (setq_snr (Some v)) ;; ret_q v
  | KEvolving =>
      v <<~ get_snr_evolving_q x (mkArgsQ (aq_t_obs a) (aq_instrument a) (aq_custom a) PNilQ PNilQ PNilQ) n_step None ;;
      _ <<~ modify_q (setq_snr (Some v)) ;; ret_q v
  | _ => get_snr_source_q x a n_step which
  end.

(** ** Merger times and evolution *)
(** L1190-1224, [get_merger_time]: the array of times is in Gyr. *)
Definition get_merger_time_q (x : ext_q) (save_in_class : bool) (which : option (list bool)) (exact : bool)
  : MQ (list val) :=
  s <<~ self_q ;;
  let which := if save_in_class then np_repeat true (n_sources_q s) else which_or_all_q which s in
  insp <<~ lift_q (logical_and which (map negb (q_merged s))) ;;
  ecc <<~ lift_q (take_mask insp (q_ecc s)) ;;
  t <<~ lift_q (get_t_merge_ecc_q (x_quad (x_si x)) ecc None (Some (select insp (q_f_orb s))) None
                  (Some (select insp (q_m_1 s))) (Some (select insp (q_m_2 s))) small_e_tol_default large_e_tol_default exact) ;;
  let zero := Qy (Fin 0) gigayear in
  t <<~ lift_q (mapM (UnitsEvol.store zero) t) ;;
  let t_merge := scatter insp t (np_repeat zero (length which)) in
  _ <<~ (if save_in_class then modify_q (setq_t_merge (Some t_merge)) else ret_q tt) ;;
  lift_q (take_mask which t_merge).

Definition times_of_q (t : tevol_q) (n : nat) : res (list val) :=
  match t with TScalarQ v => Ok (np_repeat v n) | TArrQ l => Ok l | TNoneQ => Err AttributeError end.
(** L1257-1262: [t_evol.value] needs a quantity. *)
Definition take_times_q (mask : list bool) (t : tevol_q) : res tevol_q :=
  match t with
  | TArrQ l => if forallb is_quantity l then l <- take_mask mask l ;; Ok (TArrQ l) else Err AttributeError
  | TScalarQ v => if is_quantity v then Ok t else Err AttributeError
  | TNoneQ => Ok t
  end.
Definition final_q (rows : list (list val)) : list val := map (fun r => last r (Qy NaN hertz)) rows.
(** evol.py L269: the default [t_before=1 * u.Myr]. *)
Definition megayear : unit_ := mkUnit (1000000 * yr) time_dim.
(** L1250-1291; the array of frequencies is in Hz. *)
Definition evolved_q (x : ext_q) (t_evol : tevol_q) (t_merge : list val) (s : src_q)
  : res (list bool * list num * list val) :=
  times <- times_of_q t_evol (n_sources_q s) ;;
  merged <- bzipM vge times t_merge ;;
  c_mask <- logical_and (map (fun e => neqb e (Fin 0)) (q_ecc s)) (map negb merged) ;;
  e_mask <- logical_and (map (fun e => negb (neqb e (Fin 0))) (q_ecc s)) (map negb merged) ;;
  t_circ <- take_times_q c_mask t_evol ;;
  t_ecc <- take_times_q e_mask t_evol ;;
  let zero := Qy (Fin 0) hertz in
  let ecc := np_repeat (Fin 0) (n_sources_q s) in
  let f := np_repeat zero (n_sources_q s) in
  at_merger <- take_mask merged f ;;
  let f := scatter merged (map (fun _ => Qy (Fin 100) hertz) at_merger) f in
  f <- (if any c_mask then
          out <- evol_circ_q (x_quad (x_si x)) t_circ 2 SNoneQ PNone (PQArr (select c_mask (q_m_1 s)) tt)
                             (PQArr (select c_mask (q_m_2 s)) tt) PNone (PQArr (select c_mask (q_f_orb s)) tt) ["f_orb"] ;;
          match out with
          | SingleQ (E2Q rows) => v <- mapM (UnitsEvol.store zero) (final_q rows) ;; Ok (scatter c_mask v f)
          | _ => Err IndexError
          end
        else Ok f) ;;
  ef <- (if any e_mask then
           out <- evol_ecc_q (x_quad (x_si x)) (x_odeint (x_si x)) (x_sched (x_si x) (length (select e_mask (q_ecc s))))
                             (PArr (select e_mask (q_ecc s))) t_ecc 2 SNoneQ PNone (PQArr (select e_mask (q_m_1 s)) tt)
                             (PQArr (select e_mask (q_m_2 s)) tt) PNone (PQArr (select e_mask (q_f_orb s)) tt) ["ecc"; "f_orb"]
                             1 false false (Qy (Fin 1) megayear) None ;;
           match fst out with
           | ManyQ [E2Q e_rows; E2Q f_rows] =>
               v <- mapM (UnitsEvol.store zero) (final_q f_rows) ;;
               Ok (scatter e_mask (map mag (final_q e_rows)) ecc, scatter e_mask v f)
           | _ => Err IndexError
           end
         else Ok (ecc, f)) ;;
  Ok (merged, fst ef, snd ef).
(** L1306-1307, L1317-1318: np.maximum(0 * u.Gyr, self.t_merge - t_evol). *)
Definition remaining_q (t_merge times : list val) : res (list val) :=
  bzipM (fun m t => d <- vsub m t ;; vsum nmax (Qy (Fin 0) gigayear) d) t_merge times.
Definition ensure_t_merge_q (x : ext_q) : MQ (list val) :=
  s <<~ self_q ;;
  match q_t_merge s with
  | Some t => ret_q t
  | None => _ <<~ get_merger_time_q x true None true ;;
            s <<~ self_q ;;
            match q_t_merge s with Some t => ret_q t | None => raise_q TypeError end
  end.
(** L1226-1318, [evolve_sources] with create_new_class=False. *)
Definition evolve_sources_q (x : ext_q) (t_evol : tevol_q) : MQ unit :=
  t_merge <<~ ensure_t_merge_q x ;;
  s <<~ self_q ;;
  v <<~ lift_q (evolved_q x t_evol t_merge s) ;;
  let '(merged, ecc, f) := v in
  _ <<~ modify_q (setq_orbit ecc f merged) ;;
  times <<~ lift_q (times_of_q t_evol (n_sources_q s)) ;;
  left <<~ lift_q (remaining_q t_merge times) ;;
  modify_q (setq_t_merge (Some left)).

(** ** Construction *)
Record init_args_q := mkInitQ {
  iq_m_1 : pyval val unit; iq_m_2 : pyval val unit; iq_ecc : pyval num unit; iq_dist : pyval val unit; iq_n_proc : nat;
  iq_f_orb : pyval val unit; iq_a : pyval val unit; iq_position : option (list (val * val));
  iq_polarisation : option (list val); iq_inclination : option (list val); iq_weights : pyval num unit;
  iq_gw_lum_tol : num; iq_stat_tol : num; iq_interpolate_g : bool; iq_interpolate_sc : bool; iq_sc_params : dict_q }.
Definition items {A U} (v : pyval A U) : list A :=
  match v with PQArr l _ | PArr l | PList l => l | PQScalar x _ | POther x => [x] | PNone => [] end.
Definition is_single {A U} (v : pyval A U) : bool := match v with PQScalar _ _ | POther _ => true | _ => false end.
Definition count_of {A U} (v : pyval A U) : res nat :=
  match v with PQArr l _ | PArr l | PList l => Ok (length l) | _ => Err TypeError end.
Definition f_orb_from_a_q (a m_1 m_2 : pyval val unit) : res (pyval val unit) :=
  if py_has_units a && py_has_units m_1 && py_has_units m_2 then
    f <- get_f_arr_q (items a) (items m_1) (items m_2) ;;
    Ok (match is_single a && is_single m_1 && is_single m_2, f with
        | true, v :: _ => PQScalar v tt
        | _, _ => PQArr f tt
        end)
  else Err UnitError.
(** L136-230, [__init__].  The random angles (L154, L158) are in radians.  The checks SkyCoord makes on the unit of the
    distances (L173) are not represented. *)
Definition init_q (x : ext_q) (k : klass) (i : init_args_q) : res src_q :=
  if negb (py_exists (iq_f_orb i)) && negb (py_exists (iq_a i)) then Err ValueError
  else
    sky_inc_pol <- match iq_position i with
      | None =>
          match iq_inclination i with
          | Some _ => Err ValueError
          | None => match iq_polarisation i with Some _ => Err ValueError | None => Ok (None, None, None) end
          end
      | Some p =>
          inc <- match iq_inclination i with
                 | Some l => Ok l
                 | None => n <- count_of (iq_m_1 i) ;; Ok (map (fun v => Qy v radian) (x_inc (x_si x) n))
                 end ;;
          pol <- match iq_polarisation i with
                 | Some l => Ok l
                 | None => n <- count_of (iq_m_1 i) ;; Ok (map (fun v => Qy v radian) (x_pol (x_si x) n))
                 end ;;
          if existsb (fun e => negb (neqb e (Fin 0))) (list_of (iq_ecc i)) then Err ValueError
          else
            p <- bzip (fun q (_ : val) => q) p (items (iq_dist i)) ;;
            Ok (Some p, Some inc, Some pol)
      end ;;
    let '(pos, inc, pol) := sky_inc_pol in
    f_orb <- (if py_exists (iq_f_orb i) then Ok (iq_f_orb i) else f_orb_from_a_q (iq_a i) (iq_m_1 i) (iq_m_2 i)) ;;
    if negb (forallb py_has_units [iq_m_1 i; iq_m_2 i; iq_dist i; f_orb]) then Err AssertionError
    else
      match fst (ensure_array [iq_m_1 i; iq_m_2 i; iq_dist i; f_orb]), fst (ensure_array [iq_ecc i; iq_weights i]) with
      | [m_1; m_2; dist; f_orb], [ecc; weights] =>
          _ <- len_of ecc ;;
          let n := length (items m_1) in
          if existsb (fun k => negb (k =? n)%nat)
                     [length (items m_1); length (items m_2); length (items dist); length (items f_orb); length (list_of ecc)]
          then Err ValueError
          else
            let s := mkSrcQ k (items m_1) (items m_2) (items dist) (items f_orb) (list_of ecc)
                            (if py_exists weights then Some (list_of weights) else None) pos inc pol None None None
                            (np_repeat false n) (iq_stat_tol i) (iq_n_proc i) no_harm None (iq_interpolate_sc i) None [] in
            match (_ <<~ assign_gw_lum_tol_q x (iq_gw_lum_tol i) ;;
                   _ <<~ assign_params_q x (iq_sc_params i) None ;;
                   set_g_q x (iq_interpolate_g i)) s with
            | (s, Ok _) => Ok s
            | (_, Err e) => Err e
            end
      | _, _ => Err TypeError
      end.

(** L1226-1318, [evolve_sources] with create_new_class=True. *)
Definition evolve_new_q (x : ext_q) (t_evol : tevol_q) : MQ src_q :=
  t_merge <<~ ensure_t_merge_q x ;;
  s <<~ self_q ;;
  v <<~ lift_q (evolved_q x t_evol t_merge s) ;;
  let '(merged, ecc, f) := v in
  new <<~ lift_q (match h_gw_lum_tol (q_harm s) with
    | None => Err AttributeError
    | Some tol =>
        init_q x KSource (mkInitQ (PQArr (q_m_1 s) tt) (PQArr (q_m_2 s) tt) (PArr ecc) (PQArr (q_dist s) tt) (q_n_proc s)
                  (PQArr f tt) PNone (q_position s) (q_polarisation s) (q_inclination s) PNone tol (q_stat_tol s)
                  false false (q_params s))
    end) ;;
  times <<~ lift_q (times_of_q t_evol (n_sources_q s)) ;;
  left <<~ lift_q (remaining_q t_merge times) ;;
  ret_q (setq_orbit (q_ecc new) (q_f_orb new) merged
          (setq_t_merge (Some left) (setq_curve true (q_sc s) (q_params new) (setq_g (q_g s) new)))).

(** ** Histories, as in History.v *)
Definition params_ior_q (x : ext_q) (new : dict_q) : MQ unit :=
  _ <<~ modify_q (fun s => putq_params (put_all_q new (q_params s)) s) ;;
  s <<~ self_q ;;
  assign_params_q x (q_params s) (Some (q_params s)).
Definition params_setdefault_q (k : string) (v : pval_q) : MQ unit :=
  modify_q (fun s => match lookup_q k (q_params s) with Some _ => s | None => putq_params (put_q k v (q_params s)) s end).
Inductive op_q :=
| SetItemQ (k : string) (v : pval_q) | UpdateQ (new : dict_q) | AssignQ (new : dict_q) | IorQ (new : dict_q)
| SetDefaultQ (k : string) (v : pval_q) | RemoveQ | ToggleQ (b : bool) | SetScQ | SetGQ (b : bool) | ToleranceQ (tol : num)
| SetAQ (a : pyval val unit) | SnrQ (a : snr_args_q) (n_step : nat) (which : option (list bool))
| SnrStationaryQ (a : snr_args_q) (which : option (list bool))
| SnrEvolvingQ (a : snr_args_q) (n_step : nat) (which : option (list bool))
| MergerTimeQ (save : bool) (which : option (list bool)) (exact : bool) | EvolveQ (t : tevol_q).
Definition discard_q {A} (m : MQ A) : MQ unit := _ <<~ m ;; ret_q tt.
Definition step_q (x : ext_q) (o : op_q) : MQ unit :=
  match o with
  | SetItemQ k v => params_setitem_q x k v
  | UpdateQ new => params_update_q x new
  | AssignQ new => s <<~ self_q ;; assign_params_q x new (Some (q_params s))
  | IorQ new => params_ior_q x new
  | SetDefaultQ k v => params_setdefault_q k v
  | RemoveQ => raise_q TypeError
  | ToggleQ b => modify_q (setq_interpolate_sc b)
  | SetScQ => set_sc_q x
  | SetGQ b => set_g_q x b
  | ToleranceQ tol => assign_gw_lum_tol_q x tol
  | SetAQ a => a_setter_q a
  | SnrQ a n which => discard_q (get_snr_q x a n which)
  | SnrStationaryQ a which => discard_q (get_snr_stationary_q x a which)
  | SnrEvolvingQ a n which => discard_q (get_snr_evolving_q x a n which)
  | MergerTimeQ save which exact => discard_q (get_merger_time_q x save which exact)
  | EvolveQ t => evolve_sources_q x t
  end.
Fixpoint run_q (x : ext_q) (ops : list op_q) (s : src_q) : src_q * list (res unit) :=
  match ops with
  | [] => (s, [])
  | o :: rest => let '(s1, r) := step_q x o s in let '(s2, rs) := run_q x rest s1 in (s2, r :: rs)
  end.
