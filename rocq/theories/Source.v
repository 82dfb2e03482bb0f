(** Source.v -- model of the Source class, src/legwork/source.py (SI values).

    An object is a record with its attributes; a method is a function from the object to the object afterwards and a
    result, so that the attributes written before an exception are kept.  The progress messages (verbose), log messages
    and warnings are not represented. *)
From Coq Require Import String Reals ZArith List Bool.
From Verif Require Import Num Np Utils Strain Psd Snr Interp Evol Harmonics ScParams.
Import ListNotations.
Open Scope num_scope.
Open Scope res_scope.

(** Source and its subclasses (L1595-1646). *)
Inductive klass := KSource | KStationary | KEvolving | KVerification.

(** The attributes set in __init__ (L197-230).  [s_position] holds (lat, lon) in the barycentrictrueecliptic frame;
    its distances (L174) are not represented.  [s_harm]: _gw_lum_tol, harmonics_required, max_strain_harmonic, _ecc_tol. *)
Record src := mkSrc {
  s_class : klass;
  s_m_1 : list num; s_m_2 : list num; s_dist : list num; s_f_orb : list num; s_ecc : list num;
  s_weights : option (list num);
  s_position : option (list (num * num)); s_inclination : option (list num); s_polarisation : option (list num);
  s_t_merge : option (list num); s_snr : option (list num); s_max_snr_harmonic : option (list Z);
  s_merged : list bool;
  s_stat_tol : num; s_n_proc : nat;
  s_harm : harm; s_g : option (Z -> num -> num);
  s_interpolate_sc : bool; s_sc : option (num -> num); s_params : dict }.

(** Attribute assignment. *)
Definition set_snr (v : option (list num)) (s : src) : src :=
  mkSrc (s_class s) (s_m_1 s) (s_m_2 s) (s_dist s) (s_f_orb s) (s_ecc s) (s_weights s) (s_position s) (s_inclination s)
        (s_polarisation s) (s_t_merge s) v (s_max_snr_harmonic s) (s_merged s) (s_stat_tol s) (s_n_proc s) (s_harm s) (s_g s)
        (s_interpolate_sc s) (s_sc s) (s_params s).
Definition set_max_snr_harmonic (v : option (list Z)) (s : src) : src :=
  mkSrc (s_class s) (s_m_1 s) (s_m_2 s) (s_dist s) (s_f_orb s) (s_ecc s) (s_weights s) (s_position s) (s_inclination s)
        (s_polarisation s) (s_t_merge s) (s_snr s) v (s_merged s) (s_stat_tol s) (s_n_proc s) (s_harm s) (s_g s)
        (s_interpolate_sc s) (s_sc s) (s_params s).
Definition set_t_merge (v : option (list num)) (s : src) : src :=
  mkSrc (s_class s) (s_m_1 s) (s_m_2 s) (s_dist s) (s_f_orb s) (s_ecc s) (s_weights s) (s_position s) (s_inclination s)
        (s_polarisation s) v (s_snr s) (s_max_snr_harmonic s) (s_merged s) (s_stat_tol s) (s_n_proc s) (s_harm s) (s_g s)
        (s_interpolate_sc s) (s_sc s) (s_params s).
Definition set_orbit (ecc f_orb : list num) (merged : list bool) (s : src) : src :=
  mkSrc (s_class s) (s_m_1 s) (s_m_2 s) (s_dist s) f_orb ecc (s_weights s) (s_position s) (s_inclination s)
        (s_polarisation s) (s_t_merge s) (s_snr s) (s_max_snr_harmonic s) merged (s_stat_tol s) (s_n_proc s) (s_harm s) (s_g s)
        (s_interpolate_sc s) (s_sc s) (s_params s).
Definition set_f_orb (f_orb : list num) (s : src) : src := set_orbit (s_ecc s) f_orb (s_merged s) s.
Definition set_harm (h : harm) (s : src) : src :=
  mkSrc (s_class s) (s_m_1 s) (s_m_2 s) (s_dist s) (s_f_orb s) (s_ecc s) (s_weights s) (s_position s) (s_inclination s)
        (s_polarisation s) (s_t_merge s) (s_snr s) (s_max_snr_harmonic s) (s_merged s) (s_stat_tol s) (s_n_proc s) h (s_g s)
        (s_interpolate_sc s) (s_sc s) (s_params s).
Definition set_curve (interpolate_sc : bool) (sc : option (num -> num)) (params : dict) (s : src) : src :=
  mkSrc (s_class s) (s_m_1 s) (s_m_2 s) (s_dist s) (s_f_orb s) (s_ecc s) (s_weights s) (s_position s) (s_inclination s)
        (s_polarisation s) (s_t_merge s) (s_snr s) (s_max_snr_harmonic s) (s_merged s) (s_stat_tol s) (s_n_proc s) (s_harm s) (s_g s)
        interpolate_sc sc params.
Definition set_g_attr (g : option (Z -> num -> num)) (s : src) : src :=
  mkSrc (s_class s) (s_m_1 s) (s_m_2 s) (s_dist s) (s_f_orb s) (s_ecc s) (s_weights s) (s_position s) (s_inclination s)
        (s_polarisation s) (s_t_merge s) (s_snr s) (s_max_snr_harmonic s) (s_merged s) (s_stat_tol s) (s_n_proc s) (s_harm s) g
        (s_interpolate_sc s) (s_sc s) (s_params s).
Definition put_params (params : dict) (s : src) : src := set_curve (s_interpolate_sc s) (s_sc s) params s.
Definition put_sc (sc : option (num -> num)) (s : src) : src := set_curve (s_interpolate_sc s) sc (s_params s) s.
(** [sources.interpolate_sc = b], a plain attribute. *)
Definition set_interpolate_sc (b : bool) (s : src) : src := set_curve b (s_sc s) (s_params s) s.

(** ** Methods: state, then result *)
Definition M (A : Type) := src -> src * res A.
Definition ret {A} (a : A) : M A := fun s => (s, Ok a).
Definition raise {A} (e : exn) : M A := fun s => (s, Err e).
Definition lift {A} (r : res A) : M A := fun s => (s, r).
Definition modify (f : src -> src) : M unit := fun s => (f s, Ok tt).
Definition self : M src := fun s => (s, Ok s).
Definition mbind {A B} (m : M A) (f : A -> M B) : M B :=
  fun s => match m s with (s', Ok a) => f a s' | (s', Err e) => (s', Err e) end.
Declare Scope m_scope.
Delimit Scope m_scope with m.
Notation "x <<- m ;; k" := (mbind m (fun x => k)) (at level 61, m at next level, right associativity) : m_scope.
Open Scope m_scope.

(** ** Small numpy operations *)
(** L489-492, [n_sources]. *)
Definition n_sources (s : src) : nat := length (s_m_1 s).
Definition any (l : list bool) : bool := existsb (fun b => b) l.
(** [x[mask]] for a boolean mask: IndexError unless the lengths agree. *)
Definition take_mask {A} (mask : list bool) (l : list A) : res (list A) :=
  if (length mask =? length l)%nat then Ok (select mask l) else Err IndexError.
Definition take_opt {A} (mask : list bool) (o : option (list A)) : res (option (list A)) :=
  match o with None => Ok None | Some l => l <- take_mask mask l ;; Ok (Some l) end.
(** np.logical_and of two masks. *)
Definition logical_and (a b : list bool) : res (list bool) := bzip andb a b.
(** np.logical_and.reduce((a, b, c)): the tuple must stack into a rectangular array. *)
Definition logical_and3 (a b c : list bool) : res (list bool) :=
  if (length a =? length b)%nat && (length a =? length c)%nat then Ok (map2 andb (map2 andb a b) c) else Err ValueError.

(** L494-497, [m_c]. *)
Definition m_c (s : src) : res (list num) := bzip chirp_mass (s_m_1 s) (s_m_2 s).
(** L499-504, [a]. *)
Definition a_getter (s : src) : res (list num) := get_a_arr (s_f_orb s) (s_m_1 s) (s_m_2 s).
(** utils.get_f_orb_from_a on arrays. *)
Definition get_f_arr (a m_1 m_2 : list num) : res (list num) :=
  mm <- bzip (fun x y => (x, y)) m_1 m_2 ;;
  bzip (fun (q : num * num) x => get_f_orb_from_a x (fst q) (snd q)) mm a.
(** L506-511, the setter of [a]. *)
Definition a_setter (a : pyval num unit) : M unit :=
  match a with
  | PQArr l _ => s <<- self ;; f <<- lift (get_f_arr l (s_m_1 s) (s_m_2 s)) ;; modify (set_f_orb f)
  | PQScalar v _ => s <<- self ;; f <<- lift (get_f_arr [v] (s_m_1 s) (s_m_2 s)) ;; modify (set_f_orb f)
  | _ => raise AssertionError
  end.
(** L513-516, [interpolate_g]. *)
Definition interpolate_g (s : src) : bool := is_some (s_g s).
(** L590-598, [ecc_tol]. *)
Definition ecc_tol (s : src) : res num := match h_ecc_tol (s_harm s) with Some t => Ok t | None => Err AttributeError end.
(** L610-618, the setter of gw_lum_tol. *)
Definition assign_gw_lum_tol (x : ext) (tol : num) : M unit := fun s =>
  match set_gw_lum_tol (x_jv x) (x_lum x) tol (s_harm s) with (h, r) => (set_harm h s, r) end.
(** L620-639, [set_g]. *)
Definition set_g (x : ext) (interpolate : bool) : M unit := modify (set_g_attr (if interpolate then Some (x_g x) else None)).

(** ** Sensitivity curve *)
(** L641-658, [set_sc]. *)
Definition set_sc (x : ext) : M unit := fun s =>
  if s_interpolate_sc s then
    match curve_of x (s_params s) with
    | Ok c => (put_sc (Some c) s, Ok tt)
    | Err e => (s, Err e)
    end
  else (put_sc None s, Ok tt).
(** L679-686, the setter of sc_params; [current = None]: no parameters yet (in __init__). *)
Definition assign_params (x : ext) (new : dict) (current : option dict) : M unit :=
  new_params <<- lift (make_params new) ;;
  let changed := match current with None => true | Some d => negb (dict_eqb new_params d) end in
  _ <<- modify (put_params new_params) ;;
  if changed then set_sc x else ret tt.
(** L1564-1569, [SensitivityCurveParams.__setitem__] on the parameters of this object. *)
Definition params_setitem (x : ext) (k : string) (v : pval) : M unit :=
  _ <<- lift (check_keys [k]) ;;
  s <<- self ;;
  let changed := negb (peqb (get_or_none k (s_params s)) v) in
  _ <<- modify (put_params (put k v (s_params s))) ;;
  if changed then set_sc x else ret tt.
(** L1571-1578, [update]. *)
Definition params_update (x : ext) (new : dict) : M unit :=
  _ <<- lift (check_keys (keys new)) ;;
  s <<- self ;;
  let changed := existsb (fun kv => negb (peqb (get_or_none (fst kv) (s_params s)) (snd kv))) new in
  _ <<- modify (put_params (put_all new (s_params s))) ;;
  if changed then set_sc x else ret tt.

(** ** Masks *)
(** Arguments that must be None, True or False themselves (tested with [is]). *)
Inductive tri := TriNone | TriTrue | TriFalse | TriOther.
(** L722-726 and L906-907 of the callers: the observing time of "auto". *)
Definition years (y : R) : num := Fin (y * yr).
Definition auto_t_obs (instrument : pval) : num := if peqb instrument (PStr "LISA") then years 4 else years 5.
Definition resolve_t_obs (t_obs instrument : pval) : pval :=
  if peqb t_obs (PStr "auto") then PVal (auto_t_obs instrument) else t_obs.
(** A time handed to the numerical functions; anything but a Quantity raises TypeError there. *)
Definition time_of (v : pval) : res num := match v with PVal t => Ok t | _ => Err TypeError end.
(** [v if v is not None else d]. *)
Definition or_default (v d : pval) : pval := match v with PNil => d | _ => v end.

(** L688-732, [get_source_mask]. *)
Definition get_source_mask (circular stationary : tri) (t_obs : pval) (s : src) : res (list bool) :=
  circular_mask <- match circular with
                   | TriNone => Ok (np_repeat true (n_sources s))
                   | TriTrue => tol <- ecc_tol s ;; Ok (map (fun e => nle e tol) (s_ecc s))
                   | TriFalse => tol <- ecc_tol s ;; Ok (map (fun e => ngt e tol) (s_ecc s))
                   | TriOther => Err ValueError
                   end ;;
  stat_mask <- match stationary with
               | TriNone => Ok (np_repeat true (n_sources s))
               | TriOther => Err ValueError
               | _ =>
                   let t_obs := or_default t_obs (get_or_none "t_obs" (s_params s)) in
                   let t_obs := resolve_t_obs t_obs (get_or_none "instrument" (s_params s)) in
                   t <- time_of t_obs ;;
                   mc <- m_c s ;;
                   mask <- determine_stationarity (s_f_orb s) (np_repeat t (n_sources s)) (s_ecc s) None None (Some mc) (s_stat_tol s) ;;
                   Ok (match stationary with TriFalse => map negb mask | _ => mask end)
               end ;;
  logical_and circular_mask stat_mask.

(** ** Strains *)
(** [harmonics]: a Python int, a list or array of ints, or a numpy integer (which has no len()). *)
Inductive harmonics := HInt (n : Z) | HList (l : list Z) | HNpInt (n : Z).
Definition which_or_all (which : option (list bool)) (s : src) : list bool :=
  match which with Some w => w | None => np_repeat true (n_sources s) end.
Definition masked_sky (mask : list bool) (s : src) : res sky :=
  match s_position s with
  | None => Ok no_sky
  | Some _ =>
      p <- take_opt mask (s_position s) ;;
      pol <- match s_polarisation s with None => Err TypeError | Some l => take_mask mask l end ;;
      inc <- match s_inclination s with None => Err TypeError | Some l => take_mask mask l end ;;
      Ok (mkSky p (Some pol) (Some inc))
  end.
(** L734-780, [get_h_0_n], and L782-829, [get_h_c_n], which differ in the strain function called. *)
Definition get_strain
  (f : (Z -> num -> num) -> option (Z -> num -> num) -> list num -> list (list num) -> list (list num) -> list Z ->
       list num -> sky -> res (list (list (list num))))
  (x : ext) (h : harmonics) (which : option (list bool)) (s : src) : res (list (list num)) :=
  let which := which_or_all which s in
  ns <- match h with HInt n => Ok [n] | HList l => Ok l | HNpInt _ => Err TypeError end ;;
  insp <- logical_and (map negb (s_merged s)) which ;;
  sk <- masked_sky insp s ;;
  mc <- m_c s ;;
  rows <- f (x_jv x) (s_g s) (select insp mc) (newaxis (select insp (s_f_orb s))) (newaxis (select insp (s_ecc s))) ns
            (select insp (s_dist s)) sk ;;
  let table := scatter insp (map (fun r => hd [] r) rows) (np_repeat (np_repeat (Fin 0) (length ns)) (n_sources s)) in
  take_mask which table.
Definition get_h_0_n := get_strain h_0_n.
Definition get_h_c_n := get_strain h_c_n.

(** ** Signal-to-noise ratios *)
(** The arguments of the SNR methods that may be left out (None): L831-832, L939-940, L1063-1065. *)
Record snr_args := mkArgs { a_t_obs : pval; a_instrument : pval; a_custom : pval; a_L : pval; a_approximate_R : pval;
                            a_confusion : pval }.
Definition no_args : snr_args := mkArgs PNil PNil PNil PNil PNil PNil.
(** L876-881, L982-990, L1112-1119: what is left out comes from sc_params. *)
Definition fill_args (a : snr_args) (d : dict) : snr_args :=
  mkArgs (or_default (a_t_obs a) (get_or_none "t_obs" d)) (or_default (a_instrument a) (get_or_none "instrument" d))
         (or_default (a_custom a) (get_or_none "custom_psd" d)) (or_default (a_L a) (get_or_none "L" d))
         (or_default (a_approximate_R a) (get_or_none "approximate_R" d))
         (or_default (a_confusion a) (get_or_none "confusion_noise" d)).
(** L983-985, L1113-1115. *)
Definition resolve_args (a : snr_args) : snr_args :=
  mkArgs (resolve_t_obs (a_t_obs a) (a_instrument a)) (a_instrument a) (a_custom a) (a_L a) (a_approximate_R a) (a_confusion a).
(** The dictionary handed to sc_params.update (L884-886, L993-995, L1122-1124). *)
Definition args_dict (a : snr_args) : dict :=
  [("t_obs", a_t_obs a); ("instrument", a_instrument a); ("custom_psd", a_custom a); ("L", a_L a);
   ("approximate_R", a_approximate_R a); ("confusion_noise", a_confusion a)]%string.

(** L1035-1036, L1158-1159: groups of harmonics. *)
Definition harmonic_groups : list (Z * Z) := [(1, 10); (10, 100); (100, 1000); (1000, 10000)]%Z.
Definition in_group (g : Z * Z) (hr : Z) : bool := (fst g <? hr)%Z && (hr <=? snd g)%Z.
(** The loop over the groups: [run match upper] computes SNRs and loudest harmonics of the matching sources. *)
Definition run_groups (run : list bool -> nat -> res snr_ret) (required : list Z) (e_mask : list bool)
           (snr : list num) (msh : list Z) : res (list num * list Z) :=
  fold_left (fun acc g =>
    st <- acc ;;
    let matching := map2 andb (map (in_group g) required) e_mask in
    if any matching then
      r <- run matching (Z.to_nat (snd g)) ;;
      match r with
      | SnrMax v h => Ok (scatter matching v (fst st), scatter matching h (snd st))
      | _ => Err TypeError
      end
    else Ok st) harmonic_groups (Ok (snr, msh)).

(** Zeros (or the stored values) with the computed ones written in: L1053-1059, L1180-1186. *)
Definition store {A} (zero : A) (n : nat) (mask : list bool) (vals : list A) (old : option (list A)) : list A :=
  scatter mask (select mask vals) (match old with Some l => l | None => np_repeat zero n end).
Definition record_snr (insp : list bool) (snr : list num) (msh : list Z) : M unit :=
  _ <<- modify (fun s => set_max_snr_harmonic (Some (store 0%Z (n_sources s) insp msh (s_max_snr_harmonic s))) s) ;;
  modify (fun s => set_snr (Some (store (Fin 0) (n_sources s) insp snr (s_snr s))) s).

(** L999-1051: the SNRs of the inspiralling selected sources, zero elsewhere, and the loudest harmonics, 2 elsewhere. *)
Definition stationary_values (x : ext) (a : snr_args) (insp : list bool) (s : src) : res (list num * list Z) :=
  t <- time_of (a_t_obs a) ;;
  tol <- ecc_tol s ;;
  e_mask <- logical_and (map (fun e => ngt e tol) (s_ecc s)) insp ;;
  c_mask <- logical_and (map (fun e => nle e tol) (s_ecc s)) insp ;;
  kw <- kw_of x (args_dict a) ;;
  sk <- masked_sky c_mask s ;;
  mc <- m_c s ;;
  let snr := np_repeat (Fin 0) (n_sources s) in
  let msh := np_repeat 2%Z (n_sources s) in
  snr <- (if any c_mask then
            v <- snr_circ_stationary (x_psd x) (x_jv x) (s_g s) (select c_mask mc) (select c_mask (s_f_orb s))
                                     (select c_mask (s_dist s)) t sk (s_sc s) kw ;;
            Ok (scatter c_mask v snr)
          else Ok snr) ;;
  if any e_mask then
    run_groups (fun m upper =>
      snr_ecc_stationary (x_psd x) (x_jv x) (s_g s) (select m mc) (select m (s_f_orb s)) (select m (s_ecc s))
                         (select m (s_dist s)) t upper (s_sc s) true false kw)
      (map (h_required (s_harm s)) (s_ecc s)) e_mask snr msh
  else Ok (snr, msh).

(** L1128-1178.  The merger times handed to snr_circ_evolving are the stored ones, if any; snr_ecc_evolving is not
    handed any (L1166 is not used). *)
Definition evolving_values (x : ext) (a : snr_args) (n_step : nat) (insp : list bool) (s : src) : res (list num * list Z) :=
  t <- time_of (a_t_obs a) ;;
  tol <- ecc_tol s ;;
  e_mask <- logical_and (map (fun e => ngt e tol) (s_ecc s)) insp ;;
  c_mask <- logical_and (map (fun e => nle e tol) (s_ecc s)) insp ;;
  kw <- kw_of x (args_dict a) ;;
  let snr := np_repeat (Fin 0) (n_sources s) in
  let msh := np_repeat 2%Z (n_sources s) in
  snr <- (if any c_mask then
            t_merge <- take_opt c_mask (s_t_merge s) ;;
            v <- snr_circ_evolving (x_psd x) (x_jv x) (s_g s) (x_quad x) (select c_mask (s_m_1 s)) (select c_mask (s_m_2 s))
                                   (select c_mask (s_f_orb s)) (select c_mask (s_dist s)) t n_step t_merge (s_sc s) kw ;;
            Ok (scatter c_mask v snr)
          else Ok snr) ;;
  if any e_mask then
    run_groups (fun m upper =>
      snr_ecc_evolving (x_psd x) (x_jv x) (s_g s) (x_quad x) (x_odeint x) (x_sched x (length (select m (s_ecc s))))
                       (select m (s_m_1 s)) (select m (s_m_2 s)) (select m (s_f_orb s)) (select m (s_dist s))
                       (select m (s_ecc s)) upper t n_step None (s_sc s) (s_n_proc s) true false kw)
      (map (h_required (s_harm s)) (s_ecc s)) e_mask snr msh
  else Ok (snr, msh).

(** The common frame of L939-1061 and L1063-1188. *)
Definition snr_method (x : ext) (values : snr_args -> list bool -> src -> res (list num * list Z)) (a : snr_args)
           (which : option (list bool)) : M (list num) :=
  s <<- self ;;
  let which := which_or_all which s in
  let a := resolve_args (fill_args a (s_params s)) in
  _ <<- params_update x (args_dict a) ;;
  s <<- self ;;
  insp <<- lift (logical_and which (map negb (s_merged s))) ;;
  v <<- lift (values a insp s) ;;
  _ <<- record_snr insp (fst v) (snd v) ;;
  lift (take_mask which (fst v)).
(** L939-1061, [get_snr_stationary]. *)
Definition get_snr_stationary (x : ext) (a : snr_args) (which : option (list bool)) : M (list num) :=
  snr_method x (stationary_values x) a which.
(** L1063-1188, [get_snr_evolving]. *)
Definition get_snr_evolving (x : ext) (a : snr_args) (n_step : nat) (which : option (list bool)) : M (list num) :=
  snr_method x (fun a => evolving_values x a n_step) a which.

(** L831-937, [get_snr]. *)
Definition get_snr_source (x : ext) (a : snr_args) (n_step : nat) (which : option (list bool)) : M (list num) :=
  s <<- self ;;
  let a := fill_args a (s_params s) in
  _ <<- params_update x (args_dict a) ;;
  s <<- self ;;
  let snr := np_repeat (Fin 0) (n_sources s) in
  let which := which_or_all which s in
  stat <<- lift (get_source_mask TriNone TriTrue (a_t_obs a) s) ;;
  stat_mask <<- lift (logical_and3 stat (map negb (s_merged s)) which) ;;
  evol <<- lift (get_source_mask TriNone TriFalse (a_t_obs a) s) ;;
  evol_mask <<- lift (logical_and3 evol (map negb (s_merged s)) which) ;;
  snr <<- (if any stat_mask then
             v <<- get_snr_stationary x a (Some stat_mask) ;; ret (scatter stat_mask v snr)
           else ret snr) ;;
  snr <<- (if any evol_mask then
             v <<- get_snr_evolving x a n_step (Some evol_mask) ;; ret (scatter evol_mask v snr)
           else ret snr) ;;
  _ <<- modify (set_snr (Some snr)) ;;
  ret snr.
(** [get_snr] of the object's class: L831-937, or L1598-1601 (Stationary) and L1610-1613 (Evolving), which take neither
    L, approximate_R and confusion_noise nor which_sources. *)
Definition get_snr (x : ext) (a : snr_args) (n_step : nat) (which : option (list bool)) : M (list num) :=
  s <<- self ;;
  match s_class s with
  | KStationary => v <<- get_snr_stationary x (mkArgs (a_t_obs a) (a_instrument a) (a_custom a) PNil PNil PNil) None ;;
                   _ <<- modify (set_snr (Some v)) ;; ret v
  | KEvolving => v <<- get_snr_evolving x (mkArgs (a_t_obs a) (a_instrument a) (a_custom a) PNil PNil PNil) n_step None ;;
                 _ <<- modify (set_snr (Some v)) ;; ret v
  | _ => get_snr_source x a n_step which
  end.

(** ** Merger times and evolution *)
(** L1190-1224, [get_merger_time]. *)
Definition get_merger_time (x : ext) (save_in_class : bool) (which : option (list bool)) (exact : bool) : M (list num) :=
  s <<- self ;;
  let which := if save_in_class then np_repeat true (n_sources s) else which_or_all which s in
  insp <<- lift (logical_and which (map negb (s_merged s))) ;;
  ecc <<- lift (take_mask insp (s_ecc s)) ;;
  t <<- lift (get_t_merge_ecc (x_quad x) ecc None (Some (select insp (s_f_orb s))) None
                (Some (select insp (s_m_1 s))) (Some (select insp (s_m_2 s))) small_e_tol_default large_e_tol_default exact) ;;
  let t_merge := scatter insp t (np_repeat (Fin 0) (length which)) in
  _ <<- (if save_in_class then modify (set_t_merge (Some t_merge)) else ret tt) ;;
  lift (take_mask which t_merge).

(** A time or an array of times. *)
Definition times_of (t : tevol) (n : nat) : res (list num) :=
  match t with TScalar v => Ok (np_repeat v n) | TArr l => Ok l | TNone => Err AttributeError end.
Definition take_times (mask : list bool) (t : tevol) : res tevol :=
  match t with TArr l => l <- take_mask mask l ;; Ok (TArr l) | _ => Ok t end.
Definition final (rows : list (list num)) : list num := map (fun r => last r NaN) rows.
Definition f_at_merger : num := #100.
(** L1250-1291: the merged flags, eccentricities and frequencies after the evolution. *)
Definition evolved (x : ext) (t_evol : tevol) (t_merge : list num) (s : src) : res (list bool * list num * list num) :=
  times <- times_of t_evol (n_sources s) ;;
  merged <- bzip nge times t_merge ;;
  c_mask <- logical_and (map (fun e => neqb e (Fin 0)) (s_ecc s)) (map negb merged) ;;
  e_mask <- logical_and (map (fun e => negb (neqb e (Fin 0))) (s_ecc s)) (map negb merged) ;;
  t_circ <- take_times c_mask t_evol ;;
  t_ecc <- take_times e_mask t_evol ;;
  let ecc := np_repeat (Fin 0) (n_sources s) in
  let f := np_repeat (Fin 0) (n_sources s) in
  at_merger <- take_mask merged f ;;
  let f := scatter merged (map (fun _ => f_at_merger) at_merger) f in
  f <- (if any c_mask then
          out <- evol_circ (x_quad x) t_circ 2 SNone PNone (PQArr (select c_mask (s_m_1 s)) tt)
                           (PQArr (select c_mask (s_m_2 s)) tt) PNone (PQArr (select c_mask (s_f_orb s)) tt) ["f_orb"%string] ;;
          match out with
          | Single (E2 rows) => Ok (scatter c_mask (final rows) f)
          | _ => Err IndexError
          end
        else Ok f) ;;
  ef <- (if any e_mask then
           out <- evol_ecc (x_quad x) (x_odeint x) (x_sched x (length (select e_mask (s_ecc s)))) (PArr (select e_mask (s_ecc s)))
                           t_ecc 2 SNone PNone (PQArr (select e_mask (s_m_1 s)) tt) (PQArr (select e_mask (s_m_2 s)) tt) PNone
                           (PQArr (select e_mask (s_f_orb s)) tt) ["ecc"%string; "f_orb"%string] 1 false false (years 1e6) None ;;
           match fst out with
           | Many [E2 e_rows; E2 f_rows] => Ok (scatter e_mask (final e_rows) ecc, scatter e_mask (final f_rows) f)
           | _ => Err IndexError
           end
         else Ok (ecc, f)) ;;
  Ok (merged, fst ef, snd ef).
(** L1306-1307, L1317-1318: np.maximum(0, t_merge - t_evol). *)
Definition remaining (t_merge times : list num) : res (list num) := bzip (fun m t => nmax (Fin 0) (m - t)) t_merge times.
(** L1246-1248: the merger times are computed if there are none. *)
Definition ensure_t_merge (x : ext) : M (list num) :=
  s <<- self ;;
  match s_t_merge s with
  | Some t => ret t
  | None => _ <<- get_merger_time x true None true ;;
            s <<- self ;;
            match s_t_merge s with Some t => ret t | None => raise TypeError end
  end.
(** L1226-1318, [evolve_sources] with create_new_class=False. *)
Definition evolve_sources (x : ext) (t_evol : tevol) : M unit :=
  t_merge <<- ensure_t_merge x ;;
  s <<- self ;;
  v <<- lift (evolved x t_evol t_merge s) ;;
  let '(merged, ecc, f) := v in
  _ <<- modify (set_orbit ecc f merged) ;;
  times <<- lift (times_of t_evol (n_sources s)) ;;
  left <<- lift (remaining t_merge times) ;;
  modify (set_t_merge (Some left)).

(** ** Construction *)
(** The arguments of __init__ (L136-139).  A position is given by (lat, lon) pairs in the barycentrictrueecliptic frame
    (the transformation of L168 is not represented); inclination and polarisation are arrays (np.atleast_1d of L173). *)
Record init_args := mkInit {
  i_m_1 : pyval num unit; i_m_2 : pyval num unit; i_ecc : pyval num unit; i_dist : pyval num unit; i_n_proc : nat;
  i_f_orb : pyval num unit; i_a : pyval num unit; i_position : option (list (num * num));
  i_polarisation : option (list num); i_inclination : option (list num); i_weights : pyval num unit;
  i_gw_lum_tol : num; i_stat_tol : num; i_interpolate_g : bool; i_interpolate_sc : bool; i_sc_params : dict }.
Definition list_of {U} (v : pyval num U) : list num :=
  match v with PQArr l _ | PArr l | PList l => l | PQScalar x _ | POther x => [x] | PNone => [] end.
Definition is_scalar {U} (v : pyval num U) : bool := match v with PQScalar _ _ | POther _ => true | _ => false end.
(** len(m_1): TypeError on a scalar or None. *)
Definition len_of {U} (v : pyval num U) : res nat :=
  match v with PQArr l _ | PArr l | PList l => Ok (length l) | _ => Err TypeError end.
(** utils.get_f_orb_from_a of Python values: Quantities, else the units do not work out. *)
Definition f_orb_from_a (a m_1 m_2 : pyval num unit) : res (pyval num unit) :=
  if py_has_units a && py_has_units m_1 && py_has_units m_2 then
    f <- get_f_arr (list_of a) (list_of m_1) (list_of m_2) ;;
    Ok (match is_scalar a && is_scalar m_1 && is_scalar m_2, f with
        | true, v :: _ => PQScalar v tt
        | _, _ => PQArr f tt
        end)
  else Err UnitError.
(** L136-230, [__init__] of a class that does not define its own. *)
Definition init (x : ext) (k : klass) (i : init_args) : res src :=
  (* L140-141 *)
  if negb (py_exists (i_f_orb i)) && negb (py_exists (i_a i)) then Err ValueError
  else
    (* L144-157 *)
    sky_inc_pol <- match i_position i with
      | None =>
          match i_inclination i with
          | Some _ => Err ValueError
          | None => match i_polarisation i with Some _ => Err ValueError | None => Ok (None, None, None) end
          end
      | Some p =>
          inc <- match i_inclination i with Some l => Ok l | None => n <- len_of (i_m_1 i) ;; Ok (x_inc x n) end ;;
          pol <- match i_polarisation i with Some l => Ok l | None => n <- len_of (i_m_1 i) ;; Ok (x_pol x n) end ;;
          (* L162-164 *)
          if existsb (fun e => negb (neqb e (Fin 0))) (list_of (i_ecc i)) then Err ValueError
          else
            (* L174: the sky positions are broadcast against the distances *)
            p <- bzip (fun q (_ : num) => q) p (list_of (i_dist i)) ;;
            Ok (Some p, Some inc, Some pol)
      end ;;
    let '(pos, inc, pol) := sky_inc_pol in
    (* L177 *)
    f_orb <- (if py_exists (i_f_orb i) then Ok (i_f_orb i) else f_orb_from_a (i_a i) (i_m_1 i) (i_m_2 i)) ;;
    (* L180-185 *)
    if negb (forallb py_has_units [i_m_1 i; i_m_2 i; i_dist i; f_orb]) then Err AssertionError
    else
      (* L188-195 *)
      match fst (ensure_array [i_m_1 i; i_m_2 i; i_dist i; f_orb; i_ecc i; i_weights i]) with
      | [m_1; m_2; dist; f_orb; ecc; weights] =>
          _ <- len_of ecc ;;
          let n := length (list_of m_1) in
          if existsb (fun l => negb (length l =? n)%nat) [list_of m_1; list_of m_2; list_of dist; list_of f_orb; list_of ecc]
          then Err ValueError
          else
            let s := mkSrc k (list_of m_1) (list_of m_2) (list_of dist) (list_of f_orb) (list_of ecc)
                           (if py_exists weights then Some (list_of weights) else None) pos inc pol None None None
                           (np_repeat false n) (i_stat_tol i) (i_n_proc i) no_harm None (i_interpolate_sc i) None [] in
            (* L219-230 *)
            match (_ <<- assign_gw_lum_tol x (i_gw_lum_tol i) ;;
                   _ <<- assign_params x (i_sc_params i) None ;;
                   set_g x (i_interpolate_g i)) s with
            | (s, Ok _) => Ok s
            | (_, Err e) => Err e
            end
      | _ => Err TypeError
      end.

(** L1226-1318, [evolve_sources] with create_new_class=True: the new object is a plain Source (L1293-1299). *)
Definition evolve_new (x : ext) (t_evol : tevol) : M src :=
  t_merge <<- ensure_t_merge x ;;
  s <<- self ;;
  v <<- lift (evolved x t_evol t_merge s) ;;
  let '(merged, ecc, f) := v in
  new <<- lift (match h_gw_lum_tol (s_harm s) with
    | None => Err AttributeError
    | Some tol =>
        init x KSource (mkInit (PQArr (s_m_1 s) tt) (PQArr (s_m_2 s) tt) (PArr ecc) (PQArr (s_dist s) tt) (s_n_proc s)
                (PQArr f tt) PNone (s_position s) (s_polarisation s) (s_inclination s) PNone tol (s_stat_tol s)
                false false (s_params s))
    end) ;;
  (* L1302-1311 *)
  times <<- lift (times_of t_evol (n_sources s)) ;;
  left <<- lift (remaining t_merge times) ;;
  ret (set_orbit (s_ecc new) (s_f_orb new) merged
        (set_t_merge (Some left) (set_curve true (s_sc s) (s_params new) (set_g_attr (s_g s) new)))).
