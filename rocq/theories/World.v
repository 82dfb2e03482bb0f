(** World.v -- several Source objects together: which arrays and parameter dictionaries they share (src/legwork/source.py).

    Source.v describes what a method computes for one object.  Here arrays are at addresses, attributes refer to them, and
    SensitivityCurveParams objects are separate from the object they belong to; the values a method computes are those of
    Source.v.  Functions (g, sc, harmonics_required) are never written to and are kept as values. *)
From Coq Require Import String Reals ZArith List Bool.
From Verif Require Import Num Np Utils Strain Psd Snr Interp Evol Harmonics ScParams Source Index History.
Import ListNotations.
Open Scope num_scope.
Open Scope res_scope.

(** Arrays of floats, integers and booleans, and SkyCoords; an address is a position in the heap. *)
Definition addr := nat.
Inductive arr := ANum (l : list num) | AInt (l : list Z) | ABool (l : list bool) | ASky (l : list (num * num)).
(** A SensitivityCurveParams object (L1518-1590): the parameters and the object in [_source]. *)
Record handle := mkHandle { p_dict : dict; p_source : option nat }.
(** A Source object (L197-230): arrays by address, [_sc_params] by number. *)
Record obj := mkObj {
  o_class : klass;
  o_m_1 : addr; o_m_2 : addr; o_dist : addr; o_f_orb : addr; o_ecc : addr;
  o_weights : option addr; o_position : option addr; o_inclination : option addr; o_polarisation : option addr;
  o_t_merge : option addr; o_snr : option addr; o_max_snr_harmonic : option addr; o_merged : addr;
  o_stat_tol : num; o_n_proc : nat; o_harm : harm; o_g : option (Z -> num -> num);
  o_interpolate_sc : bool; o_sc : option (num -> num); o_params : nat }.
Record world := mkWorld { w_heap : list arr; w_objs : list obj; w_params : list handle }.
Definition empty_world : world := mkWorld [] [] [].

(** The contents of arrays (integers are read as floats where floats are expected). *)
Definition nums (h : list arr) (a : addr) : list num :=
  match nth_error h a with Some (ANum l) => l | Some (AInt l) => map nZ l | _ => [] end.
Definition ints (h : list arr) (a : addr) : list Z := match nth_error h a with Some (AInt l) => l | _ => [] end.
Definition bools (h : list arr) (a : addr) : list bool := match nth_error h a with Some (ABool l) => l | _ => [] end.
Definition skies (h : list arr) (a : addr) : list (num * num) := match nth_error h a with Some (ASky l) => l | _ => [] end.
Definition dict_at (w : world) (p : nat) : dict := match nth_error (w_params w) p with Some q => p_dict q | None => [] end.
(** The object as in Source.v. *)
Definition view (w : world) (o : obj) : src :=
  let h := w_heap w in
  mkSrc (o_class o) (nums h (o_m_1 o)) (nums h (o_m_2 o)) (nums h (o_dist o)) (nums h (o_f_orb o)) (nums h (o_ecc o))
        (option_map (nums h) (o_weights o)) (option_map (skies h) (o_position o)) (option_map (nums h) (o_inclination o))
        (option_map (nums h) (o_polarisation o)) (option_map (nums h) (o_t_merge o)) (option_map (nums h) (o_snr o))
        (option_map (ints h) (o_max_snr_harmonic o)) (bools h (o_merged o)) (o_stat_tol o) (o_n_proc o) (o_harm o) (o_g o)
        (o_interpolate_sc o) (o_sc o) (dict_at w (o_params o)).
Definition contents (w : world) (i : nat) : option src := option_map (view w) (nth_error (w_objs w) i).

(** ** Steps on a world *)
Definition WM (A : Type) := world -> world * res A.
Definition wret {A} (a : A) : WM A := fun w => (w, Ok a).
Definition wlift {A} (r : res A) : WM A := fun w => (w, r).
Definition wbind {A B} (m : WM A) (f : A -> WM B) : WM B :=
  fun w => match m w with (w', Ok a) => f a w' | (w', Err e) => (w', Err e) end.
Declare Scope world_scope.
Delimit Scope world_scope with world.
Notation "x <== m ;; k" := (wbind m (fun x => k)) (at level 61, m at next level, right associativity) : world_scope.
Open Scope world_scope.
Fixpoint replace {A} (n : nat) (v : A) (l : list A) : list A :=
  match l, n with [], _ => [] | _ :: t, O => v :: t | a :: t, Datatypes.S n => a :: replace n v t end.
(** A new array. *)
Definition alloc (v : arr) : WM addr := fun w =>
  (mkWorld (w_heap w ++ [v]) (w_objs w) (w_params w), Ok (length (w_heap w))).
(** Writing into an array that exists. *)
Definition write (a : addr) (v : arr) : WM unit := fun w => (mkWorld (replace a v (w_heap w)) (w_objs w) (w_params w), Ok tt).
(** The object, its contents, and assigning attributes. *)
Definition get_obj (i : nat) : WM obj := fun w =>
  match nth_error (w_objs w) i with Some o => (w, Ok o) | None => (w, Err AttributeError) end.
Definition look (i : nat) : WM src := fun w =>
  match contents w i with Some s => (w, Ok s) | None => (w, Err AttributeError) end.
Definition assign (i : nat) (f : obj -> obj) : WM unit := fun w =>
  match nth_error (w_objs w) i with
  | Some o => (mkWorld (w_heap w) (replace i (f o) (w_objs w)) (w_params w), Ok tt)
  | None => (w, Err AttributeError)
  end.
Definition set_dict (p : nat) (d : dict) : WM unit := fun w =>
  match nth_error (w_params w) p with
  | Some q => (mkWorld (w_heap w) (w_objs w) (replace p (mkHandle d (p_source q)) (w_params w)), Ok tt)
  | None => (w, Err AttributeError)
  end.
Definition get_handle (p : nat) : WM handle := fun w =>
  match nth_error (w_params w) p with Some q => (w, Ok q) | None => (w, Err AttributeError) end.
Definition new_handle (q : handle) : WM nat := fun w =>
  (mkWorld (w_heap w) (w_objs w) (w_params w ++ [q]), Ok (length (w_params w))).

(** Attributes that are assigned. *)
Definition o_set_arrays (m1 m2 d f e : addr) (wt inc pol t snr msh : option addr) (mg : addr) (o : obj) : obj :=
  mkObj (o_class o) m1 m2 d f e wt (o_position o) inc pol t snr msh mg (o_stat_tol o) (o_n_proc o) (o_harm o) (o_g o)
        (o_interpolate_sc o) (o_sc o) (o_params o).
Definition o_set_f_orb (a : addr) (o : obj) : obj :=
  o_set_arrays (o_m_1 o) (o_m_2 o) (o_dist o) a (o_ecc o) (o_weights o) (o_inclination o) (o_polarisation o) (o_t_merge o) (o_snr o)
               (o_max_snr_harmonic o) (o_merged o) o.
Definition o_set_orbit (e f mg : addr) (o : obj) : obj :=
  o_set_arrays (o_m_1 o) (o_m_2 o) (o_dist o) f e (o_weights o) (o_inclination o) (o_polarisation o) (o_t_merge o) (o_snr o)
               (o_max_snr_harmonic o) mg o.
Definition o_set_t_merge (a : addr) (o : obj) : obj :=
  o_set_arrays (o_m_1 o) (o_m_2 o) (o_dist o) (o_f_orb o) (o_ecc o) (o_weights o) (o_inclination o) (o_polarisation o) (Some a) (o_snr o)
               (o_max_snr_harmonic o) (o_merged o) o.
Definition o_set_snr (a : addr) (o : obj) : obj :=
  o_set_arrays (o_m_1 o) (o_m_2 o) (o_dist o) (o_f_orb o) (o_ecc o) (o_weights o) (o_inclination o) (o_polarisation o) (o_t_merge o) (Some a)
               (o_max_snr_harmonic o) (o_merged o) o.
Definition o_set_max_snr_harmonic (a : addr) (o : obj) : obj :=
  o_set_arrays (o_m_1 o) (o_m_2 o) (o_dist o) (o_f_orb o) (o_ecc o) (o_weights o) (o_inclination o) (o_polarisation o) (o_t_merge o) (o_snr o)
               (Some a) (o_merged o) o.
Definition o_set_rest (h : harm) (g : option (Z -> num -> num)) (isc : bool) (sc : option (num -> num)) (p : nat) (o : obj) : obj :=
  mkObj (o_class o) (o_m_1 o) (o_m_2 o) (o_dist o) (o_f_orb o) (o_ecc o) (o_weights o) (o_position o) (o_inclination o) (o_polarisation o)
        (o_t_merge o) (o_snr o) (o_max_snr_harmonic o) (o_merged o) (o_stat_tol o) (o_n_proc o) h g isc sc p.
Definition o_set_sc (sc : option (num -> num)) (o : obj) : obj := o_set_rest (o_harm o) (o_g o) (o_interpolate_sc o) sc (o_params o) o.
Definition o_set_harm (h : harm) (o : obj) : obj := o_set_rest h (o_g o) (o_interpolate_sc o) (o_sc o) (o_params o) o.
Definition o_set_g (g : option (Z -> num -> num)) (o : obj) : obj := o_set_rest (o_harm o) g (o_interpolate_sc o) (o_sc o) (o_params o) o.
Definition o_set_isc (b : bool) (o : obj) : obj := o_set_rest (o_harm o) (o_g o) b (o_sc o) (o_params o) o.
Definition o_set_params (p : nat) (o : obj) : obj := o_set_rest (o_harm o) (o_g o) (o_interpolate_sc o) (o_sc o) p o.

(** ** Sensitivity curve parameters *)
(** L641-658, [set_sc]: from the object's own parameters. *)
Definition w_set_sc (x : ext) (i : nat) : WM unit :=
  s <== look i ;;
  if s_interpolate_sc s then c <== wlift (curve_of x (s_params s)) ;; assign i (o_set_sc (Some c)) else assign i (o_set_sc None).
(** L1560-1563, [_re_interpolate]. *)
Definition w_re_interpolate (x : ext) (p : nat) : WM unit :=
  q <== get_handle p ;; match p_source q with Some i => w_set_sc x i | None => wret tt end.
(** L1564-1569, [__setitem__]. *)
Definition w_setitem (x : ext) (p : nat) (k : string) (v : pval) : WM unit :=
  _ <== wlift (check_keys [k]) ;;
  q <== get_handle p ;;
  let changed := negb (peqb (get_or_none k (p_dict q)) v) in
  _ <== set_dict p (put k v (p_dict q)) ;;
  if changed then w_re_interpolate x p else wret tt.
(** L1571-1578, [update]. *)
Definition w_update (x : ext) (p : nat) (new : dict) : WM unit :=
  _ <== wlift (check_keys (keys new)) ;;
  q <== get_handle p ;;
  let changed := existsb (fun kv => negb (peqb (get_or_none (fst kv) (p_dict q)) (snd kv))) new in
  _ <== set_dict p (put_all new (p_dict q)) ;;
  if changed then w_re_interpolate x p else wret tt.
(** L1581-1583, [__copy__]. *)
Definition w_copy_handle (p : nat) : WM nat := q <== get_handle p ;; new_handle (mkHandle (p_dict q) (p_source q)).
(** L679-686, the setter of sc_params: a new SensitivityCurveParams. *)
Definition w_assign_params (x : ext) (i : nat) (new : dict) : WM unit :=
  new_params <== wlift (make_params new) ;;
  s <== look i ;;
  p <== new_handle (mkHandle new_params (Some i)) ;;
  let changed := negb (dict_eqb new_params (s_params s)) in
  _ <== assign i (o_set_params p) ;;
  if changed then w_set_sc x i else wret tt.
(** [sources.sc_params |= new]: dict.__ior__, then the setter. *)
Definition w_ior (x : ext) (i : nat) (new : dict) : WM unit :=
  o <== get_obj i ;;
  s <== look i ;;
  _ <== set_dict (o_params o) (put_all new (s_params s)) ;;
  s <== look i ;;
  w_assign_params x i (s_params s).
(** [sources.sc_params.setdefault(k, v)]. *)
Definition w_setdefault (i : nat) (k : string) (v : pval) : WM unit :=
  o <== get_obj i ;;
  s <== look i ;;
  match lookup k (s_params s) with Some _ => wret tt | None => set_dict (o_params o) (put k v (s_params s)) end.

(** ** Methods of one object *)
(** L506-511, the setter of [a]. *)
Definition w_a_setter (i : nat) (a : pyval num unit) : WM unit :=
  let go l := s <== look i ;; f <== wlift (get_f_arr l (s_m_1 s) (s_m_2 s)) ;; b <== alloc (ANum f) ;; assign i (o_set_f_orb b) in
  match a with PQArr l _ => go l | PQScalar v _ => go [v] | _ => wlift (Err AssertionError) end.
(** L610-618, the setter of gw_lum_tol. *)
Definition w_tolerance (x : ext) (i : nat) (tol : num) : WM unit :=
  s <== look i ;;
  match set_gw_lum_tol (x_jv x) (x_lum x) tol (s_harm s) with (h, r) => _ <== assign i (o_set_harm h) ;; wlift r end.
(** L1053-1055, L1180-1182: the array is made if there is none; then it is written into. *)
Definition w_store_harmonics (i : nat) (insp : list bool) (msh : list Z) : WM unit :=
  s <== look i ;;
  o <== get_obj i ;;
  m <== match o_max_snr_harmonic o with
        | Some m => wret m
        | None => m <== alloc (AInt (np_repeat 0%Z (n_sources s))) ;; _ <== assign i (o_set_max_snr_harmonic m) ;; wret m
        end ;;
  fun w => write m (AInt (scatter insp (select insp msh) (ints (w_heap w) m))) w.
(** L1057-1059, L1184-1186. *)
Definition w_store_snr (i : nat) (insp : list bool) (snr : list num) : WM unit :=
  s <== look i ;;
  o <== get_obj i ;;
  b <== match o_snr o with
        | Some b => wret b
        | None => b <== alloc (ANum (np_repeat (Fin 0) (n_sources s))) ;; _ <== assign i (o_set_snr b) ;; wret b
        end ;;
  fun w => write b (ANum (scatter insp (select insp snr) (nums (w_heap w) b))) w.
Definition w_record_snr (i : nat) (insp : list bool) (snr : list num) (msh : list Z) : WM unit :=
  _ <== w_store_harmonics i insp msh ;; w_store_snr i insp snr.
(** L939-1061 and L1063-1188; the array returned is new (L1061, L1188). *)
Definition w_snr_method (x : ext) (values : snr_args -> list bool -> src -> res (list num * list Z)) (a : snr_args)
           (which : option (list bool)) (i : nat) : WM (list num) :=
  s <== look i ;;
  let which := which_or_all which s in
  let a := resolve_args (fill_args a (s_params s)) in
  o <== get_obj i ;;
  _ <== w_update x (o_params o) (args_dict a) ;;
  s <== look i ;;
  insp <== wlift (logical_and which (map negb (s_merged s))) ;;
  v <== wlift (values a insp s) ;;
  _ <== w_record_snr i insp (fst v) (snd v) ;;
  wlift (take_mask which (fst v)).
Definition w_snr_stationary (x : ext) (a : snr_args) (which : option (list bool)) (i : nat) : WM (list num) :=
  w_snr_method x (stationary_values x) a which i.
Definition w_snr_evolving (x : ext) (a : snr_args) (n_step : nat) (which : option (list bool)) (i : nat) : WM (list num) :=
  w_snr_method x (fun a => evolving_values x a n_step) a which i.
(** L831-937, [get_snr]: the array [snr] is both stored and returned (L936-937). *)
Definition w_get_snr_source (x : ext) (a : snr_args) (n_step : nat) (which : option (list bool)) (i : nat) : WM addr :=
  s <== look i ;;
  let a := fill_args a (s_params s) in
  o <== get_obj i ;;
  _ <== w_update x (o_params o) (args_dict a) ;;
  s <== look i ;;
  let snr := np_repeat (Fin 0) (n_sources s) in
  let which := which_or_all which s in
  stat <== wlift (get_source_mask TriNone TriTrue (a_t_obs a) s) ;;
  stat_mask <== wlift (logical_and3 stat (map negb (s_merged s)) which) ;;
  evol <== wlift (get_source_mask TriNone TriFalse (a_t_obs a) s) ;;
  evol_mask <== wlift (logical_and3 evol (map negb (s_merged s)) which) ;;
  snr <== (if any stat_mask then
             v <== w_snr_stationary x a (Some stat_mask) i ;; wret (scatter stat_mask v snr)
           else wret snr) ;;
  snr <== (if any evol_mask then
             v <== w_snr_evolving x a n_step (Some evol_mask) i ;; wret (scatter evol_mask v snr)
           else wret snr) ;;
  b <== alloc (ANum snr) ;;
  _ <== assign i (o_set_snr b) ;;
  wret b.
(** [get_snr] of the object's class; L1598-1601 and L1610-1613: what the method returned is stored and returned. *)
Definition w_get_snr (x : ext) (a : snr_args) (n_step : nat) (which : option (list bool)) (i : nat) : WM addr :=
  s <== look i ;;
  match s_class s with
  | KStationary => v <== w_snr_stationary x (mkArgs (a_t_obs a) (a_instrument a) (a_custom a) PNil PNil PNil) None i ;;
                   b <== alloc (ANum v) ;; _ <== assign i (o_set_snr b) ;; wret b
  | KEvolving => v <== w_snr_evolving x (mkArgs (a_t_obs a) (a_instrument a) (a_custom a) PNil PNil PNil) n_step None i ;;
                 b <== alloc (ANum v) ;; _ <== assign i (o_set_snr b) ;; wret b
  | _ => w_get_snr_source x a n_step which i
  end.
(** L1190-1224, [get_merger_time]; the array returned is new (L1224). *)
Definition w_merger_time (x : ext) (save_in_class : bool) (which : option (list bool)) (exact : bool) (i : nat) : WM (list num) :=
  s <== look i ;;
  let which := if save_in_class then np_repeat true (n_sources s) else which_or_all which s in
  insp <== wlift (logical_and which (map negb (s_merged s))) ;;
  ecc <== wlift (take_mask insp (s_ecc s)) ;;
  t <== wlift (get_t_merge_ecc (x_quad x) ecc None (Some (select insp (s_f_orb s))) None
                 (Some (select insp (s_m_1 s))) (Some (select insp (s_m_2 s))) small_e_tol_default large_e_tol_default exact) ;;
  let t_merge := scatter insp t (np_repeat (Fin 0) (length which)) in
  _ <== (if save_in_class then b <== alloc (ANum t_merge) ;; assign i (o_set_t_merge b) else wret tt) ;;
  wlift (take_mask which t_merge).
(** L1246-1248. *)
Definition w_ensure_t_merge (x : ext) (i : nat) : WM (list num) :=
  s <== look i ;;
  match s_t_merge s with
  | Some t => wret t
  | None => _ <== w_merger_time x true None true i ;;
            s <== look i ;;
            match s_t_merge s with Some t => wret t | None => wlift (Err TypeError) end
  end.
(** L1226-1318, [evolve_sources] with create_new_class=False. *)
Definition w_evolve (x : ext) (t_evol : tevol) (i : nat) : WM unit :=
  t_merge <== w_ensure_t_merge x i ;;
  s <== look i ;;
  v <== wlift (evolved x t_evol t_merge s) ;;
  let '(merged, ecc, f) := v in
  e <== alloc (ANum ecc) ;;
  fo <== alloc (ANum f) ;;
  mg <== alloc (ABool merged) ;;
  _ <== assign i (o_set_orbit e fo mg) ;;
  times <== wlift (times_of t_evol (n_sources s)) ;;
  left <== wlift (remaining t_merge times) ;;
  b <== alloc (ANum left) ;;
  assign i (o_set_t_merge b).

(** ** New objects *)
(** The arrays of a new object that were there before; all others are made. *)
Record shared := mkShared { h_m_1 : option addr; h_m_2 : option addr; h_dist : option addr; h_f_orb : option addr; h_ecc : option addr;
                            h_weights : option addr; h_inclination : option addr; h_polarisation : option addr }.
Definition nothing_shared : shared := mkShared None None None None None None None None.
Definition place (a : option addr) (v : arr) : WM addr := match a with Some a => wret a | None => alloc v end.
Definition place_opt (a : option addr) (v : option arr) : WM (option addr) :=
  match v with None => wret None | Some v => b <== place a v ;; wret (Some b) end.
(** A new object with these contents; its parameters belong to it (L680, L293). *)
Definition build (h : shared) (s : src) : WM nat :=
  m1 <== place (h_m_1 h) (ANum (s_m_1 s)) ;;
  m2 <== place (h_m_2 h) (ANum (s_m_2 s)) ;;
  d <== place (h_dist h) (ANum (s_dist s)) ;;
  f <== place (h_f_orb h) (ANum (s_f_orb s)) ;;
  e <== place (h_ecc h) (ANum (s_ecc s)) ;;
  wt <== place_opt (h_weights h) (option_map ANum (s_weights s)) ;;
  pos <== place_opt None (option_map ASky (s_position s)) ;;
  inc <== place_opt (h_inclination h) (option_map ANum (s_inclination s)) ;;
  pol <== place_opt (h_polarisation h) (option_map ANum (s_polarisation s)) ;;
  t <== place_opt None (option_map ANum (s_t_merge s)) ;;
  snr <== place_opt None (option_map ANum (s_snr s)) ;;
  msh <== place_opt None (option_map AInt (s_max_snr_harmonic s)) ;;
  mg <== place None (ABool (s_merged s)) ;;
  fun w =>
    let i := length (w_objs w) in
    let p := length (w_params w) in
    (mkWorld (w_heap w)
       (w_objs w ++ [mkObj (s_class s) m1 m2 d f e wt pos inc pol t snr msh mg (s_stat_tol s) (s_n_proc s) (s_harm s) (s_g s)
                           (s_interpolate_sc s) (s_sc s) p])
       (w_params w ++ [mkHandle (s_params s) (Some i)]), Ok i).
(** L238-296, [__getitem__]: indexing by an array of integers or a mask makes new arrays; slices are turned into such an
    array (L263). *)
Definition w_getitem (ind : index) (i : nat) : WM nat :=
  s <== look i ;; new <== wlift (getitem ind s) ;; build nothing_shared new.
(** Arguments of the constructor: an array that exists (with units or not), or any other value. *)
Inductive arg := At (units : bool) (a : addr) | Val (v : pyval num unit).
Definition value_of_arg (h : list arr) (g : arg) : pyval num unit :=
  match g with At true a => PQArr (nums h a) tt | At false a => PArr (nums h a) | Val v => v end.
Definition addr_of_arg (g : arg) : option addr := match g with At _ a => Some a | Val _ => None end.
Definition angles_of_arg (h : list arr) (g : option (addr + list num)) : option (list num) :=
  option_map (fun v => match v with inl a => nums h a | inr l => l end) g.
Definition addr_of_angles (g : option (addr + list num)) : option addr := match g with Some (inl a) => Some a | _ => None end.
Record new_args := mkNew {
  n_m_1 : arg; n_m_2 : arg; n_ecc : arg; n_dist : arg; n_n_proc : nat; n_f_orb : arg; n_a : arg; n_position : option (list (num * num));
  n_polarisation : option (addr + list num); n_inclination : option (addr + list num); n_weights : arg;
  n_gw_lum_tol : num; n_stat_tol : num; n_interpolate_g : bool; n_interpolate_sc : bool; n_sc_params : dict }.
Definition read_args (h : list arr) (g : new_args) : init_args :=
  let v := value_of_arg h in
  mkInit (v (n_m_1 g)) (v (n_m_2 g)) (v (n_ecc g)) (v (n_dist g)) (n_n_proc g) (v (n_f_orb g)) (v (n_a g)) (n_position g)
         (angles_of_arg h (n_polarisation g)) (angles_of_arg h (n_inclination g)) (v (n_weights g)) (n_gw_lum_tol g) (n_stat_tol g)
         (n_interpolate_g g) (n_interpolate_sc g) (n_sc_params g).
(** L136-230, [__init__]: ensure_array (utils.py L268-312) and np.atleast_1d keep arrays; SkyCoord copies (L174). *)
Definition w_new (x : ext) (k : klass) (g : new_args) : WM nat := fun w =>
  (s <== wlift (init x k (read_args (w_heap w) g)) ;;
   build (mkShared (addr_of_arg (n_m_1 g)) (addr_of_arg (n_m_2 g)) (addr_of_arg (n_dist g)) (addr_of_arg (n_f_orb g)) (addr_of_arg (n_ecc g))
                   (addr_of_arg (n_weights g)) (addr_of_angles (n_inclination g)) (addr_of_angles (n_polarisation g))) s) w.
(** L1226-1311, [evolve_sources] with create_new_class=True: self's masses, distances, polarisations and inclinations are
    handed to the constructor. *)
Definition w_evolve_new (x : ext) (t_evol : tevol) (i : nat) : WM nat :=
  _ <== w_ensure_t_merge x i ;;
  s <== look i ;;
  o <== get_obj i ;;
  new <== wlift (snd (evolve_new x t_evol s)) ;;
  build (mkShared (Some (o_m_1 o)) (Some (o_m_2 o)) (Some (o_dist o)) None None None (o_inclination o) (o_polarisation o)) new.

(** ** Events *)
(** Attributes a user may assign an array to, [sources.m_1 = array]. *)
Inductive attr := M1 | M2 | Dist | FOrb | Ecc | Weights | Inclination | Polarisation | TMerge.
Definition o_set_attr (t : attr) (a : addr) (o : obj) : obj :=
  let is u := match t, u with
              | M1, M1 | M2, M2 | Dist, Dist | FOrb, FOrb | Ecc, Ecc | Weights, Weights | Inclination, Inclination
              | Polarisation, Polarisation | TMerge, TMerge => true | _, _ => false end in
  let one u v := if is u then a else v in
  let opt u v := if is u then Some a else v in
  o_set_arrays (one M1 (o_m_1 o)) (one M2 (o_m_2 o)) (one Dist (o_dist o)) (one FOrb (o_f_orb o)) (one Ecc (o_ecc o))
               (opt Weights (o_weights o)) (opt Inclination (o_inclination o)) (opt Polarisation (o_polarisation o))
               (opt TMerge (o_t_merge o)) (o_snr o) (o_max_snr_harmonic o) (o_merged o) o.
(** An entry of an array. *)
Inductive cell := CNum (v : num) | CInt (z : Z) | CBool (b : bool).
Definition put_cell (k : nat) (c : cell) (v : arr) : arr :=
  match v, c with
  | ANum l, CNum y => ANum (replace k y l)
  | AInt l, CInt z => AInt (replace k z l)
  | ABool l, CBool b => ABool (replace k b l)
  | _, _ => v
  end.
Inductive event :=
| UserArray (l : list num)                        (* array = np.array(l) *)
| UserWrite (a : addr) (k : nat) (c : cell)       (* array[k] = c *)
| New (k : klass) (g : new_args)                  (* Source(...) *)
| Get (i : nat) (ind : index)                     (* sources[ind], sources.copy() *)
| EvolveNew (i : nat) (t : tevol)                 (* sources.evolve_sources(t, create_new_class=True) *)
| Do (i : nat) (o : op)                           (* any other method or assignment, see History.v *)
| AssignArray (i : nat) (t : attr) (a : addr)     (* sources.m_1 = array *)
| HandleSet (p : nat) (k : string) (v : pval)     (* params[k] = v, for params = sources.sc_params kept in a variable *)
| HandleUpdate (p : nat) (new : dict)             (* params.update(new) *)
| HandleCopy (p : nat).                           (* copy(params) *)
(** What is returned: nothing, an array, an object, parameters. *)
Inductive out := Nothing | Array (a : addr) | Collection (i : nat) | Params (p : nat).
Definition done (m : WM unit) : WM out := _ <== m ;; wret Nothing.
Definition fresh_array (m : WM (list num)) : WM out := v <== m ;; b <== alloc (ANum v) ;; wret (Array b).
Definition w_do (x : ext) (i : nat) (o : op) : WM out :=
  match o with
  | SetItem k v => o <== get_obj i ;; done (w_setitem x (o_params o) k v)
  | Update new => o <== get_obj i ;; done (w_update x (o_params o) new)
  | Assign new => done (w_assign_params x i new)
  | Ior new => done (w_ior x i new)
  | SetDefault k v => done (w_setdefault i k v)
  | Remove => wlift (Err TypeError)
  | Toggle b => done (assign i (o_set_isc b))
  | SetSc => done (w_set_sc x i)
  | SetG b => done (assign i (o_set_g (if b then Some (x_g x) else None)))
  | Tolerance tol => done (w_tolerance x i tol)
  | SetA a => done (w_a_setter i a)
  | Snr a n which => b <== w_get_snr x a n which i ;; wret (Array b)
  | SnrStationary a which => fresh_array (w_snr_stationary x a which i)
  | SnrEvolving a n which => fresh_array (w_snr_evolving x a n which i)
  | MergerTime save which exact => fresh_array (w_merger_time x save which exact i)
  | Evolve t => done (w_evolve x t i)
  end.
Definition w_step (x : ext) (e : event) : WM out :=
  match e with
  | UserArray l => b <== alloc (ANum l) ;; wret (Array b)
  | UserWrite a k c => done (fun w => match nth_error (w_heap w) a with Some v => write a (put_cell k c v) w | None => (w, Ok tt) end)
  | New k g => i <== w_new x k g ;; wret (Collection i)
  | Get i ind => j <== w_getitem ind i ;; wret (Collection j)
  | EvolveNew i t => j <== w_evolve_new x t i ;; wret (Collection j)
  | Do i o => w_do x i o
  | AssignArray i t a => done (assign i (o_set_attr t a))
  | HandleSet p k v => done (w_setitem x p k v)
  | HandleUpdate p new => done (w_update x p new)
  | HandleCopy p => q <== w_copy_handle p ;; wret (Params q)
  end.
Fixpoint w_run (x : ext) (es : list event) (w : world) : world :=
  match es with [] => w | e :: es => w_run x es (fst (w_step x e w)) end.
