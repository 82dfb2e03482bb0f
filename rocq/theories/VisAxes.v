(** VisAxes.v -- a second model of the plotting functions (visualisation.py L44-511 and Source.plot_source_variables), about what
    Vis.v leaves out: the units of the axes, labels, limits, scales, keyword arguments and plt.show.

    Arrays carry one unit, as in astropy.  A pair of axes is a picture; matplotlib, seaborn and the noise curve are parameters.
    Left out: colours and line styles of the sensitivity curve, legends, tick sizes and the style (Style.v). *)
From Coq Require Import String Reals ZArith List Bool.
From Verif Require Import Num Np Utils Strain Evol Interp Source Units.
Import ListNotations.
Open Scope string_scope.
Open Scope list_scope.
Open Scope num_scope.

(** An array of numbers, or a Quantity. *)
Record qarr := mkArr { nums : list num; in_u : option unit_ }.
(** Values of keyword arguments. *)
Inductive obj := ONone | ONum (v : num) | OBool (b : bool) | OStr (s : string) | OArr (l : list num) | OPair (a b : bool) | OOther (i : nat).
(** Keyword arguments, in order; the keys differ. *)
Definition kw := list (string * obj).
Fixpoint get_kw (k : string) (d : kw) : option obj :=
  match d with [] => None | (k', v) :: t => if String.eqb k k' then Some v else get_kw k t end.
(** [d[k] = v] *)
Fixpoint set_kw (k : string) (v : obj) (d : kw) : kw :=
  match d with [] => [(k, v)] | (k', v') :: t => if String.eqb k k' then (k, v) :: t else (k', v') :: set_kw k v t end.
(** [for key, value in kwargs.items(): plot_args[key] = value] *)
Definition update_kw (kwargs plot_args : kw) : kw := fold_left (fun d kv => set_kw (fst kv) (snd kv) d) kwargs plot_args.
(** [f(k1=v1, ..., **extra)]: TypeError if a keyword is given twice. *)
Definition call (explicit extra : kw) : res kw :=
  if existsb (fun kv => match get_kw (fst kv) explicit with Some _ => true | None => false end) extra then Err TypeError
  else Ok (explicit ++ extra).

(** What is drawn: the function of matplotlib or seaborn, the numbers on the axes (None: computed by the library), the keywords. *)
Record shape := mkShape { kind : string; on_x : list num; on_y : option (list num); options : kw }.
(** An axis: the unit it counts in (set by the first Quantity drawn), the scale, label and limits set. *)
Record axis := mkAxis { unit_on : option unit_; log_axis : bool; label : option string; limits : option (num * num) }.
Record picture := mkPicture { x_axis : axis; y_axis : axis; shapes : list shape }.
(** The picture being drawn and those that plt.show showed. *)
Record screen := mkScreen { now : picture; shown : list picture }.
Definition blank_axis : axis := mkAxis None false None None.
Definition blank : picture := mkPicture blank_axis blank_axis [].

Definition P (A : Type) := screen -> screen * res A.
Definition pret {A} (a : A) : P A := fun s => (s, Ok a).
Definition plift {A} (r : res A) : P A := fun s => (s, r).
Definition pbind {A B} (m : P A) (k : A -> P B) : P B :=
  fun s => let r := m s in match snd r with Ok a => k a (fst r) | Err e => (fst r, Err e) end.
Declare Scope p_scope.
Delimit Scope p_scope with p.
Notation "x <-- m ;; k" := (pbind m (fun x => k)) (at level 100, m at next level, right associativity) : p_scope.
Open Scope p_scope.
Definition change (f : picture -> picture) : P unit := fun s => (mkScreen (f (now s)) (shown s), Ok tt).
Definition on_x_axis (f : axis -> axis) : P unit := change (fun p => mkPicture (f (x_axis p)) (y_axis p) (shapes p)).
Definition on_y_axis (f : axis -> axis) : P unit := change (fun p => mkPicture (x_axis p) (f (y_axis p)) (shapes p)).
Definition with_unit_on (u : unit_) (a : axis) : axis := mkAxis (Some u) (log_axis a) (label a) (limits a).
Definition with_log (a : axis) : axis := mkAxis (unit_on a) true (label a) (limits a).
Definition with_label (l : string) (a : axis) : axis := mkAxis (unit_on a) (log_axis a) (Some l) (limits a).
Definition with_limits (l : num * num) (a : axis) : axis := mkAxis (unit_on a) (log_axis a) (label a) (Some l).
(** plt.show() *)
Definition show_plot (b : bool) : P unit := if b then fun s => (mkScreen (now s) (shown s ++ [now s]), Ok tt) else pret tt.
Definition put (sh : shape) : P unit := change (fun p => mkPicture (x_axis p) (y_axis p) (shapes p ++ [sh])).

(** An array on an axis with quantity_support: the first Quantity sets the unit of the axis, later ones are converted to it; plain
    numbers are taken as they are. *)
Definition onto (a : axis) (v : qarr) : res (axis * list num) :=
  match in_u v, unit_on a with
  | None, _ => Ok (a, nums v)
  | Some u, None => Ok (with_unit_on u a, nums v)
  | Some u, Some w => if dim_eqb (u_dim u) (u_dim w) then Ok (a, map (fun n => n * Fin (u_size u / u_size w)) (nums v)) else Err UnitError
  end.

Section Plots.
(** What the libraries refuse (unknown keywords, arrays of different lengths, ...). *)
Variable lib : shape -> res unit.
(** The limits of an axis that matplotlib chose by itself. *)
Variable auto_limits : picture -> num * num.
(** power_spectral_density with the settings of the call. *)
Variable psd : qarr -> res qarr.
(** ["{:latex}".format(unit)] *)
Variable tex : unit_ -> string.

(** A function of matplotlib with data on the x axis, or on both. *)
Definition ax_draw (f : string) (x : qarr) (y : option qarr) (explicit extra : kw) : P unit :=
  k <-- plift (call explicit extra) ;;
  fun s =>
  match onto (x_axis (now s)) x with
  | Err e => (s, Err e)
  | Ok (ax, xs) =>
      match match y with None => Ok (y_axis (now s), None) | Some y => (r <- onto (y_axis (now s)) y ;; Ok (fst r, Some (snd r)))%res end with
      | Err e => (s, Err e)
      | Ok (ay, ys) =>
          let sh := mkShape f xs ys k in
          match lib sh with
          | Err e => (s, Err e)
          | Ok _ => (mkScreen (mkPicture ax ay (shapes (now s) ++ [sh])) (shown s), Ok tt)
          end
      end
  end.
(** A function of seaborn: it draws the numbers in their own unit and makes the axes logarithmic if asked (labels that seaborn sets by itself
    are left out). *)
Definition sns_draw (f : string) (x : qarr) (y : option qarr) (explicit extra : kw) (log_x log_y : bool) : P unit :=
  k <-- plift (call explicit extra) ;;
  let sh := mkShape f (nums x) (option_map nums y) k in
  _ <-- plift (lib sh) ;;
  _ <-- (if log_x then on_x_axis with_log else pret tt) ;;
  _ <-- (if log_y then on_y_axis with_log else pret tt) ;;
  put sh.

(** [if v is not None: set(v)] *)
Definition if_given {A} (v : option A) (set : A -> P unit) : P unit := match v with None => pret tt | Some a => set a end.
Definition set_xlabel (l : string) : P unit := on_x_axis (with_label l).
Definition set_ylabel (l : string) : P unit := on_y_axis (with_label l).
Definition set_xlim (l : num * num) : P unit := on_x_axis (with_limits l).
Definition set_ylim (l : num * num) : P unit := on_y_axis (with_limits l).

(** log_scale: a bool or a pair of them. *)
Inductive log_arg := LBool (b : bool) | LPair (a b : bool).
Definition log_pair (l : log_arg) : bool * bool := match l with LBool b => (b, b) | LPair a b => (a, b) end.
(** [if log_scale]: a pair is true. *)
Definition log_truth (l : log_arg) : bool := match l with LBool b => b | LPair _ _ => true end.
Definition log_obj (l : log_arg) : obj := match l with LBool b => OBool b | LPair a b => OPair a b end.
Definition weights_obj (w : option (list num)) : obj := match w with None => ONone | Some l => OArr l end.

(** The named arguments of plot_1D_dist and plot_2D_dist that they share, after the data. *)
Record look := mkLook { l_show : bool; l_xlabel : option string; l_ylabel : option string; l_xlim : option (num * num); l_ylim : option (num * num);
  l_color : obj }.
Definition default_look : look := mkLook true None None None None ONone.

(** L118-128, L255-262: the defaults. *)
Definition defaults_1D (disttype : string) : kw :=
  if String.eqb disttype "hist" then [("bins", OStr "fd"); ("density", OBool true)]
  else if String.eqb disttype "kde" then [("gridsize", ONum (Fin 200)); ("legend", OBool true)]
  else [("stat", OStr "proportion"); ("legend", OBool true)].
Definition defaults_2D (disttype : string) : kw :=
  if String.eqb disttype "scatter" then []
  else [("gridsize", ONum (Fin 200)); ("legend", OBool true); ("levels", ONum (Fin 10)); ("thresh", ONum (Fin (2 / 100)))].

(** visualisation.py L44-170, [plot_1D_dist]. *)
Definition plot_1D_dist (x : qarr) (weights : option (list num)) (disttype : string) (log_scale : log_arg) (l : look) (kwargs : kw) : P unit :=
  let plot_args := update_kw kwargs (defaults_1D disttype) in
  let given := [("weights", weights_obj weights); ("color", l_color l)] in
  _ <-- (if String.eqb disttype "hist" then
           ax_draw "hist" (if log_truth log_scale then mkArr (map nlog10 (nums x)) None else x) None given plot_args
         else if String.eqb disttype "kde" then
           sns_draw "kdeplot" x None (given ++ [("log_scale", log_obj log_scale)]) plot_args (fst (log_pair log_scale)) false
         else if String.eqb disttype "ecdf" then
           sns_draw "ecdfplot" x None (given ++ [("log_scale", log_obj log_scale)]) plot_args (fst (log_pair log_scale)) false
         else pret tt) ;;
  _ <-- if_given (l_xlabel l) set_xlabel ;;
  _ <-- if_given (l_ylabel l) set_ylabel ;;
  _ <-- if_given (l_xlim l) (fun v => if String.eqb disttype "hist" && log_truth log_scale then set_xlim (nlog10 (fst v), nlog10 (snd v)) else set_xlim v) ;;
  _ <-- if_given (l_ylim l) set_ylim ;;
  show_plot (l_show l).

(** visualisation.py L173-302, [plot_2D_dist]. *)
Definition plot_2D_dist (x y : qarr) (weights : option (list num)) (disttype : string) (log_scale : log_arg) (scatter_s : num) (l : look) (kwargs : kw)
  : P unit :=
  let log := log_pair log_scale in
  let plot_args := update_kw kwargs (defaults_2D disttype) in
  _ <-- (if String.eqb disttype "scatter" then
           let s := match weights with None => ONum scatter_s | Some w => OArr (map (fun v => v * scatter_s) w) end in
           _ <-- ax_draw "scatter" x (Some y) [("s", s); ("color", l_color l)] plot_args ;;
           _ <-- (if fst log then on_x_axis with_log else pret tt) ;;
           if snd log then on_y_axis with_log else pret tt
         else if String.eqb disttype "kde" then
           sns_draw "kdeplot" x (Some y) [("weights", weights_obj weights); ("color", l_color l); ("log_scale", OPair (fst log) (snd log))] plot_args
             (fst log) (snd log)
         else pret tt) ;;
  _ <-- if_given (l_xlabel l) set_xlabel ;;
  _ <-- if_given (l_ylabel l) set_ylabel ;;
  _ <-- if_given (l_xlim l) set_xlim ;;
  _ <-- if_given (l_ylim l) set_ylim ;;
  show_plot (l_show l).

(** Square root and product of arrays with units. *)
Definition qsqrt (v : qarr) : qarr := mkArr (map nsqrt (nums v)) (option_map (fun u => upow u (1 / 2)) (in_u v)).
Definition qmul (v w : qarr) : res qarr :=
  (l <- bzip nmul (nums v) (nums w) ;;
   Ok (mkArr l (match in_u v, in_u w with Some a, Some b => Some (umul a b) | Some a, None => Some a | None, o => o end)))%res.
(** np.min and np.max: ValueError on an empty array. *)
Definition min_max (l : list num) : res (num * num) :=
  match l with [] => Err ValueError | a :: t => Ok (fold_left nmin t a, fold_left nmax t a) end.
(** L359-360: the frequencies from 1e-5 to 1 Hz. *)
Definition default_frequencies : qarr := mkArr (map Fin (logspace (-5) 0 (Z.to_nat 1000))) (Some hertz).
Definition label_frequency : string := "Frequency [$\rm Hz$]".
Definition label_asd : string := "ASD $[\rm Hz^{-1/2}]$".
Definition label_strain : string := "Characteristic Strain".

(** visualisation.py L305-399, [plot_sensitivity_curve]; np.min(f).value (L394) raises AttributeError for plain numbers. *)
Definition plot_sensitivity_curve (frequency_range : option qarr) (y_quantity : string) (show fill : bool) : P unit :=
  let f := match frequency_range with Some f => f | None => default_frequencies end in
  PSD <-- plift (psd f) ;;
  noise <-- plift (if String.eqb y_quantity "ASD" then Ok (qsqrt PSD)
                   else if String.eqb y_quantity "h_c" then (p <- qmul f PSD ;; Ok (qsqrt p))%res
                   else Err ValueError) ;;
  _ <-- ax_draw "loglog" f (Some noise) [] [] ;;
  _ <-- on_x_axis with_log ;;
  _ <-- on_y_axis with_log ;;
  _ <-- (if fill then ax_draw "fill_between" f (Some noise) [] [] else pret tt) ;;
  _ <-- set_xlabel label_frequency ;;
  _ <-- set_ylabel (if String.eqb y_quantity "ASD" then label_asd else label_strain) ;;
  m <-- plift (min_max (nums f)) ;;
  _ <-- plift (match in_u f with None => Err AttributeError | Some _ => Ok tt end) ;;
  _ <-- set_xlim m ;;
  show_plot show.

(** [a[mask]] *)
Definition pick (mask : list bool) (v : qarr) : res qarr := (l <- take_mask mask (nums v) ;; Ok (mkArr l (in_u v)))%res.
(** [v.to(unit)] *)
Definition qto (w : unit_) (v : qarr) : res qarr :=
  match in_u v with
  | None => Err AttributeError
  | Some u => if dim_eqb (u_dim u) (u_dim w) then Ok (mkArr (map (fun n => n * Fin (u_size u / u_size w)) (nums v)) (Some w)) else Err UnitError
  end.
(** The sensitivity curve is drawn first if the axes are new ([curve]: its frequency_range and fill); [y_quantity]: the entry of
    sc_vis_settings. *)
Inductive on := OnNew (frequency_range : option qarr) (fill : bool) | OnSupplied.

(** visualisation.py L402-511, [plot_sources_on_sc]. *)
Definition plot_sources_on_sc (f_dom : qarr) (snr : list num) (weights : option (list num)) (snr_cutoff : num) (y_quantity : option string) (o : on)
           (disttype : string) (log_scale : log_arg) (scatter_s : num) (l : look) (kwargs : kw) : P unit :=
  _ <-- match o with
        | OnSupplied => pret tt
        | OnNew r fill => plot_sensitivity_curve r (match y_quantity with Some q => q | None => "ASD" end) false fill
        end ;;
  let detectable := map (fun r => ngt r snr_cutoff) snr in
  if negb (any detectable) then pret tt
  else
    f <-- plift (pick detectable f_dom) ;;
    PSD <-- plift (psd f) ;;
    sqrt_psd <-- plift (qto (upow hertz (- (1 / 2))) (qsqrt PSD)) ;;
    asd <-- plift (qmul (mkArr (select detectable snr) None) sqrt_psd) ;;
    h_c <-- plift (qmul asd (qsqrt f)) ;;
    let use_h_c := match y_quantity with Some q => String.eqb q "h_c" | None => false end in
    ylims <-- (fun s => (s, Ok (match limits (y_axis (now s)) with Some v => v | None => auto_limits (now s) end))) ;;
    weights <-- plift (match weights with None => Ok None | Some w => (r <- take_mask detectable w ;; Ok (Some r))%res end) ;;
    _ <-- plot_2D_dist f (if use_h_c then h_c else asd) weights disttype log_scale scatter_s
            (mkLook false (l_xlabel l) (l_ylabel l) (l_xlim l) (l_ylim l) (l_color l)) kwargs ;;
    _ <-- set_ylim ylims ;;
    show_plot (l_show l).

(** The variables of a collection as its user sees them, with their units. *)
Record pop := mkPop { p_m_1 : qarr; p_m_2 : qarr; p_m_c : qarr; p_ecc : list num; p_dist : qarr; p_f_orb : qarr; p_a : qarr;
  p_snr : option (list num); p_weights : option (list num); p_merged : list bool }.
(** source.py L1360-1363. *)
Definition convert (c : pop) : list (string * option qarr) :=
  [("m_1", Some (p_m_1 c)); ("m_2", Some (p_m_2 c)); ("m_c", Some (p_m_c c)); ("ecc", Some (mkArr (p_ecc c) (Some one_)));
   ("dist", Some (p_dist c)); ("f_orb", Some (p_f_orb c)); ("f_GW", Some (mkArr (map (fun f => f * #2) (nums (p_f_orb c))) (in_u (p_f_orb c))));
   ("a", Some (p_a c)); ("snr", option_map (fun l => mkArr l (Some one_)) (p_snr c))].
(** L1364-1370. *)
Definition labels : list (string * string) :=
  [("m_1", "Primary Mass"); ("m_2", "Secondary Mass"); ("m_c", "Chirp Mass"); ("ecc", "Eccentricity"); ("dist", "Distance");
   ("f_orb", "Orbital Frequency"); ("f_GW", "Gravitational Wave Frequency"); ("a", "Semi-major axis"); ("snr", "Signal-to-noise Ratio")].
Definition latex_labels : list (string * string) :=
  [("m_1", "$m_1$"); ("m_2", "$m_2$"); ("m_c", "$\mathcal{M}_c$"); ("ecc", "$e$"); ("dist", "$D$"); ("f_orb", "$f_{\rm orb}$");
   ("f_GW", "$f_{\rm GW}$"); ("a", "$a$"); ("snr", "$\rho$")].
Definition unitless (k : string) : bool := String.eqb k "ecc" || String.eqb k "snr".
Fixpoint entry {A} (k : string) (l : list (string * A)) : option A :=
  match l with [] => None | (k', v) :: t => if String.eqb k k' then Some v else entry k t end.
Definition text (k : string) (l : list (string * string)) : string := match entry k l with Some s => s | None => "" end.
(** [x.unit]: AttributeError for plain numbers. *)
Definition unit_text (v : qarr) : res string := match in_u v with Some u => Ok (tex u) | None => Err AttributeError end.

(** source.py L1399-1413, the x label; [disttype = None]: not given. *)
Definition x_label (xstr : string) (ystr : option string) (x : qarr) (log : bool) (disttype : option string) : res string :=
  let hist := String.eqb (match disttype with Some d => d | None => "hist" end) "hist" in
  if (log && hist && match ystr with None => true | Some _ => false end)%bool then
    if unitless xstr then Ok (text xstr labels ++ ", $\log_{10} ($" ++ text xstr latex_labels ++ ")")%string
    else (u <- unit_text x ;; Ok (text xstr labels ++ ", $\log_{10} ($" ++ text xstr latex_labels ++ " / " ++ u ++ ")")%string)%res
  else
    if unitless xstr then Ok (text xstr labels ++ ", " ++ text xstr latex_labels)%string
    else (u <- unit_text x ;; Ok (text xstr labels ++ ", " ++ text xstr latex_labels ++ " [" ++ u ++ "]")%string)%res.
(** L1415-1425, the y label of two variables and of one. *)
Definition y_label (ystr : string) (y : qarr) : res string :=
  if unitless ystr then Ok (text ystr labels ++ ", " ++ text ystr latex_labels)%string
  else (u <- unit_text y ;; Ok (text ystr labels ++ ", " ++ text ystr latex_labels ++ " [" ++ u ++ "]")%string)%res.
Definition count_label (xstr : string) (log : bool) : string :=
  if log then ("$\mathrm{d}N/\mathrm{d}(\log_{10}($" ++ text xstr latex_labels ++ "))")%string
  else ("$\mathrm{d}N/\mathrm{d}$" ++ text xstr latex_labels)%string.

(** source.py L1320-1434, [plot_source_variables]. *)
Definition plot_source_variables (c : pop) (xstr ystr : option string) (which : option (list bool)) (exclude_merged : bool) (log_scale : log_arg)
           (disttype : option string) (scatter_s : num) (l : look) (kwargs : kw) : P unit :=
  let which := match which with Some m => m | None => repeat true (length (p_merged c)) end in
  which <-- plift (if exclude_merged then bzip andb which (map negb (p_merged c)) else Ok which) ;;
  let valid k := match k with None => true | Some k => match entry k (convert c) with None => false | Some _ => true end end in
  if negb (valid xstr && valid ystr) then plift (Err ValueError)
  else
    xx <-- plift (match xstr with
                  | None => Err KeyError
                  | Some k => match entry k (convert c) with Some (Some v) => Ok (k, v) | _ => Err ValueError end
                  end) ;;
    y <-- plift (match ystr with
                 | None => Ok None
                 | Some k => match entry k (convert c) with Some (Some v) => Ok (Some (k, v)) | _ => Err ValueError end
                 end) ;;
    let x := snd xx in
    let log := fst (log_pair log_scale) in
    xlabel <-- plift (match l_xlabel l with Some s => Ok s | None => x_label (fst xx) ystr x log disttype end) ;;
    ylabel <-- plift (match l_ylabel l with
                      | Some s => Ok s
                      | None => match y with Some (k, v) => y_label k v | None => Ok (count_label (fst xx) log) end
                      end) ;;
    weights <-- plift (match p_weights c with None => Ok None | Some w => (r <- take_mask which w ;; Ok (Some r))%res end) ;;
    x <-- plift (pick which x) ;;
    let l := mkLook (l_show l) (Some xlabel) (Some ylabel) (l_xlim l) (l_ylim l) (l_color l) in
    match y with
    | Some (_, v) => y <-- plift (pick which v) ;;
                     plot_2D_dist x y weights (match disttype with Some d => d | None => "scatter" end) log_scale scatter_s l kwargs
    | None => plot_1D_dist x weights (match disttype with Some d => d | None => "hist" end) log_scale l kwargs
    end.
End Plots.
