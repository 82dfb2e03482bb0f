(** Vis.v -- model of the plotting functions: src/legwork/visualisation.py and the plotting methods of the Source class
    (source.py L1320-1515), as the marks they put on a pair of axes and the messages they log.

    Axis labels, limits and scales, colours, legends and plt.show are not represented; the style is in Style.v. *)
From Coq Require Import String Reals ZArith List Bool.
From Verif Require Import Num Np Utils Strain Psd Snr Interp Evol Harmonics ScParams Source.
Import ListNotations.
Open Scope num_scope.
Open Scope res_scope.
Open Scope string_scope.

(** The messages of the plotting functions. *)
Inductive report := NoBinaries | NoSnr | CircularEvolving (n : nat) | EccentricEvolving (n : nat).
(** The size of the points: one for all or one each. *)
Inductive sizes := One (v : num) | Each (l : list num).
(** What is drawn: ax.loglog, ax.fill_between (from 0), ax.scatter, sns.kdeplot with two variables, ax.hist, sns.kdeplot
    with one variable, sns.ecdfplot; and what is logged. *)
Inductive mark := Line (f amp : list num) | Filled (f amp : list num) | Scatter (x y : list num) (size : sizes)
  | Density2 (x y : list num) (w : option (list num)) | Hist (x : list num) (w : option (list num))
  | Density (log : bool) (x : list num) (w : option (list num)) | Ecdf (log : bool) (x : list num) (w : option (list num))
  | Logged (r : report).
(** Drawing: the marks made before it returned or raised. *)
Definition W (A : Type) := (list mark * res A)%type.
Definition wret {A} (a : A) : W A := ([], Ok a).
Definition wlift {A} (r : res A) : W A := ([], r).
Definition wbind {A B} (m : W A) (k : A -> W B) : W B :=
  match snd m with
  | Err e => (fst m, Err e)
  | Ok a => (fst m ++ fst (k a), snd (k a))%list
  end.
Definition draw (m : mark) : W unit := ([m], Ok tt).
Declare Scope w_scope.
Delimit Scope w_scope with w.
Notation "x <~ m ;; k" := (wbind m (fun x => k)) (at level 100, m at next level, right associativity) : w_scope.
Open Scope w_scope.

(** The axes drawn on: those supplied (both fig and ax), new ones, or none (None, None). *)
Inductive axes := Supplied | New | Neither.

(** ax.scatter: x and y of the same size, s of this size or a single number (Axes.scatter raises ValueError). *)
Definition ax_scatter (x y : list num) (s : sizes) : W unit :=
  if negb (length x =? length y)%nat then wlift (Err ValueError)
  else match s with
       | One _ => draw (Scatter x y s)
       | Each l => if (length l =? length x)%nat || (length l =? 1)%nat then draw (Scatter x y s) else wlift (Err ValueError)
       end.
(** visualisation.py L173-302, [plot_2D_dist].  An unknown disttype draws nothing. *)
Definition plot_2D_dist (x y : list num) (weights : option (list num)) (disttype : string) (scatter_s : num) (ax : axes) : W axes :=
  let ax := match ax with Supplied => Supplied | _ => New end in
  _ <~ (if String.eqb disttype "scatter" then
          ax_scatter x y (match weights with None => One scatter_s | Some w => Each (map (fun v => v * scatter_s) w) end)
        else if String.eqb disttype "kde" then draw (Density2 x y weights)
        else wret tt) ;;
  wret ax.
(** ax.hist: weights of the size of x. *)
Definition ax_hist (x : list num) (w : option (list num)) : W unit :=
  match w with
  | Some l => if (length l =? length x)%nat then draw (Hist x w) else wlift (Err ValueError)
  | None => draw (Hist x w)
  end.
(** visualisation.py L44-170, [plot_1D_dist]; a histogram is one of the logarithms if log_scale is set (of the values in
    their own unit; here they are in SI units). *)
Definition plot_1D_dist (x : list num) (weights : option (list num)) (disttype : string) (log_scale : bool) (ax : axes) : W axes :=
  let ax := match ax with Supplied => Supplied | _ => New end in
  _ <~ (if String.eqb disttype "hist" then ax_hist (if log_scale then map nlog10 x else x) weights
        else if String.eqb disttype "kde" then draw (Density log_scale x weights)
        else if String.eqb disttype "ecdf" then draw (Ecdf log_scale x weights)
        else wret tt) ;;
  wret ax.

(** The settings of plot_sensitivity_curve that change what is drawn (sc_vis_settings): y_quantity, frequency_range, fill. *)
Record settings := mkSettings { v_quantity : option string; v_range : option (list num); v_fill : option bool }.
Definition default_range : list num := map Fin (logspace (-5) 0 (Z.to_nat 1000)).
(** visualisation.py L305-399, [plot_sensitivity_curve] with the keyword arguments [d] of power_spectral_density; ax.loglog
    raises ValueError if the arrays differ in length, np.min (L394) if there is no frequency. *)
Definition plot_sensitivity_curve (x : ext) (d : dict) (v : settings) (ax : axes) : W axes :=
  let frequency_range := match v_range v with Some l => l | None => default_range end in
  let y_quantity := match v_quantity v with Some q => q | None => "ASD" end in
  let ax := match ax with Supplied => Supplied | _ => New end in
  PSD <~ wlift (psd_of x d frequency_range) ;;
  noise <~ wlift (if String.eqb y_quantity "ASD" then Ok (map nsqrt PSD)
                  else if String.eqb y_quantity "h_c" then fp <- bzip nmul frequency_range PSD ;; Ok (map nsqrt fp)
                  else Err ValueError) ;;
  _ <~ (if (length frequency_range =? length noise)%nat then draw (Line frequency_range noise) else wlift (Err ValueError)) ;;
  _ <~ (if match v_fill v with Some b => b | None => true end then draw (Filled frequency_range noise) else wret tt) ;;
  _ <~ wlift (match frequency_range with [] => Err ValueError | _ => Ok tt end) ;;
  wret ax.

(** visualisation.py L402-511, [plot_sources_on_sc]; [d]: the arguments of power_spectral_density, [disttype] and
    [scatter_s] go to plot_2D_dist. *)
Definition plot_sources_on_sc (x : ext) (d : dict) (f_dom snr : list num) (weights : option (list num)) (snr_cutoff : num)
           (v : settings) (disttype : string) (scatter_s : num) (ax : axes) : W axes :=
  ax <~ match ax with Supplied => wret Supplied | _ => plot_sensitivity_curve x d v New end ;;
  let detectable := map (fun r => ngt r snr_cutoff) snr in
  if negb (any detectable) then _ <~ draw (Logged NoBinaries) ;; wret ax
  else
    f <~ wlift (take_mask detectable f_dom) ;;
    PSD <~ wlift (psd_of x d f) ;;
    asd <~ wlift (bzip nmul (select detectable snr) (map nsqrt PSD)) ;;
    h_c <~ wlift (bzip nmul asd (map nsqrt f)) ;;
    let use_h_c := match v_quantity v with Some q => String.eqb q "h_c" | None => false end in
    weights <~ wlift (take_opt detectable weights) ;;
    ax <~ plot_2D_dist f (if use_h_c then h_c else asd) weights disttype scatter_s ax ;;
    wret ax.

(** source.py L1436-1515, [Source.plot_sources_on_sc]. *)
Definition source_plot (x : ext) (snr_cutoff : num) (v : settings) (disttype : string) (scatter_s : num) (ax : axes) (s : src) : W axes :=
  match s_snr s with
  | None => _ <~ draw (Logged NoSnr) ;; wret Neither
  | Some snr =>
      let detectable := map (fun r => ngt r snr_cutoff) snr in
      let inspiraling := map negb (s_merged s) in
      (* L1492-1493 *)
      stat <~ wlift (get_source_mask TriNone TriTrue PNil s) ;;
      stat <~ wlift (logical_and3 stat detectable inspiraling) ;;
      ax <~ (if any stat then
               (* L1495-1500 *)
               f <~ wlift (take_mask stat (s_f_orb s)) ;;
               msh <~ wlift (match s_max_snr_harmonic s with None => Err TypeError | Some l => take_mask stat l end) ;;
               f_dom <~ wlift (bzip nmul f (map nZ msh)) ;;
               weights <~ wlift (take_opt stat (s_weights s)) ;;
               snr <~ wlift (take_mask stat snr) ;;
               plot_sources_on_sc x (s_params s) f_dom snr weights snr_cutoff v disttype scatter_s ax
             else wret ax) ;;
      (* L1503-1507 *)
      circ_evol <~ wlift (get_source_mask TriTrue TriFalse PNil s) ;;
      circ_evol <~ wlift (logical_and3 circ_evol detectable inspiraling) ;;
      _ <~ (if any circ_evol then draw (Logged (CircularEvolving (length (select circ_evol circ_evol)))) else wret tt) ;;
      (* L1509-1513: circular=True again *)
      ecc_evol <~ wlift (get_source_mask TriTrue TriFalse PNil s) ;;
      ecc_evol <~ wlift (logical_and3 ecc_evol detectable inspiraling) ;;
      _ <~ (if any ecc_evol then draw (Logged (EccentricEvolving (length (select ecc_evol ecc_evol)))) else wret tt) ;;
      wret ax
  end.

(** source.py L1360-1363, the variables by name; None: not computed yet. *)
Definition variables (s : src) : res (list (string * option (list num))) :=
  mc <- m_c s ;;
  a <- a_getter s ;;
  Ok [("m_1", Some (s_m_1 s)); ("m_2", Some (s_m_2 s)); ("m_c", Some mc); ("ecc", Some (s_ecc s)); ("dist", Some (s_dist s));
      ("f_orb", Some (s_f_orb s)); ("f_GW", Some (map (fun f => f * #2) (s_f_orb s))); ("a", Some a); ("snr", s_snr s)].
Fixpoint variable (k : string) (l : list (string * option (list num))) : option (option (list num)) :=
  match l with [] => None | (k', v) :: t => if String.eqb k k' then Some v else variable k t end.
(** source.py L1320-1434, [plot_source_variables].  [xstr = None] passes the check of L1379-1383 and raises KeyError at L1386. *)
Definition plot_source_variables (xstr ystr : option string) (which : option (list bool)) (exclude_merged log_scale : bool) (disttype : option string)
           (scatter_s : num) (ax : axes) (s : src) : W axes :=
  vars <~ wlift (variables s) ;;
  let which := which_or_all which s in
  which <~ wlift (if exclude_merged then logical_and which (map negb (s_merged s)) else Ok which) ;;
  let valid k := match k with None => true | Some k => match variable k vars with None => false | Some _ => true end end in
  if negb (valid xstr && valid ystr) then wlift (Err ValueError)
  else
    x <~ wlift (match xstr with
                | None => Err KeyError
                | Some k => match variable k vars with Some (Some l) => Ok l | _ => Err ValueError end
                end) ;;
    y <~ wlift (match ystr with
                | None => Ok None
                | Some k => match variable k vars with Some (Some l) => Ok (Some l) | _ => Err ValueError end
                end) ;;
    weights <~ wlift (take_opt which (s_weights s)) ;;
    x <~ wlift (take_mask which x) ;;
    match y with
    | Some y => y <~ wlift (take_mask which y) ;;
                plot_2D_dist x y weights (match disttype with Some t => t | None => "scatter" end) scatter_s ax
    | None => plot_1D_dist x weights (match disttype with Some t => t | None => "hist" end) log_scale ax
    end.
