(** FileIO.v -- model of Source.save and Source.from_file (source.py L308-487, L1649-1666) and of the HDF5 files they use. *)
From Coq Require Import String Ascii Reals ZArith List Bool.
From Verif Require Import Num Np Utils Strain Psd Snr Interp Evol Harmonics ScParams Source Index.
Import ListNotations.
Open Scope num_scope.
Open Scope res_scope.
Open Scope string_scope.

(** ** Files *)
(** Values of HDF5 attributes and datasets; a dataset may carry an attribute "unit". *)
Inductive attr := AStr (s : string) | ABool (b : bool) | ANum (x : num) | AInt (n : Z).
Inductive data := DNum (l : list num) | DInt (l : list Z) | DBool (l : list bool).
Record dset := mkDset { d_data : data; d_unit : option string }.
(** A file: its attributes, its datasets and the attributes of its group "sc_params", once that exists. *)
Record h5 := mkH5 { f_attrs : list (string * attr); f_dsets : list (string * dset); f_sc : option (list (string * attr)) }.
Definition empty_file : h5 := mkH5 [] [] None.
(** What a path leads to.  [Damaged]: bytes that h5py can not read, as a process may leave behind when it dies before
    the file is closed. *)
Inductive node := Missing | Directory | File (f : h5) | Damaged.
Definition disk := string -> node.
Definition write_to (name : string) (c : node) (d : disk) : disk := fun p => if String.eqb p name then c else d p.
(** os.path.isfile. *)
Definition isfile (name : string) (d : disk) : bool := match d name with File _ | Damaged => true | _ => false end.
Fixpoint find {A} (k : string) (l : list (string * A)) : option A :=
  match l with [] => None | (k', v) :: t => if String.eqb k k' then Some v else find k t end.

(** The outside world of file handling: the version of LEGWORK (L345), the unit in which the user expressed each array
    or parameter (an object holds SI values, its arrays are in this unit), what u.Unit makes of the name of a unit (its
    size in SI, if it is a unit) and the order in which h5py lists attributes (L448). *)
Record io := mkIo { io_version : string; io_unit : string -> string; io_parse : string -> option R;
                    io_order : list (string * attr) -> list (string * attr) }.
Definition size_of (w : io) (u : string) : res R := match io_parse w u with Some k => Ok k | None => Err ValueError end.
(** [value.value] of a Quantity in the unit [u], and [number * u.Unit(u)].  A unit name that does not parse can not
    occur in a Quantity; its size is taken to be 1 then. *)
Definition in_unit (w : io) (u : string) (x : num) : num := x / Fin (match io_parse w u with Some k => k | None => 1%R end).
Definition of_unit (k : R) (x : num) : num := x * Fin k.

(** str.endswith. *)
Fixpoint ends_with (suffix s : string) : bool :=
  String.eqb suffix s || match s with "" => false | String _ t => ends_with suffix t end.
(** L336-337, L420-421. *)
Definition with_extension (name : string) : string :=
  if ends_with ".h5" name || ends_with ".hdf5" name then name else name ++ ".h5".

(** ** Saving *)
(** The changes made to the open file, one h5py call each. *)
Inductive edit := EAttr (k : string) (v : attr) | EDset (k : string) (d : dset) | EGroup | ESc (k : string) (v : attr).
Definition apply_edit (f : h5) (e : edit) : h5 :=
  match e with
  | EAttr k v => mkH5 (f_attrs f ++ [(k, v)])%list (f_dsets f) (f_sc f)
  | EDset k d => mkH5 (f_attrs f) (f_dsets f ++ [(k, d)])%list (f_sc f)
  | EGroup => mkH5 (f_attrs f) (f_dsets f) (Some [])
  | ESc k v => mkH5 (f_attrs f) (f_dsets f) (option_map (fun l => l ++ [(k, v)])%list (f_sc f))
  end.
(** L1649-1656, [_write_dataset], of a Quantity and of an array without unit. *)
Definition write_quantity (w : io) (k : string) (l : list num) : edit :=
  EDset k (mkDset (DNum (map (in_unit w (io_unit w k)) l)) (Some (io_unit w k))).
Definition write_plain (k : string) (d : data) : edit := EDset k (mkDset d None).
Definition if_set {A} (o : option A) (f : A -> list edit) : list edit := match o with None => [] | Some a => f a end.
(** self.__class__.__name__. *)
Definition class_name (k : klass) : string :=
  match k with KSource => "Source" | KStationary => "Stationary" | KEvolving => "Evolving" | KVerification => "VerificationBinaries" end.
(** L344-352. *)
Definition attr_edits (w : io) (s : src) : list edit :=
  [EAttr "legwork_version" (AStr (io_version w)); EAttr "class_name" (AStr (class_name (s_class s)));
   EAttr "n_sources" (AInt (Z.of_nat (n_sources s)));
   EAttr "gw_lum_tol" (ANum (match h_gw_lum_tol (s_harm s) with Some t => t | None => NaN end));
   EAttr "stat_tol" (ANum (s_stat_tol s)); EAttr "n_proc" (AInt (Z.of_nat (s_n_proc s)));
   EAttr "interpolate_g" (ABool (interpolate_g s)); EAttr "interpolate_sc" (ABool (s_interpolate_sc s))].
(** L354-362, in the order of _ARR_ATTRS (L21-24). *)
Definition dset_edits (w : io) (s : src) : list edit :=
  [write_quantity w "m_1" (s_m_1 s); write_quantity w "m_2" (s_m_2 s); write_quantity w "dist" (s_dist s);
   write_quantity w "f_orb" (s_f_orb s); write_plain "ecc" (DNum (s_ecc s))] ++
  if_set (s_weights s) (fun l => [write_plain "weights" (DNum l)]) ++
  if_set (s_inclination s) (fun l => [write_quantity w "inclination" l]) ++
  if_set (s_polarisation s) (fun l => [write_quantity w "polarisation" l]) ++
  if_set (s_position s) (fun l => [write_quantity w "position_lon" (map snd l); write_quantity w "position_lat" (map fst l)]) ++
  if_set (s_t_merge s) (fun l => [write_quantity w "t_merge" l]) ++
  if_set (s_snr s) (fun l => [write_plain "snr" (DNum l)]) ++
  if_set (s_max_snr_harmonic s) (fun l => [write_plain "max_snr_harmonic" (DInt l)]) ++
  [write_plain "merged" (DBool (s_merged s))].
(** L366-377. *)
Definition sc_edit (w : io) (kv : string * pval) : list edit :=
  let (k, v) := kv in
  match v with
  | PFun _ => []
  | PNil => [ESc k (AStr "__none__")]
  | PVal x => [ESc k (ANum (in_unit w (io_unit w k) x)); ESc (k ++ "_unit") (AStr (io_unit w k))]
  | PStr t => [ESc k (AStr t)]
  | PBool b => [ESc k (ABool b)]
  end.
Definition save_edits (w : io) (s : src) : list edit :=
  attr_edits w s ++ dset_edits w s ++ EGroup :: flat_map (sc_edit w) (s_params s).
(** The file after the first [k] changes. *)
Definition written (w : io) (s : src) (k : nat) : h5 := fold_left apply_edit (firstn k (save_edits w s)) empty_file.

(** What the user is told. *)
Inductive warning := FunctionDropped (key : string) | OtherVersion (v : string) | CustomPsdMissing.
Definition save_warnings (s : src) : list warning :=
  flat_map (fun kv => match snd kv with PFun _ => [FunctionDropped (fst kv)] | _ => [] end) (s_params s).

(** L308-377, [save].  [stop]: the save is interrupted by an exception after this many changes to the open file (a full
    disk, say) and the file is closed by the with statement; None: it runs to the end.  h5py.File(..., "w") empties an
    existing file at once. *)
Definition save (w : io) (name : string) (overwrite : bool) (stop : option nat) (s : src) (d : disk) : disk * res (list warning) :=
  let name := with_extension name in
  if isfile name d && negb overwrite then (d, Err FileExistsErr)
  else
    match d name with
    | Directory => (d, Err OSErr)
    | _ =>
        match stop with
        | Some k => (write_to name (File (written w s k)) d, Err OSErr)
        | None => (write_to name (File (written w s (length (save_edits w s)))) d, Ok (save_warnings s))
        end
    end.
(** The process dies during the save: nothing was written yet, or the file is left unreadable, or with some of the
    changes, or complete. *)
Inductive dies (w : io) (name : string) (overwrite : bool) (s : src) (d : disk) : disk -> Prop :=
| dies_before : dies w name overwrite s d d
| dies_damaged : isfile (with_extension name) d && negb overwrite = false -> d (with_extension name) <> Directory ->
    dies w name overwrite s d (write_to (with_extension name) Damaged d)
| dies_after k : isfile (with_extension name) d && negb overwrite = false -> d (with_extension name) <> Directory ->
    dies w name overwrite s d (write_to (with_extension name) (File (written w s k)) d).

(** ** Loading *)
(** L1659-1666, [_read_dataset].  A dataset of integers or bools read where numbers are expected does not occur in files
    written by save (simplification: TypeError). *)
Definition read_num (w : io) (f : h5) (k : string) : res (pyval num unit) :=
  match find k (f_dsets f) with
  | None => Ok PNone
  | Some (mkDset (DNum l) None) => Ok (PArr l)
  | Some (mkDset (DNum l) (Some u)) => k <- size_of w u ;; Ok (PQArr (map (of_unit k) l) tt)
  | Some _ => Err TypeError
  end.
Definition read_int (f : h5) (k : string) : res (option (list Z)) :=
  match find k (f_dsets f) with
  | None => Ok None | Some (mkDset (DInt l) _) => Ok (Some l) | Some _ => Err TypeError
  end.
Definition read_bool (f : h5) (k : string) : res (option (list bool)) :=
  match find k (f_dsets f) with
  | None => Ok None | Some (mkDset (DBool l) _) => Ok (Some l) | Some _ => Err TypeError
  end.
Definition opt_list (v : pyval num unit) : option (list num) := match v with PNone => None | _ => Some (list_of v) end.
(** L439-444: SkyCoord wants Quantities that broadcast against each other. *)
Definition read_position (w : io) (f : h5) (dist : pyval num unit) : res (option (list (num * num))) :=
  lon <- read_num w f "position_lon" ;;
  match lon with
  | PNone => Ok None
  | _ =>
      lat <- read_num w f "position_lat" ;;
      match lon, lat with
      | PQArr lon _, PQArr lat _ =>
          p <- bzip (fun x y => (x, y)) lat lon ;;
          match dist with PNone => Ok (Some p) | _ => p <- bzip (fun q (_ : num) => q) p (list_of dist) ;; Ok (Some p) end
      | _, _ => Err UnitError
      end
  end.
(** L448-456.  A number without unit is kept as a bare number by LEGWORK; it is of no use as a time or a length
    (simplification: TypeError). *)
Definition read_param (w : io) (attrs : list (string * attr)) (kv : string * attr) : res dict :=
  let (k, v) := kv in
  if ends_with "_unit" k then Ok []
  else match v with
       | AStr t => if String.eqb t "__none__" then Ok [(k, PNil)] else
                     match find (k ++ "_unit") attrs with None => Ok [(k, PStr t)] | Some _ => Err TypeError end
       | _ =>
           match find (k ++ "_unit") attrs with
           | Some (AStr u) => size <- size_of w u ;; match v with ANum x => Ok [(k, PVal (of_unit size x))] | _ => Err TypeError end
           | Some _ => Err TypeError
           | None => match v with ABool b => Ok [(k, PBool b)] | _ => Err TypeError end
           end
       end.
Definition read_params (w : io) (attrs : list (string * attr)) : res dict :=
  l <- mapM (read_param w attrs) (io_order w attrs) ;; Ok (fold_left (fun d kv => put (fst kv) (snd kv) d) (concat l) []).
(** file.attrs[k]: KeyError if there is none. *)
Definition read_attr (f : h5) (k : string) : res attr := match find k (f_attrs f) with Some v => Ok v | None => Err KeyError end.
Definition to_bool (a : attr) : bool := match a with ABool b => b | AStr s => negb (String.eqb s "") | ANum x => negb (neqb x (Fin 0)) | AInt n => negb (n =? 0)%Z end.
Definition to_num (a : attr) : res num := match a with ANum x => Ok x | AInt n => Ok (nZ n) | ABool b => Ok (nZ (if b then 1 else 0)) | AStr _ => Err ValueError end.
Definition to_nat_ (a : attr) : res nat := match a with AInt n => Ok (Z.to_nat n) | _ => Err ValueError end.
(** L470-475.  [cls]: the class from_file is called on. *)
Definition class_of (cls : klass) (f : h5) : klass :=
  match cls with
  | KSource => match find "class_name" (f_attrs f) with
               | Some (AStr n) => if String.eqb n "Stationary" then KStationary else if String.eqb n "Evolving" then KEvolving else KSource
               | _ => KSource
               end
  | _ => cls
  end.
(** L459-462. *)
Definition load_warnings (w : io) (f : h5) (params : dict) : list warning :=
  (match find "legwork_version" (f_attrs f) with
   | Some (AStr v) => if String.eqb v (io_version w) then [] else [OtherVersion v]
   | _ => if String.eqb "unknown" (io_version w) then [] else [OtherVersion "unknown"]
   end ++
   if peqb (get_or_none "instrument" params) (PStr "custom") && peqb (get_or_none "custom_psd" params) PNil then [CustomPsdMissing] else [])%list.
Definition set_merged (m : list bool) (s : src) : src := set_orbit (s_ecc s) (s_f_orb s) m s.
(** L426-487. *)
Definition load (w : io) (x : ext) (cls : klass) (f : h5) (ig isc : option bool) (np : option nat) : res (src * list warning) :=
  m_1 <- read_num w f "m_1" ;;
  m_2 <- read_num w f "m_2" ;;
  dist <- read_num w f "dist" ;;
  f_orb <- read_num w f "f_orb" ;;
  ecc <- read_num w f "ecc" ;;
  weights <- read_num w f "weights" ;;
  inclination <- read_num w f "inclination" ;;
  polarisation <- read_num w f "polarisation" ;;
  position <- read_position w f dist ;;
  attrs <- match f_sc f with Some a => Ok a | None => Err KeyError end ;;
  params <- read_params w attrs ;;
  ig <- match ig with Some b => Ok b | None => v <- read_attr f "interpolate_g" ;; Ok (to_bool v) end ;;
  isc <- match isc with Some b => Ok b | None => v <- read_attr f "interpolate_sc" ;; Ok (to_bool v) end ;;
  np <- match np with Some n => Ok n | None => v <- read_attr f "n_proc" ;; to_nat_ v end ;;
  tol <- read_attr f "gw_lum_tol" ;; tol <- to_num tol ;;
  stat <- read_attr f "stat_tol" ;; stat <- to_num stat ;;
  (* L477-479: VerificationBinaries.__init__ takes no arguments *)
  s <- match class_of cls f with
       | KVerification => Err TypeError
       | k => init x k (mkInit m_1 m_2 ecc dist np f_orb PNone position (opt_list polarisation) (opt_list inclination) weights tol stat ig isc params)
       end ;;
  (* L482-485 *)
  t_merge <- read_num w f "t_merge" ;;
  snr <- read_num w f "snr" ;;
  msh <- read_int f "max_snr_harmonic" ;;
  merged <- read_bool f "merged" ;;
  let s := match opt_list t_merge with Some l => set_t_merge (Some l) s | None => s end in
  let s := match opt_list snr with Some l => set_snr (Some l) s | None => s end in
  let s := match msh with Some l => set_max_snr_harmonic (Some l) s | None => s end in
  let s := match merged with Some l => set_merged l s | None => s end in
  Ok (s, load_warnings w f params).
(** L379-487, [from_file]. *)
Definition from_file (w : io) (x : ext) (cls : klass) (name : string) (ig isc : option bool) (np : option nat) (d : disk) : res (src * list warning) :=
  let name := with_extension name in
  if negb (isfile name d) then Err FileNotFoundErr
  else match d name with File f => load w x cls f ig isc np | _ => Err OSErr end.
