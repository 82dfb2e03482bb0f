(** Index.v -- model of Source.__getitem__ and Source.copy (source.py L238-306). *)
From Coq Require Import String Reals ZArith List Bool.
From Verif Require Import Num Np Utils Strain Psd Snr Interp Evol Harmonics ScParams Source.
Import ListNotations.
Open Scope num_scope.
Open Scope res_scope.

(** What may stand between the brackets: a Python or numpy integer, a Python bool, a slice, a list of ints, an integer
    array, a list or array of bools, or an array of another kind.  (Only one-dimensional arrays are represented.) *)
Inductive index := IInt (z : Z) | IBool (b : bool) | ISlice (start stop step : option Z) | IList (l : list Z)
                 | IArray (l : list Z) | IMask (l : list bool) | IOther.

(** Python's slice.indices(n) for a non-zero step, as numpy applies it to np.arange(n). *)
Definition clamp (lo hi z : Z) : Z := Z.max lo (Z.min hi z).
Definition slice_bound (n step : Z) (b : option Z) (default : Z) : Z :=
  let (lo, hi) := if (0 <? step)%Z then (0, n)%Z else (-1, n - 1)%Z in
  match b with
  | None => default
  | Some z => if (z <? 0)%Z then clamp lo hi (z + n) else clamp lo hi z
  end.
Definition slice_count (start stop step : Z) : nat :=
  if (0 <? step)%Z then (if (start <? stop)%Z then Z.to_nat ((stop - start - 1) / step + 1) else 0)
  else (if (stop <? start)%Z then Z.to_nat ((start - stop - 1) / (- step) + 1) else 0).
Definition slice_indices (n : nat) (start stop step : option Z) : res (list Z) :=
  let n := Z.of_nat n in
  let step := match step with None => 1%Z | Some s => s end in
  if (step =? 0)%Z then Err ValueError
  else
    let first := slice_bound n step start (if (0 <? step)%Z then 0 else n - 1)%Z in
    let last := slice_bound n step stop (if (0 <? step)%Z then n else -1)%Z in
    Ok (map (fun k => (first + Z.of_nat k * step)%Z) (seq 0 (slice_count first last step))).

(** The array [mask] of L259-273. *)
Inductive selection := SelInts (l : list Z) | SelMask (l : list bool).
Definition selection_of (n : nat) (ind : index) : res selection :=
  match ind with
  | IInt z => Ok (SelInts [z])
  | IBool b => Ok (SelMask [b])                     (* a bool is an int: L260-262 *)
  | ISlice a b c => l <- slice_indices n a b c ;; Ok (SelInts l)
  | IMask l => if (length l =? n)%nat then Ok (SelMask l) else Err ValueError
  | IList [] => Err ValueError                      (* np.asarray([]) has dtype float *)
  | IList l | IArray l => Ok (SelInts l)
  | IOther => Err ValueError
  end.

(** numpy indexing [value[mask]] by integers (negative ones count from the end) or by a boolean mask. *)
Definition item {A} (l : list A) (z : Z) : res A :=
  let i := if (z <? 0)%Z then (z + Z.of_nat (length l))%Z else z in
  if (0 <=? i)%Z then match nth_error l (Z.to_nat i) with Some a => Ok a | None => Err IndexError end else Err IndexError.
Definition take {A} (sel : selection) (l : list A) : res (list A) :=
  match sel with
  | SelInts zs => mapM (item l) zs
  | SelMask m => take_mask m l
  end.
Definition take_option {A} (sel : selection) (o : option (list A)) : res (option (list A)) :=
  match o with None => Ok None | Some l => l <- take sel l ;; Ok (Some l) end.

(** L238-296, [__getitem__]: a new object of the same class with every per-source attribute masked and everything else
    copied; L1642-1643 for VerificationBinaries.  L293 rebuilds the parameters (check included). *)
Definition getitem (ind : index) (s : src) : res src :=
  match s_class s with
  | KVerification => Err NotImplementedErr
  | _ =>
      sel <- selection_of (n_sources s) ind ;;
      m_1 <- take sel (s_m_1 s) ;;
      m_2 <- take sel (s_m_2 s) ;;
      ecc <- take sel (s_ecc s) ;;
      dist <- take sel (s_dist s) ;;
      f_orb <- take sel (s_f_orb s) ;;
      position <- take_option sel (s_position s) ;;
      inclination <- take_option sel (s_inclination s) ;;
      polarisation <- take_option sel (s_polarisation s) ;;
      weights <- take_option sel (s_weights s) ;;
      t_merge <- take_option sel (s_t_merge s) ;;
      snr <- take_option sel (s_snr s) ;;
      msh <- take_option sel (s_max_snr_harmonic s) ;;
      merged <- take sel (s_merged s) ;;
      params <- make_params (s_params s) ;;
      Ok (mkSrc (s_class s) m_1 m_2 dist f_orb ecc weights position inclination polarisation t_merge snr msh merged
                (s_stat_tol s) (s_n_proc s) (s_harm s) (s_g s) (s_interpolate_sc s) (s_sc s) params)
  end.
(** L298-306, [copy]. *)
Definition copy (s : src) : res src := getitem (ISlice None None None) s.
