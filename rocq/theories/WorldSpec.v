(** WorldSpec.v -- vocabulary for several collections (C58, C81, C92). *)
From Coq Require Import String Reals ZArith List Bool.
From Verif Require Import Num Np Utils ScParams Source Index History World.
Import ListNotations.

(** The arrays collection i refers to: those SNR calculations write into, and the others. *)
Definition snr_array (w : world) (i : nat) (a : addr) : Prop :=
  exists o, nth_error (w_objs w) i = Some o /\ (o_snr o = Some a \/ o_max_snr_harmonic o = Some a).
Definition data_array (w : world) (i : nat) (a : addr) : Prop :=
  exists o, nth_error (w_objs w) i = Some o /\
    (a = o_m_1 o \/ a = o_m_2 o \/ a = o_dist o \/ a = o_f_orb o \/ a = o_ecc o \/ a = o_merged o \/
     o_weights o = Some a \/ o_position o = Some a \/ o_inclination o = Some a \/ o_polarisation o = Some a \/ o_t_merge o = Some a).
Definition holds (w : world) (i : nat) (a : addr) : Prop := snr_array w i a \/ data_array w i a.
Definition share (w : world) (i j : nat) : Prop := exists a, holds w i a /\ holds w j a.
(** An array that exists and into which no collection writes its SNRs. *)
Definition users_own (w : world) (a : addr) : Prop := (a < length (w_heap w))%nat /\ forall i, ~ snr_array w i a.

(** The arrays handed over in an event. *)
Definition handed (e : event) : list addr :=
  let g v := match v with At _ a => [a] | Val _ => [] end in
  let h v := match v with Some (inl a) => [a] | _ => [] end in
  match e with
  | New _ n => g (n_m_1 n) ++ g (n_m_2 n) ++ g (n_ecc n) ++ g (n_dist n) ++ g (n_f_orb n) ++ g (n_weights n) ++ h (n_polarisation n) ++ h (n_inclination n)
  | AssignArray _ _ a => [a]
  | _ => []
  end.
(** The user does not hand over an array of SNRs (or loudest harmonics) that is an attribute of a collection. *)
Definition fair (w : world) (e : event) : Prop := forall a, In a (handed e) -> users_own w a.
(** Histories of fair events from a world without collections. *)
Inductive reached (x : ext) : world -> Prop :=
| reached_empty : reached x empty_world
| reached_step w e : reached x w -> fair w e -> reached x (fst (w_step x e w)).
Fixpoint all_fair (x : ext) (es : list event) (w : world) : Prop :=
  match es with [] => True | e :: es => fair w e /\ all_fair x es (fst (w_step x e w)) end.

(** The collection an event is about: the one whose method is called, or to which the parameters belong. *)
Definition about (w : world) (e : event) : option nat :=
  match e with
  | Do i _ | AssignArray i _ _ | EvolveNew i _ => Some i
  | HandleSet p _ _ | HandleUpdate p _ => match nth_error (w_params w) p with Some q => p_source q | None => None end
  | _ => None
  end.
Definition writes (e : event) (a : addr) : Prop := exists k c, e = UserWrite a k c.
Definition no_write (e : event) : Prop := forall a, ~ writes e a.
(** A result with an array, as contents. *)
Definition returns (w : world) (r : res out) (v : res (list num)) : Prop :=
  match r, v with
  | Ok (Array a), Ok l => nth_error (w_heap w) a = Some (ANum l)
  | Err e, Err e' => e = e'
  | _, _ => False
  end.
(** What the operations of History.v return, as far as they return an array. *)
Definition answer (x : ext) (o : op) (s : src) : option (res (list num)) :=
  match o with
  | Snr a n which => Some (snd (get_snr x a n which s))
  | SnrStationary a which => Some (snd (get_snr_stationary x a which s))
  | SnrEvolving a n which => Some (snd (get_snr_evolving x a n which s))
  | MergerTime save which exact => Some (snd (get_merger_time x save which exact s))
  | _ => None
  end.
(** The operations on collection j in a history. *)
Definition ops_on (j : nat) (es : list event) : list op := flat_map (fun e => match e with Do i o => if (i =? j)%nat then [o] else [] | _ => [] end) es.
(** Events other than methods of j: new collections, arrays, methods of others, parameters of others. *)
Definition elsewhere (x : ext) (w : world) (e : event) (j : nat) : Prop := (exists o, e = Do j o) \/ (no_write e /\ about w e <> Some j).
Fixpoint all_elsewhere (x : ext) (es : list event) (w : world) (j : nat) : Prop :=
  match es with [] => True | e :: es => elsewhere x w e j /\ all_elsewhere x es (fst (w_step x e w)) j end.
(** An SNR calculation. *)
Definition snr_call (o : op) : Prop := match o with Snr _ _ _ | SnrStationary _ _ | SnrEvolving _ _ _ => True | _ => False end.

(** ** Shared data (C92) *)
(** The array that is attribute t of collection i, and the attribute's values. *)
Definition array_of (t : attr) (o : obj) : option addr :=
  match t with
  | M1 => Some (o_m_1 o) | M2 => Some (o_m_2 o) | Dist => Some (o_dist o) | FOrb => Some (o_f_orb o) | Ecc => Some (o_ecc o)
  | Weights => o_weights o | Inclination => o_inclination o | Polarisation => o_polarisation o | TMerge => o_t_merge o
  end.
Definition attr_array (w : world) (i : nat) (t : attr) (a : addr) : Prop := exists o, nth_error (w_objs w) i = Some o /\ array_of t o = Some a.
Definition values_of (t : attr) (s : src) : option (list num) :=
  match t with
  | M1 => Some (s_m_1 s) | M2 => Some (s_m_2 s) | Dist => Some (s_dist s) | FOrb => Some (s_f_orb s) | Ecc => Some (s_ecc s)
  | Weights => s_weights s | Inclination => s_inclination s | Polarisation => s_polarisation s | TMerge => s_t_merge s
  end.
(** The array passed for an attribute to the constructor. *)
Definition passed (g : new_args) (t : attr) : option addr :=
  match t with
  | M1 => addr_of_arg (n_m_1 g) | M2 => addr_of_arg (n_m_2 g) | Dist => addr_of_arg (n_dist g) | FOrb => addr_of_arg (n_f_orb g)
  | Ecc => addr_of_arg (n_ecc g) | Weights => addr_of_arg (n_weights g) | Inclination => addr_of_angles (n_inclination g)
  | Polarisation => addr_of_angles (n_polarisation g) | TMerge => None
  end.
(** What evolve_sources hands over to the new collection. *)
Definition inherited (t : attr) : Prop := match t with M1 | M2 | Dist | Inclination | Polarisation => True | _ => False end.
(** A collection has this array as attribute t, and a write into the array is a change of the attribute. *)
Definition depends_on (x : ext) (w : world) (i : nat) (t : attr) (a : addr) : Prop :=
  attr_array w i t a /\
  forall k y l, nth_error (w_heap w) a = Some (ANum l) ->
    option_map (values_of t) (contents (fst (w_step x (UserWrite a k (CNum y)) w)) i) = Some (Some (replace k y l)).
