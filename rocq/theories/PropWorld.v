(** PropWorld.v -- C58, C81, C92: several collections, the arrays they share and the arrays they return.
    [reached x w]: w is what a program leads to that hands no SNR array of a collection to a constructor or attribute. *)
From Coq Require Import String Reals ZArith List Bool Lia.
From Verif Require Import Num Np Utils ScParams Source Index History Evol World WorldSpec WorldProofs WorldShare WorldCopy Toy Toy2 Toy3 ToyWorld.
Import ListNotations.
Open Scope list_scope.
Open Scope nat_scope.

(** ** C58: isolation *)
(** Whatever is done to other collections, their parameters and copies of these, a collection stays as it is. *)
Theorem C58_isolated : forall x w e j, reached x w -> fair w e -> no_write e -> about w e <> Some j -> j < length (w_objs w) ->
  contents (fst (w_step x e w)) j = contents w j.
Proof. exact isolated_thm. Qed.
Print Assumptions C58_isolated.
(** Over any interleaving: a collection ends as if its own methods had been called on it alone. *)
Theorem C58_as_if_alone : forall x es w j s, reached x w -> all_fair x es w -> all_elsewhere x es w j -> contents w j = Some s ->
  contents (w_run x es w) j = Some (fst (run x (ops_on j es) s)).
Proof. exact alone_thm. Qed.
Print Assumptions C58_as_if_alone.
(** A method does to its collection, and returns, what Source.v says, whatever else there is. *)
Theorem C58_refines : forall x w i o s, reached x w -> contents w i = Some s ->
  contents (fst (w_step x (Do i o) w)) i = Some (fst (step x o s)) /\
  (forall v, answer x o s = Some v -> returns (fst (w_step x (Do i o) w)) (snd (w_step x (Do i o) w)) v) /\
  (answer x o s = None -> snd (w_step x (Do i o) w) = match snd (step x o s) with Ok _ => Ok Nothing | Err e => Err e end).
Proof. exact refines_thm. Qed.
Print Assumptions C58_refines.
(** A subset or copy is a new collection that shares no array with any other; nothing else changes. *)
Theorem C58_subsets : forall x w i ind s new, reached x w -> contents w i = Some s -> getitem ind s = Ok new -> exists w',
  w_step x (Get i ind) w = (w', Ok (Collection (length (w_objs w)))) /\ contents w' (length (w_objs w)) = Some new /\
  (forall j, j < length (w_objs w) -> contents w' j = contents w j) /\ forall j, j < length (w_objs w) -> ~ share w' j (length (w_objs w)).
Proof. exact get_thm. Qed.
Print Assumptions C58_subsets.
(** Collections that share no array do not come to share one, unless the user hands one over. *)
Theorem C58_apart : forall x e w j k, reached x w -> handed e = [] -> j <> k -> j < length (w_objs w) -> k < length (w_objs w) ->
  ~ share w j k -> ~ share (fst (w_step x e w)) j k.
Proof. exact apart_thm. Qed.
Print Assumptions C58_apart.
(** So also in-place changes of the original's arrays do not show in a copy. *)
Theorem C58_in_place : forall x w a k c j, ~ holds w j a -> contents (fst (w_step x (UserWrite a k c) w)) j = contents w j.
Proof. exact in_place_thm. Qed.
Print Assumptions C58_in_place.
(** A copy of the parameters of a collection (here: kept in a variable) has its own values; changing one only makes the collection
    interpolate its curve again, from its own parameters. *)
Theorem C58_copied_parameters : forall x w p q i s k v, reached x w -> nth_error (w_params w) p = Some q -> p_source q = Some i -> contents w i = Some s ->
  check_keys [k] = Ok tt -> peqb (get_or_none k (p_dict q)) v = false ->
  let c := length (w_params w) in
  let w1 := fst (w_step x (HandleCopy p) w) in let w2 := fst (w_step x (HandleSet c k v) w1) in
  snd (w_step x (HandleCopy p) w) = Ok (Params c) /\ (forall j, contents w1 j = contents w j) /\
  contents w2 i = Some (fst (step x SetSc s)) /\
  option_map p_dict (nth_error (w_params w2) c) = Some (put k v (p_dict q)) /\ (p < c -> option_map p_dict (nth_error (w_params w2) p) = Some (p_dict q)).
Proof. exact copied_params. Qed.
Print Assumptions C58_copied_parameters.
(** The exception: a collection made with the SNRs of another one as weights changes with the next SNR calculation on that one. *)
Theorem C58_snr_as_weights_refuted : exists x w b g j s s' l l' y, reached x w /\ j <> 0 /\ n_weights g = At false b /\ snr_array w 0 b /\
  let w1 := fst (w_step x (New KSource g) w) in
  snd (w_step x (New KSource g) w) = Ok (Collection j) /\ contents w1 j = Some s /\ s_weights s = Some l /\ nth_error l 1 = Some (Fin 0) /\
  contents (fst (w_step x (Do 0 (SnrStationary no_args None)) w1)) j = Some s' /\ s_weights s' = Some l' /\ nth_error l' 1 = Some (Fin y) /\ (0 < y)%R.
Proof.
  destruct weighted_world as (w & b & j & s & s' & l & l' & y & R & J & A & E & C & W & Z & C' & W' & Y & Yp). exists x_toy, w, b, (weighted_args b), j, s, s', l, l', y.
  split; [exact R|]. split; [exact J|]. split; [reflexivity|]. split; [exact A|]. cbn zeta. repeat (split; [assumption|]). exact Yp.
Qed.
Print Assumptions C58_snr_as_weights_refuted.
(** Two sources, a copy of them, an SNR calculation on the copy: the hypotheses hold for the original. *)
Example C58_satisfiable : reached x_toy two_world /\ contents two_world 0 = Some (toy_of [b1; b2]) /\
  (exists new, getitem (IMask [true; true]) (toy_of [b1; b2]) = Ok new) /\
  let es := [Get 0 (IMask [true; true]); Do 1 (Snr no_args 1 None); Do 1 (SetItem "t_obs" (PVal (Fin 1))); Do 0 (SnrStationary no_args None)] in
  all_fair x_toy es two_world /\ all_elsewhere x_toy es two_world 0 /\ ops_on 0 es = [SnrStationary no_args None].
Proof. exact copied_somewhere. Qed.
Example C58_copied_satisfiable : exists p q, reached x_toy two_world /\ nth_error (w_params two_world) p = Some q /\ p_source q = Some 0 /\
  (exists s, contents two_world 0 = Some s) /\ check_keys ["L"%string] = Ok tt /\ peqb (get_or_none "L" (p_dict q)) PNil = false.
Proof. exact params_somewhere. Qed.

(** ** C81: arrays that were returned *)
(** What get_snr_stationary, get_snr_evolving and get_merger_time return is never changed by LEGWORK. *)
Theorem C81_returned_partial : forall x w i o b es, reached x w -> match o with SnrStationary _ _ | SnrEvolving _ _ _ | MergerTime _ _ _ => True | _ => False end ->
  snd (w_step x (Do i o) w) = Ok (Array b) -> let w1 := fst (w_step x (Do i o) w) in
  all_fair x es w1 -> (forall e, In e es -> ~ writes e b) -> nth_error (w_heap (w_run x es w1)) b = nth_error (w_heap w1) b.
Proof. exact returned_thm. Qed.
Print Assumptions C81_returned_partial.
(** What get_snr returns is the attribute itself: the next get_snr_stationary or get_snr_evolving writes its results into it. *)
Theorem C81_overwritten_refuted : forall x w i a n which b o s, reached x w -> snd (w_step x (Do i (Snr a n which)) w) = Ok (Array b) -> writes_in_place o ->
  let w1 := fst (w_step x (Do i (Snr a n which)) w) in contents w1 i = Some s ->
  s_snr (fst (step x o s)) = Some (nums (w_heap (fst (w_step x (Do i o) w1))) b).
Proof. exact overwritten_thm. Qed.
Print Assumptions C81_overwritten_refuted.
(** Two sources: get_snr for the first only returns 0 for the second; later this entry is another one. *)
Theorem C81_refuted : exists x w b y, reached x w /\ snd (w_step x (Do 0 (Snr no_args 1 (Some [true; false]))) w) = Ok (Array b) /\
  let w1 := fst (w_step x (Do 0 (Snr no_args 1 (Some [true; false]))) w) in
  let w2 := w_run x [Do 0 (Assign (custom_params 0)); Do 0 SetSc; Do 0 (SnrStationary no_args None)] w1 in
  nth_error (nums (w_heap w1) b) 1 = Some (Fin 0) /\ nth_error (nums (w_heap w2) b) 1 = Some (Fin y) /\ (0 < y)%R.
Proof. exact returned_rewritten. Qed.
Print Assumptions C81_refuted.
Example C81_satisfiable : exists b s, reached x_toy two_world /\ snd (w_step x_toy (Do 0 (Snr no_args 1 (Some [true; false]))) two_world) = Ok (Array b) /\
  writes_in_place (SnrStationary no_args None) /\ contents (fst (w_step x_toy (Do 0 (Snr no_args 1 (Some [true; false]))) two_world)) 0 = Some s.
Proof. exact returned_somewhere. Qed.

(** ** C92: whose arrays *)
(** LEGWORK writes into no array of the user's. *)
Theorem C92_users_arrays : forall x w a es, reached x w -> users_own w a -> all_fair x es w -> (forall e, In e es -> ~ writes e a) ->
  nth_error (w_heap (w_run x es w)) a = nth_error (w_heap w) a.
Proof. exact own_thm. Qed.
Print Assumptions C92_users_arrays.
(** But an array passed to the constructor is kept: what the user later writes into it is a change of the collection. *)
Theorem C92_constructor_refuted : forall x w k g w' j t a, w_step x (New k g) w = (w', Ok (Collection j)) -> passed g t = Some a -> depends_on x w' j t a.
Proof. exact kept_thm. Qed.
Print Assumptions C92_constructor_refuted.
(** And a collection made by evolve_sources has the masses, distances, inclinations and polarisations of the one it was made from. *)
Theorem C92_evolved_refuted : forall x w i t_evol w' j t a, reached x w -> w_step x (EvolveNew i t_evol) w = (w', Ok (Collection j)) -> inherited t ->
  attr_array w i t a -> depends_on x w' i t a /\ depends_on x w' j t a.
Proof. exact evolved_thm. Qed.
Print Assumptions C92_evolved_refuted.
Example C92_satisfiable : (reached x_toy masses_world /\ users_own masses_world 0 /\ fair masses_world (New KSource masses_args) /\
    exists w', w_step x_toy (New KSource masses_args) masses_world = (w', Ok (Collection 0)) /\ passed masses_args M1 = Some 0 /\ nth_error (w_heap w') 0 = Some (ANum users_masses)) /\
  exists w te w' j a, reached x_toy w /\ w_step x_toy (EvolveNew 0 te) w = (w', Ok (Collection j)) /\ inherited M1 /\ attr_array w 0 M1 a.
Proof. exact (conj masses_new evolved_world). Qed.
