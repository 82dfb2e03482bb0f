(** IndexSpec.v -- what Python and numpy select by an index expression, independently of the model. *)
From Coq Require Import String Reals ZArith List Bool Sorted.
From Verif Require Import Num Np Utils Strain Psd Snr Evol Harmonics ScParams Source Index SourceSpec.
Import ListNotations.

(** The position of integer [z] among n entries: negative integers count from the end. *)
Definition position (n : nat) (z : Z) (j : nat) : Prop :=
  (j < n)%nat /\ (z = Z.of_nat j \/ (z < 0 /\ (z + Z.of_nat n)%Z = Z.of_nat j))%Z.
(** The bound [b] of a slice of n entries, cut off to the range lo..hi. *)
Definition cut (n lo hi : Z) (b : option Z) (absent : Z) : Z :=
  match b with
  | None => absent
  | Some z => Z.max lo (Z.min hi (if (z <? 0)%Z then z + n else z))
  end.
(** slice(a, b, step): from a up to but excluding b, every step-th entry; backwards for a negative step. *)
Definition sliced (n : nat) (a b step : option Z) (js : list nat) : Prop :=
  let N := Z.of_nat n in
  let st := match step with None => 1%Z | Some s => s end in
  st <> 0%Z /\ List.Forall (fun j => j < n)%nat js /\
  if (0 <? st)%Z then
    let lo := cut N 0 N a 0 in let hi := cut N 0 N b N in
    StronglySorted lt js /\ forall j, In j js <-> (lo <= Z.of_nat j < hi)%Z /\ exists k, (0 <= k /\ Z.of_nat j = lo + k * st)%Z
  else
    let hi := cut N (-1) (N - 1) a (N - 1) in let lo := cut N (-1) (N - 1) b (-1) in
    StronglySorted gt js /\ forall j, In j js <-> (lo < Z.of_nat j <= hi)%Z /\ exists k, (0 <= k /\ Z.of_nat j = hi + k * st)%Z.
(** The positions [js], in order, that an index selects among n entries. *)
Definition selects (n : nat) (ind : index) (js : list nat) : Prop :=
  match ind with
  | IInt z => exists j, js = [j] /\ position n z j
  | IList l => l <> [] /\ Forall2 (position n) l js
  | IArray l => Forall2 (position n) l js
  | IMask m => length m = n /\ js = filter (fun j => nth j m false) (seq 0 n)
  | ISlice a b step => sliced n a b step js
  | IBool b => n = 1%nat /\ js = if b then [0%nat] else []
  | IOther => False
  end.
(** [l2] holds the entries of [l] at the positions [js], in that order. *)
Definition picked {A} (js : list nat) (l l2 : list A) : Prop := Forall2 (fun j a => nth_error l j = Some a) js l2.
Definition picked_opt {A} (js : list nat) (o o2 : option (list A)) : Prop :=
  match o, o2 with None, None => True | Some l, Some l2 => picked js l l2 | _, _ => False end.
(** Every array with one entry per source has n entries. *)
Definition has_len {A} (n : nat) (o : option (list A)) : Prop := match o with None => True | Some l => length l = n end.
Record aligned (s : src) (n : nat) : Prop := {
  al_m_1 : length (s_m_1 s) = n; al_m_2 : length (s_m_2 s) = n; al_dist : length (s_dist s) = n;
  al_f_orb : length (s_f_orb s) = n; al_ecc : length (s_ecc s) = n; al_merged : length (s_merged s) = n;
  al_weights : has_len n (s_weights s); al_position : has_len n (s_position s);
  al_inclination : has_len n (s_inclination s); al_polarisation : has_len n (s_polarisation s);
  al_t_merge : has_len n (s_t_merge s); al_snr : has_len n (s_snr s); al_msh : has_len n (s_max_snr_harmonic s) }.
(** Every per-source attribute of [s2] is the one of [s] at the positions [js]. *)
Record rows (js : list nat) (s s2 : src) : Prop := {
  row_m_1 : picked js (s_m_1 s) (s_m_1 s2); row_m_2 : picked js (s_m_2 s) (s_m_2 s2);
  row_dist : picked js (s_dist s) (s_dist s2); row_f_orb : picked js (s_f_orb s) (s_f_orb s2);
  row_ecc : picked js (s_ecc s) (s_ecc s2); row_merged : picked js (s_merged s) (s_merged s2);
  row_weights : picked_opt js (s_weights s) (s_weights s2); row_position : picked_opt js (s_position s) (s_position s2);
  row_inclination : picked_opt js (s_inclination s) (s_inclination s2);
  row_polarisation : picked_opt js (s_polarisation s) (s_polarisation s2);
  row_t_merge : picked_opt js (s_t_merge s) (s_t_merge s2); row_snr : picked_opt js (s_snr s) (s_snr s2);
  row_msh : picked_opt js (s_max_snr_harmonic s) (s_max_snr_harmonic s2) }.
