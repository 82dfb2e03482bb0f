(** SwapIndex.v -- selecting sources of a collection whose masses are exchanged. *)
From Coq Require Import Reals ZArith List Bool Lia.
From Verif Require Import Num NumFacts Np NpFacts Utils Harmonics ScParams Source Index SwapSpec.
Import ListNotations.

(** Both succeed, with as many elements, or both raise the same exception. *)
Definition same_outcome {A} (r r' : res (list A)) : Prop :=
  match r, r' with Ok l, Ok l' => length l = length l' | Err e, Err e' => e = e' | _, _ => False end.
Lemma item_same {A} (l l' : list A) z : length l = length l' ->
  match item l z, item l' z with Ok _, Ok _ => True | Err e, Err e' => e = e' | _, _ => False end.
Proof.
  intros L. unfold item. rewrite L. set (i := if (z <? 0)%Z then _ else _). destruct (0 <=? i)%Z; [|reflexivity].
  destruct (nth_error l (Z.to_nat i)) eqn:E, (nth_error l' (Z.to_nat i)) eqn:E'; auto.
  - apply nth_error_None in E'. assert (H : nth_error l (Z.to_nat i) <> None) by congruence. apply nth_error_Some in H. lia.
  - apply nth_error_None in E. assert (H : nth_error l' (Z.to_nat i) <> None) by congruence. apply nth_error_Some in H. lia.
Qed.
Lemma items_same {A} (l l' : list A) zs : length l = length l' -> same_outcome (mapM (item l) zs) (mapM (item l') zs).
Proof.
  intros L. induction zs as [|z zs IH]; [reflexivity|]. cbn [mapM]. pose proof (item_same l l' z L) as H.
  destruct (item l z), (item l' z); cbn [rbind]; try contradiction; [|exact H].
  unfold same_outcome in IH. destruct (mapM (item l) zs), (mapM (item l') zs); cbn [rbind]; try contradiction; [|exact IH]. cbn. now f_equal.
Qed.
Lemma take_same {A} sel (l l' : list A) : length l = length l' -> same_outcome (take sel l) (take sel l').
Proof.
  intros L. destruct sel as [zs|m]; cbn [take]; [now apply items_same|].
  unfold take_mask. rewrite L. destruct (Nat.eqb_spec (length m) (length l')); [|reflexivity]. cbn. rewrite !NpFacts.select_length by lia. reflexivity.
Qed.
Lemma getitem_swap ind s : paired s ->
  getitem ind (exchanged s) = match getitem ind s with Ok s' => Ok (exchanged s') | Err e => Err e end /\
  forall s', getitem ind s = Ok s' -> paired s'.
Proof.
  intros P. unfold getitem. cbn [exchanged s_class]. destruct (s_class s); try (split; [reflexivity|discriminate]).
  all: unfold n_sources; cbn [exchanged s_m_1 s_m_2 s_dist s_f_orb s_ecc s_weights s_position s_inclination s_polarisation s_t_merge s_snr s_max_snr_harmonic s_merged s_stat_tol s_n_proc s_harm s_g s_interpolate_sc s_sc s_params];
    rewrite <- P; destruct (selection_of _ ind) as [sel|e]; cbn [rbind]; [|split; [reflexivity|discriminate]];
    pose proof (take_same sel _ _ P) as T; unfold same_outcome in T; destruct (take sel (s_m_1 s)) as [m1|e], (take sel (s_m_2 s)) as [m2|e']; cbn [rbind]; try contradiction;
    [|subst; split; [reflexivity|discriminate]];
    repeat lazymatch goal with |- rbind ?r _ = _ /\ _ => destruct r; cbn [rbind]; [|split; [reflexivity|discriminate]] end;
    (split; [reflexivity|]); intros s' [= <-]; exact T.
Qed.
Lemma copy_swap s : paired s -> copy (exchanged s) = match copy s with Ok s' => Ok (exchanged s') | Err e => Err e end.
Proof. intros P. apply getitem_swap; auto. Qed.
