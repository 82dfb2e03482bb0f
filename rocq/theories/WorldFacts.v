(** WorldFacts.v -- steps on a world: what they change, and that a collection behaves as in Source.v (C58, C81, C92). *)
From Coq Require Import String Reals ZArith List Bool Arith Lia.
From Verif Require Import Num NumFacts Np NpFacts Utils Strain Psd Snr Interp Evol Harmonics ScParams Source Index SourceSpec SourceFacts InitSpec InitFacts History World WorldSpec.
Import ListNotations.
Open Scope nat_scope.
Open Scope world_scope.

(** ** Lists *)
Lemma nth_replace_eq {A} n (v : A) l : n < length l -> nth_error (replace n v l) n = Some v.
Proof. revert n. induction l as [|a l IH]; intros [|n] H; cbn in *; try lia; auto. apply IH. lia. Qed.
Lemma nth_replace_ne {A} n m (v : A) l : m <> n -> nth_error (replace n v l) m = nth_error l m.
Proof. revert n m. induction l as [|a l IH]; intros [|n] [|m] H; cbn in *; auto; try congruence. Qed.
Lemma length_replace {A} n (v : A) l : length (replace n v l) = length l.
Proof. revert n. induction l as [|a l IH]; intros [|n]; cbn in *; auto. Qed.
Lemma nth_last {A} (l : list A) v : nth_error (l ++ [v]) (length l) = Some v.
Proof. rewrite nth_error_app2 by lia. now rewrite Nat.sub_diag. Qed.
Lemma nth_before {A} (l m : list A) n : n < length l -> nth_error (l ++ m) n = nth_error l n.
Proof. apply nth_error_app1. Qed.
Lemma nth_some_lt {A} (l : list A) n v : nth_error l n = Some v -> n < length l.
Proof. intros H. apply nth_error_Some. congruence. Qed.

(** ** The arrays of an object *)
Definition olist {A} (o : option A) : list A := match o with Some a => [a] | None => [] end.
Definition others (o : obj) : list addr :=
  [o_m_1 o; o_m_2 o; o_dist o; o_f_orb o; o_ecc o; o_merged o] ++ olist (o_weights o) ++ olist (o_position o) ++ olist (o_inclination o) ++
  olist (o_polarisation o) ++ olist (o_t_merge o).
Definition muts (o : obj) : list addr := olist (o_snr o) ++ olist (o_max_snr_harmonic o).
Definition every (o : obj) : list addr := others o ++ muts o.
Lemma in_olist {A} (o : option A) a : In a (olist o) <-> o = Some a.
Proof. destruct o; cbn; split; intros H; try easy; [destruct H as [->|[]]; auto|injection H; auto]. Qed.
Lemma in_muts o a : In a (muts o) <-> (o_snr o = Some a \/ o_max_snr_harmonic o = Some a).
Proof. unfold muts. now rewrite in_app_iff, !in_olist. Qed.
Lemma in_others o a : In a (others o) <->
  (a = o_m_1 o \/ a = o_m_2 o \/ a = o_dist o \/ a = o_f_orb o \/ a = o_ecc o \/ a = o_merged o \/
   o_weights o = Some a \/ o_position o = Some a \/ o_inclination o = Some a \/ o_polarisation o = Some a \/ o_t_merge o = Some a).
Proof.
  unfold others. rewrite !in_app_iff, !in_olist. cbn [In].
  split; intros H; decompose [or] H; subst; try contradiction; auto 15.
Qed.
Lemma in_every o a : In a (every o) <-> In a (others o) \/ In a (muts o).
Proof. unfold every. now rewrite in_app_iff. Qed.

Record wfo (n : nat) (o : obj) : Prop := {
  wf_valid : forall a, In a (every o) -> a < n;
  wf_apart : forall a, In a (muts o) -> ~ In a (others o);
  wf_two : forall a, o_snr o = Some a -> o_max_snr_harmonic o <> Some a }.
Record inv (w : world) : Prop := {
  inv_wf : forall i o, nth_error (w_objs w) i = Some o -> wfo (length (w_heap w)) o;
  inv_sep : forall i j o o' a, i <> j -> nth_error (w_objs w) i = Some o -> nth_error (w_objs w) j = Some o' -> In a (muts o) -> ~ In a (every o');
  inv_own : forall i o, nth_error (w_objs w) i = Some o -> exists q, nth_error (w_params w) (o_params o) = Some q /\ p_source q = Some i }.

(** ** The contents depend on the arrays and the parameters only *)
Lemma omap_ext {A B} (f g : A -> B) o : (forall a, o = Some a -> f a = g a) -> option_map f o = option_map g o.
Proof. destruct o; cbn; intros H; [f_equal; auto|reflexivity]. Qed.
Lemma mkSrc_eq c a1 a2 a3 a4 a5 b1 b2 b3 b4 b5 b6 b7 a6 st np h g is sc d a1' a2' a3' a4' a5' b1' b2' b3' b4' b5' b6' b7' a6' :
  a1' = a1 -> a2' = a2 -> a3' = a3 -> a4' = a4 -> a5' = a5 -> b1' = b1 -> b2' = b2 -> b3' = b3 -> b4' = b4 -> b5' = b5 -> b6' = b6 -> b7' = b7 -> a6' = a6 ->
  mkSrc c a1' a2' a3' a4' a5' b1' b2' b3' b4' b5' b6' b7' a6' st np h g is sc d = mkSrc c a1 a2 a3 a4 a5 b1 b2 b3 b4 b5 b6 b7 a6 st np h g is sc d.
Proof. intros; subst; reflexivity. Qed.
Lemma view_frame w w' o : (forall a, In a (every o) -> nth_error (w_heap w') a = nth_error (w_heap w) a) ->
  nth_error (w_params w') (o_params o) = nth_error (w_params w) (o_params o) -> view w' o = view w o.
Proof.
  intros H P. unfold view, dict_at. rewrite P.
  assert (N : forall a, In a (every o) -> nums (w_heap w') a = nums (w_heap w) a /\ ints (w_heap w') a = ints (w_heap w) a /\
    bools (w_heap w') a = bools (w_heap w) a /\ skies (w_heap w') a = skies (w_heap w) a) by (intros a Ha; unfold nums, ints, bools, skies; rewrite (H a Ha); auto).
  assert (K : forall a, In a (others o) -> _) by (intros a Ha; exact (N a (proj2 (in_every o a) (or_introl Ha)))).
  apply mkSrc_eq.
  - apply K. cbn. auto.
  - apply K. cbn. auto.
  - apply K. cbn. auto.
  - apply K. cbn. auto.
  - apply K. cbn. auto 7.
  - apply omap_ext. intros a E. apply K, in_others. do 6 right. left. exact E.
  - apply omap_ext. intros a E. apply K, in_others. do 7 right. left. exact E.
  - apply omap_ext. intros a E. apply K, in_others. do 8 right. left. exact E.
  - apply omap_ext. intros a E. apply K, in_others. do 9 right. left. exact E.
  - apply omap_ext. intros a E. apply K, in_others. do 10 right. exact E.
  - apply omap_ext. intros a E. apply N, in_every. right. apply in_muts. auto.
  - apply omap_ext. intros a E. apply N, in_every. right. apply in_muts. auto.
  - apply K. cbn. auto 8.
Qed.

(** ** What a method of object i may change *)
Record okstep (i : nat) (w w' : world) : Prop := {
  ok_len : length (w_heap w) <= length (w_heap w');
  ok_heap : forall o a, nth_error (w_objs w) i = Some o -> a < length (w_heap w) -> ~ In a (muts o) -> nth_error (w_heap w') a = nth_error (w_heap w) a;
  ok_objs : forall j, j <> i -> nth_error (w_objs w') j = nth_error (w_objs w) j;
  ok_count : length (w_objs w') = length (w_objs w);
  ok_self : forall o, nth_error (w_objs w) i = Some o -> exists o', nth_error (w_objs w') i = Some o' /\
     (wfo (length (w_heap w)) o -> wfo (length (w_heap w')) o') /\
     (forall a, In a (muts o') -> In a (muts o) \/ length (w_heap w) <= a) /\ (forall a, In a (others o') -> In a (others o) \/ length (w_heap w) <= a) /\
     ((exists q, nth_error (w_params w) (o_params o) = Some q /\ p_source q = Some i) -> exists q, nth_error (w_params w') (o_params o') = Some q /\ p_source q = Some i);
  ok_params : forall j o, j <> i -> nth_error (w_objs w) j = Some o -> nth_error (w_params w') (o_params o) = nth_error (w_params w) (o_params o);
  ok_source : forall p q, nth_error (w_params w) p = Some q -> exists q', nth_error (w_params w') p = Some q' /\ p_source q' = p_source q }.
Lemma ok_refl i w : okstep i w w.
Proof. split; eauto 10. Qed.
Lemma ok_trans i w w1 w2 : okstep i w w1 -> okstep i w1 w2 -> okstep i w w2.
Proof.
  intros A B. split.
  - pose proof (ok_len _ _ _ A). pose proof (ok_len _ _ _ B). lia.
  - intros o a O L M. destruct (ok_self _ _ _ A o O) as (o1 & O1 & _ & M1 & _ & _). pose proof (ok_len _ _ _ A).
    rewrite (ok_heap _ _ _ B o1 a O1); [exact (ok_heap _ _ _ A o a O L M)|lia|]. intros K. destruct (M1 a K) as [K'|K']; [tauto|lia].
  - intros j J. rewrite (ok_objs _ _ _ B j J). exact (ok_objs _ _ _ A j J).
  - rewrite (ok_count _ _ _ B). exact (ok_count _ _ _ A).
  - intros o O. destruct (ok_self _ _ _ A o O) as (o1 & O1 & W1 & M1 & T1 & P1). destruct (ok_self _ _ _ B o1 O1) as (o2 & O2 & W2 & M2 & T2 & P2). pose proof (ok_len _ _ _ A).
    exists o2. split; [exact O2|]. split; [tauto|]. split; [|split; [|tauto]].
    + intros a Ha. destruct (M2 a Ha) as [K|K]; [|right; lia]. exact (M1 a K).
    + intros a Ha. destruct (T2 a Ha) as [K|K]; [|right; lia]. exact (T1 a K).
  - intros j o J O. rewrite (ok_params _ _ _ B j o J); [exact (ok_params _ _ _ A j o J O)|]. now rewrite (ok_objs _ _ _ A j J).
  - intros p q Q. destruct (ok_source _ _ _ A p q Q) as (q1 & Q1 & S1). destruct (ok_source _ _ _ B p q1 Q1) as (q2 & Q2 & S2). exists q2. split; auto. congruence.
Qed.
Lemma ok_inv i w w' : inv w -> okstep i w w' -> inv w'.
Proof.
  intros I K.
  assert (X : forall j o', nth_error (w_objs w') j = Some o' -> exists o, nth_error (w_objs w) j = Some o /\ wfo (length (w_heap w')) o' /\
     (forall a, In a (muts o') -> In a (muts o) \/ (i = j /\ length (w_heap w) <= a)) /\ (forall a, In a (every o') -> In a (every o) \/ (i = j /\ length (w_heap w) <= a)) /\
     exists q, nth_error (w_params w') (o_params o') = Some q /\ p_source q = Some j).
  { intros j o' O'. destruct (Nat.eq_dec j i) as [->|N].
    - assert (exists o, nth_error (w_objs w) i = Some o) as [o O].
      { apply nth_some_lt in O'. rewrite (ok_count _ _ _ K) in O'. apply nth_error_Some in O'. destruct (nth_error (w_objs w) i) as [o|]; [eauto|congruence]. }
      destruct (ok_self _ _ _ K o O) as (o1 & O1 & W1 & M1 & T1 & P1). rewrite O1 in O'. injection O' as ->. exists o. split; auto. split; [exact (W1 (inv_wf _ I _ _ O))|].
      split; [intros a Ha; destruct (M1 a Ha); auto|]. split; [|exact (P1 (inv_own _ I _ _ O))].
      intros a Ha. apply in_every in Ha. destruct Ha as [Ha|Ha]; [destruct (T1 a Ha) as [?|?]|destruct (M1 a Ha) as [?|?]]; auto; left; apply in_every; auto.
    - rewrite (ok_objs _ _ _ K j N) in O'. exists o'. split; auto. destruct (inv_wf _ I _ _ O') as [V1 V2 V3]. pose proof (ok_len _ _ _ K). split; [split; auto; intros a Ha; specialize (V1 a Ha); lia|].
      split; [auto|]. split; [auto|]. destruct (inv_own _ I _ _ O') as (q & Q & S). exists q. split; auto. now rewrite (ok_params _ _ _ K j o' N O'). }
  split.
  - intros j o' O'. destruct (X j o' O') as (_ & _ & W & _). exact W.
  - intros j k oj ok a N Oj Ok Hj Hk. destruct (X j oj Oj) as (o1 & O1 & _ & M1 & _). destruct (X k ok Ok) as (o2 & O2 & _ & _ & M2 & _).
    destruct (M1 a Hj) as [A|[A1 A2]], (M2 a Hk) as [B|[B1 B2]].
    + exact (inv_sep _ I j k o1 o2 a N O1 O2 A B).
    + assert (L := wf_valid _ _ (inv_wf _ I _ _ O1) a (proj2 (in_every _ _) (or_intror A))). lia.
    + assert (L := wf_valid _ _ (inv_wf _ I _ _ O2) a B). lia.
    + congruence.
  - intros j o' O'. destruct (X j o' O') as (_ & _ & _ & _ & _ & P). exact P.
Qed.
(** Other collections keep their contents. *)
Lemma ok_contents i w w' j : inv w -> okstep i w w' -> (exists o, nth_error (w_objs w) i = Some o) -> j <> i -> contents w' j = contents w j.
Proof.
  intros I K [oi Oi] N. unfold contents. rewrite (ok_objs _ _ _ K j N). destruct (nth_error (w_objs w) j) as [o|] eqn:O; [|reflexivity]. cbn. f_equal. apply view_frame.
  - intros a Ha. apply (ok_heap _ _ _ K oi a Oi); [exact (wf_valid _ _ (inv_wf _ I _ _ O) a Ha)|]. intros M. exact (inv_sep _ I i j oi o a ltac:(congruence) Oi O M Ha).
  - exact (ok_params _ _ _ K j o N O).
Qed.
