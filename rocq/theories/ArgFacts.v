(** ArgFacts.v -- np.argmin / np.argmax / sums of finite numbers. *)
From Coq Require Import Reals ZArith List Bool Lra Lia.
From Verif Require Import Num NumFacts Np NpFacts.
Import ListNotations.
Open Scope R_scope.

(** The running scan keeps an index [bi] < [i] with value [b] that is minimal among everything seen. *)
Lemma argmin_from_spec (seen : list R) b bi : forall l i, i = length seen -> nth_error seen bi = Some b ->
  (forall j v, nth_error seen j = Some v -> b <= v /\ ((j < bi)%nat -> b < v)) ->
  let k := argmin_from (Fin b) bi i (map Fin l) in
  exists v, nth_error (seen ++ l) k = Some v /\
    forall j u, nth_error (seen ++ l) j = Some u -> v <= u /\ ((j < k)%nat -> v < u).
Proof.
  intros l. revert seen b bi. induction l as [|x l IH]; intros seen b bi i Hi Hb Hmin.
  - cbn. exists b. rewrite app_nil_r. auto.
  - cbn [map argmin_from is_nan orb].
    assert (Hlt : (bi < length seen)%nat) by (apply nth_error_Some; congruence).
    assert (Hs : forall j u, nth_error (seen ++ [x]) j = Some u -> nth_error seen j = Some u \/ (j = length seen /\ u = x)).
    { intros j u H. destruct (Nat.lt_ge_cases j (length seen)) as [L|L].
      - left. now rewrite nth_error_app1 in H.
      - right. rewrite nth_error_app2 in H by auto. destruct (j - length seen)%nat as [|[|q]] eqn:E; cbn in H; try discriminate.
        split; [lia|congruence]. }
    replace (seen ++ x :: l) with ((seen ++ [x]) ++ l) by (rewrite <- app_assoc; auto).
    destruct (Rlt_le_dec x b) as [L|L].
    + rewrite nlt_t by auto. apply IH.
      * rewrite app_length; simpl; lia.
      * rewrite Hi, nth_error_app2, Nat.sub_diag by lia. reflexivity.
      * intros j v H. apply Hs in H. destruct H as [H|[-> ->]].
        -- apply Hmin in H. split; [lra|intros; lra].
        -- split; [lra|lia].
    + rewrite nlt_f by auto. apply IH.
      * rewrite app_length; simpl; lia.
      * now rewrite nth_error_app1.
      * intros j v H. apply Hs in H. destruct H as [H|[-> ->]]; [now apply Hmin|]. split; [lra|lia].
Qed.
Lemma argmin_spec (l : list R) : l <> [] -> exists v, nth_error l (argmin (map Fin l)) = Some v /\
  forall j u, nth_error l j = Some u -> v <= u /\ ((j < argmin (map Fin l))%nat -> v < u).
Proof.
  destruct l as [|x l]; [congruence|]. intros _.
  apply (argmin_from_spec [x] x 0 l 1); auto.
  intros [|[|j]] v H; cbn in H; inversion H; subst. split; [lra|lia].
Qed.

Lemma argmax_from_spec (seen : list R) b bi : forall l i, i = length seen -> nth_error seen bi = Some b ->
  (forall j v, nth_error seen j = Some v -> v <= b /\ ((j < bi)%nat -> v < b)) ->
  let k := argmax_from (Fin b) bi i (map Fin l) in
  exists v, nth_error (seen ++ l) k = Some v /\
    forall j u, nth_error (seen ++ l) j = Some u -> u <= v /\ ((j < k)%nat -> u < v).
Proof.
  intros l. revert seen b bi. induction l as [|x l IH]; intros seen b bi i Hi Hb Hmin.
  - cbn. exists b. rewrite app_nil_r. auto.
  - cbn [map argmax_from is_nan orb].
    assert (Hlt : (bi < length seen)%nat) by (apply nth_error_Some; congruence).
    assert (Hs : forall j u, nth_error (seen ++ [x]) j = Some u -> nth_error seen j = Some u \/ (j = length seen /\ u = x)).
    { intros j u H. destruct (Nat.lt_ge_cases j (length seen)) as [L|L].
      - left. now rewrite nth_error_app1 in H.
      - right. rewrite nth_error_app2 in H by auto. destruct (j - length seen)%nat as [|[|q]] eqn:E; cbn in H; try discriminate.
        split; [lia|congruence]. }
    replace (seen ++ x :: l) with ((seen ++ [x]) ++ l) by (rewrite <- app_assoc; auto).
    destruct (Rlt_le_dec b x) as [L|L].
    + rewrite nlt_t by auto. apply IH.
      * rewrite app_length; simpl; lia.
      * rewrite Hi, nth_error_app2, Nat.sub_diag by lia. reflexivity.
      * intros j v H. apply Hs in H. destruct H as [H|[-> ->]].
        -- apply Hmin in H. split; [lra|intros; lra].
        -- split; [lra|lia].
    + rewrite nlt_f by auto. apply IH.
      * rewrite app_length; simpl; lia.
      * now rewrite nth_error_app1.
      * intros j v H. apply Hs in H. destruct H as [H|[-> ->]]; [now apply Hmin|]. split; [lra|lia].
Qed.
Lemma argmax_spec (l : list R) : l <> [] -> exists v, nth_error l (argmax (map Fin l)) = Some v /\
  forall j u, nth_error l j = Some u -> u <= v /\ ((j < argmax (map Fin l))%nat -> u < v).
Proof.
  destruct l as [|x l]; [congruence|]. intros _.
  apply (argmax_from_spec [x] x 0 l 1); auto.
  intros [|[|j]] v H; cbn in H; inversion H; subst. split; [lra|lia].
Qed.
