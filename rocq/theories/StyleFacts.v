(** StyleFacts.v -- proofs about global settings. *)
From Coq Require Import String List Bool ZArith.
From Verif Require Import Num Style StyleSpec.
Import ListNotations.
Open Scope string_scope.

Section Facts.
  Variable validate : string -> rcval -> res rcval.
  Notation exec := (exec validate).
  Lemma bind_exec p k : forall w, exec (bind p k) w = exec (k (snd (exec p w))) (fst (exec p w)).
  Proof.
    induction p as [r|c IH|key v c IH|o c IH|l c IH|m body IB c IH]; intros w; cbn [bind Style.exec]; auto.
    - destruct (validate key v); apply IH.
    - destruct (enter validate m w) as [w1 [u|e]]; [destruct (Style.exec validate body w1) as [w2 r]|]; apply IH.
  Qed.
  Lemma seq_exec p q w : exec (seq p q) w = match exec p w with (w', Ok _) => exec q w' | (w', Err e) => (w', Err e) end.
  Proof. unfold seq. rewrite bind_exec. destruct (exec p w) as [w' [u|e]]; reflexivity. Qed.
  Lemma update_rest l : forall w, same_rest w (fst (update validate l w)).
  Proof. induction l as [|[k v] l IH]; intros w; cbn [update]; [split; reflexivity|]. destruct (validate k v); [|split; reflexivity]. destruct (IH (set_rc k a w)) as [A B]. split; [exact A|exact B]. Qed.
  (** ** The style *)
  Lemma decorated_gen body c w : exists w' r, exec (In StyleContext body c) w = exec (c r) w' /\ same_style w w'.
  Proof.
    cbn [Style.exec]. destruct (enter validate StyleContext w) as [w1 r1]. destruct (match r1 with Ok _ => exec body w1 | Err e => (w1, Err e) end) as [w2 r].
    eexists _, r. split; [reflexivity|]. intros k K. cbn. now rewrite (proj2 (String.eqb_neq k "backend") K).
  Qed.
  Lemma decorated body w : same_style w (fst (exec (legwork_plot_style body) w)).
  Proof. destruct (decorated_gen body raise_or_return w) as (w' & r & E & S). unfold legwork_plot_style. now rewrite E. Qed.
  Lemma after_call body c w : exists w' r, exec (legwork_plot_style body) w = (w', r) /\ exec (bind (legwork_plot_style body) c) w = exec (c r) w' /\ same_style w w'.
  Proof. exists (fst (exec (legwork_plot_style body) w)), (snd (exec (legwork_plot_style body) w)). split; [apply surjective_pairing|]. split; [apply bind_exec|apply decorated]. Qed.
  Lemma same_refl w : same_style w w. Proof. intros k _. reflexivity. Qed.
  Lemma same_trans w1 w2 w3 : same_style w1 w2 -> same_style w2 w3 -> same_style w1 w3.
  Proof. intros A B k K. rewrite (B k K). now apply A. Qed.
  Lemma tree_thm p : call_tree p -> forall w, same_style w (fst (exec p w)).
  Proof.
    induction 1 as [r|c _ IH|body c _ IH]; intros w; [apply same_refl|apply IH|].
    rewrite bind_exec. eapply same_trans; [apply decorated|apply IH].
  Qed.
  Lemma functions_thm before draw after supplied detectable curve middle points w :
    same_style w (fst (exec (style_1D before draw after) w)) /\ same_style w (fst (exec (style_2D before draw after) w)) /\
    same_style w (fst (exec (style_curve before draw after) w)) /\ same_style w (fst (exec (style_on_sc supplied detectable curve middle points after) w)).
  Proof. repeat split; apply decorated. Qed.
  Lemma methods_thm computed call rest : match call with Some p => exists body, p = legwork_plot_style body | None => True end ->
    forall w, same_style w (fst (exec (style_method computed call rest) w)).
  Proof.
    intros C w. unfold style_method. rewrite seq_exec. cbn [Style.exec]. destruct computed; [|apply same_refl]. rewrite seq_exec.
    destruct call as [p|]; [|apply same_refl]. destruct C as [body ->]. pose proof (decorated body w) as D. destruct (exec _ w) as [w' [u|e]]; exact D.
  Qed.
  (** Inside the style is in force. *)
  Lemma update_other l : forall w k, ~ List.In k (map fst l) -> g_rc (fst (update validate l w)) k = g_rc w k.
  Proof.
    induction l as [|[k' v] l IH]; intros w k N; cbn [update map fst] in *; auto. destruct (validate k' v) as [v'|]; auto.
    rewrite IH by (intros I; apply N; now right). cbn. destruct (String.eqb_spec k k'); auto. subst. elim N. now left.
  Qed.
  Lemma update_ok l : NoDup (map fst l) -> forall w, snd (update validate l w) = Ok tt ->
    forall k v, List.In (k, v) l -> validate k v = Ok (g_rc (fst (update validate l w)) k).
  Proof.
    induction l as [|[k' v'] l IH]; intros ND w E k v I; [contradiction|]. cbn [map fst] in ND. inversion ND as [|? ? N1 N2]; subst. cbn [update] in *.
    destruct (validate k' v') as [u|] eqn:V; [|discriminate]. destruct I as [I|I].
    - injection I as <- <-. rewrite update_other by auto. cbn. now rewrite String.eqb_refl.
    - now apply IH.
  Qed.
  Lemma style_nodup : NoDup (map fst style_params).
  Proof. cbn. repeat (constructor; [cbn; intuition discriminate|]). constructor. Qed.
  Lemma inside_thm body w : (forall k v, List.In (k, v) style_params -> exists v', validate k v = Ok v') ->
    exists w1, in_style validate w1 /\ same_rest w w1 /\ snd (exec (legwork_plot_style body) w) = snd (exec body w1).
  Proof.
    intros V. assert (E : snd (update validate style_params w) = Ok tt).
    { revert V w. generalize style_params as l. induction l as [|[k v] l IH]; intros V w; cbn [update]; auto.
      destruct (V k v (or_introl eq_refl)) as [v' ->]. apply IH. intros k1 v1 I. apply V. now right. }
    exists (fst (update validate style_params w)). split; [|split].
    - intros k v I. apply update_ok; auto. exact style_nodup.
    - apply update_rest.
    - cbn [legwork_plot_style Style.exec enter]. destruct (update validate style_params w) as [w1 r1]. cbn [fst snd] in *. subst r1.
      destruct (exec body w1) as [w2 r]. reflexivity.
  Qed.
  Lemma style_thm w : in_style validate w ->
    validate "font.family" (RStr "serif") = Ok (g_rc w "font.family") /\ validate "text.usetex" (RBool false) = Ok (g_rc w "text.usetex") /\
    validate "xtick.minor.visible" (RBool true) = Ok (g_rc w "xtick.minor.visible") /\ validate "ytick.minor.visible" (RBool true) = Ok (g_rc w "ytick.minor.visible").
  Proof. intros S. repeat split; apply S; cbn; tauto. Qed.
  (** A parameter matplotlib does not accept: the call raises, nothing is changed. *)
  Lemma refused_thm body w e : snd (update validate style_params w) = Err e -> exists w', exec (legwork_plot_style body) w = (w', Err e) /\ same_style w w'.
  Proof.
    intros E. exists (fst (exec (legwork_plot_style body) w)). split; [|apply decorated]. cbn [legwork_plot_style Style.exec enter].
    destruct (update validate style_params w) as [w1 r1]. cbn [snd] in E. subst r1. reflexivity.
  Qed.

  (** ** How calls end *)
  Lemma ends_seq p q r l : ends validate p r -> ends validate q (first_error l) -> ends validate (seq p q) (first_error (r :: l)).
  Proof. intros P Q w. rewrite seq_exec. specialize (P w). destruct (exec p w) as [w' o]. cbn [snd] in P. subst o. destruct r as [u|e]; [apply Q|reflexivity]. Qed.
  Lemma first_one r : first_error [r] = r. Proof. destruct r as [[]|e]; reflexivity. Qed.
  Lemma ends_block m body r : m <> StyleContext -> ends validate body r -> ends validate (block m body) r.
  Proof.
    intros M B w. destruct m; [congruence| |]; cbn [block Style.exec enter];
      match goal with |- context [Style.exec validate body ?x] => specialize (B x); destruct (Style.exec validate body x) as [w2 o] end; exact B.
  Qed.
  Lemma ends_style body r : accepted validate -> ends validate body r -> ends validate (legwork_plot_style body) r.
  Proof. intros A B w. destruct (inside_thm body w A) as (w1 & _ & _ & ->). apply B. Qed.
  Lemma ends_filter draw r : ends validate draw r -> ends validate (add_filter draw) r.
  Proof. intros D w. cbn [add_filter Style.exec]. apply D. Qed.
  Lemma outcome_thm before draw after curve middle points r1 r2 r3 rc rm rp supplied detectable : accepted validate ->
    ends validate before r1 -> ends validate draw r2 -> ends validate after r3 -> ends validate curve rc -> ends validate middle rm -> ends validate points rp ->
    ends validate (style_1D before draw after) (first_error [r1; r2; r3]) /\ ends validate (style_2D before draw after) (first_error [r1; r2; r3]) /\
    ends validate (style_curve before draw after) (first_error [r1; r2; r3]) /\
    ends validate (style_on_sc supplied detectable curve middle points after) (first_error ((if supplied then [] else [rc]) ++ [rm] ++ (if detectable then [rp; r3] else []))).
  Proof.
    intros V B D A C M P. assert (U : ends validate (block QuantitySupport draw) r2) by (apply ends_block; [discriminate|exact D]).
    assert (L : ends validate after (first_error [r3])) by (now rewrite first_one).
    split; [|split; [|split]]; apply ends_style; auto.
    - now repeat apply ends_seq.
    - now repeat apply ends_seq.
    - repeat apply ends_seq; auto. apply ends_block; [discriminate|]. apply ends_block; [discriminate|]. now apply ends_filter.
    - assert (N : ends validate (seq middle (if detectable then seq points after else skip)) (first_error ([rm] ++ (if detectable then [rp; r3] else [])))).
      { apply ends_seq; auto. destruct detectable; [now apply ends_seq|intros w; reflexivity]. }
      destruct supplied; [|now apply ends_seq]. intros w. rewrite seq_exec. cbn [skip Style.exec]. apply N.
  Qed.
  Lemma method_outcome computed call rest rp : match call with Some p => ends validate p rp | None => rp = Ok tt end ->
    ends validate (style_method computed call rest) (first_error [computed; rp; rest]).
  Proof.
    intros C. unfold style_method. apply ends_seq; [intros w; reflexivity|]. apply ends_seq; [|intros w; cbn [Style.exec snd]; now rewrite first_one].
    destruct call; [exact C|]. subst rp. intros w. reflexivity.
  Qed.
  (** ** Converters and filters *)
  Lemma rest_refl w : same_rest w w. Proof. split; reflexivity. Qed.
  Lemma rest_trans w1 w2 w3 : same_rest w1 w2 -> same_rest w2 w3 -> same_rest w1 w3.
  Proof. intros [A B] [C D]. split; congruence. Qed.
  Lemma tidy_seq p q : tidy validate p -> tidy validate q -> tidy validate (seq p q).
  Proof. intros P Q w. rewrite seq_exec. pose proof (P w) as PW. destruct (exec p w) as [w' [u|e]]; auto. eapply rest_trans; [exact PW|apply Q]. Qed.
  Lemma tidy_style body : tidy validate body -> tidy validate (legwork_plot_style body).
  Proof.
    intros B w. cbn [legwork_plot_style Style.exec enter]. pose proof (update_rest style_params w) as U. destruct (update validate style_params w) as [w1 [u|e]]; cbn [fst] in U.
    - pose proof (B w1) as BW. destruct (exec body w1) as [w2 r]. cbn [fst] in BW. cbn [raise_or_return Style.exec fst leave]. destruct (rest_trans _ _ _ U BW) as [A C]. split; [exact A|exact C].
    - cbn [raise_or_return Style.exec fst leave]. destruct U as [A C]. split; [exact A|exact C].
  Qed.
  Lemma tidy_units body : keeps_filters validate body -> tidy validate (block QuantitySupport body).
  Proof.
    intros B w. cbn [block Style.exec enter]. pose proof (B (with_converter (Some 0%nat) w)) as F. destruct (exec body _) as [w2 r]. cbn. split; [reflexivity|exact F].
  Qed.
  Lemma catch_keeps body : keeps_filters validate (block CatchWarnings body).
  Proof. intros w. cbn [block Style.exec enter]. destruct (exec body w) as [w2 r]. reflexivity. Qed.
  Lemma dist_tidy before draw after : tidy validate before -> keeps_filters validate draw -> tidy validate after ->
    tidy validate (style_1D before draw after) /\ tidy validate (style_2D before draw after).
  Proof. intros A B C. split; apply tidy_style, tidy_seq; auto; apply tidy_seq; auto; now apply tidy_units. Qed.
  Lemma curve_tidy before draw after : tidy validate before -> tidy validate after -> tidy validate (style_curve before draw after).
  Proof. intros A C. apply tidy_style, tidy_seq; auto. apply tidy_seq; auto. apply tidy_units, catch_keeps. Qed.
  Lemma skip_tidy : tidy validate skip. Proof. intros w. apply rest_refl. Qed.
  Lemma on_sc_tidy supplied detectable curve middle points after : tidy validate curve -> tidy validate middle -> tidy validate points -> tidy validate after ->
    tidy validate (style_on_sc supplied detectable curve middle points after).
  Proof.
    intros A B C D. apply tidy_style, tidy_seq; [destruct supplied; auto using skip_tidy|]. apply tidy_seq; auto. destruct detectable; auto using skip_tidy, tidy_seq.
  Qed.
  Lemma method_tidy computed call rest : match call with Some p => tidy validate p | None => True end -> tidy validate (style_method computed call rest).
  Proof.
    intros C. unfold style_method. apply tidy_seq; [intros w; apply rest_refl|]. apply tidy_seq; [destruct call; auto using skip_tidy|]. intros w; apply rest_refl.
  Qed.
  Lemma tidy_thm before draw draw' after supplied detectable middle computed rest :
    tidy validate before -> keeps_filters validate draw -> tidy validate after -> tidy validate middle ->
    let curve := style_curve before draw' after in
    let points := style_2D before draw after in
    let on_sc := style_on_sc supplied detectable curve middle points after in
    tidy validate (style_1D before draw after) /\ tidy validate points /\ tidy validate curve /\ tidy validate on_sc /\
    tidy validate (style_method computed (Some on_sc) rest) /\ tidy validate (style_method computed (Some points) rest).
  Proof.
    intros A B C M curve points on_sc. destruct (dist_tidy before draw after A B C) as [D1 D2]. pose proof (curve_tidy before draw' after A C) as D3.
    assert (D4 : tidy validate on_sc) by now apply on_sc_tidy. repeat split; try (apply method_tidy); auto; try apply D1; try apply D2; try apply D3; try apply D4.
  Qed.
End Facts.
