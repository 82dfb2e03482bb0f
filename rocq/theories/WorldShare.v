(** WorldShare.v -- arrays that a collection shares with its user or with another collection (C92). *)
From Coq Require Import String Reals ZArith List Bool Lia.
From Verif Require Import Num Np Utils ScParams Source Index History InitFacts World WorldSpec WorldFacts WorldThms WorldSim WorldSteps WorldEvents WorldProofs.
Import ListNotations.
Open Scope list_scope.
Open Scope nat_scope.

Lemma values_view w t o : values_of t (view w o) = option_map (nums (w_heap w)) (array_of t o).
Proof. destruct t; reflexivity. Qed.
Lemma depends x w i t a : attr_array w i t a -> depends_on x w i t a.
Proof.
  intros H. split; [exact H|]. destruct H as (o & O & A). intros k y l L. cbn [w_step]. unfold done, wbind. rewrite L. cbn [write fst wret]. unfold contents. cbn [w_objs]. rewrite O. cbn [option_map].
  rewrite values_view, A. cbn [option_map w_heap]. f_equal. f_equal. unfold nums. rewrite nth_replace_eq by exact (nth_some_lt _ _ _ L). reflexivity.
Qed.
Lemma new_takes x k g w s o t a : init x k (read_args (w_heap w) g) = Ok s -> takes (kept_args g) s o -> passed g t = Some a -> array_of t o = Some a.
Proof.
  intros H (T1 & T2 & T3 & T4 & T5 & T6 & T7 & T8) P. apply init_fwd in H. destruct H as (f & pos & inc & pol & [C1 C2 (fv & C3 & -> & C3') C4 C5 C6] & F).
  destruct (finish_arrays _ _ _ _ F) as (E1 & E2 & E3 & E4 & E5 & E6 & E7 & E8 & E9 & _). destruct t; cbn [passed array_of] in *; try (f_equal; auto; fail); try discriminate.
  - apply T6; [|exact P]. rewrite E6. cbn. unfold InitFacts.weights_of. cbn [read_args i_weights]. rewrite (exists_arg _ _ _ P). discriminate.
  - apply T7; [|exact P]. rewrite E8. cbn. cbn [read_args i_position i_inclination i_polarisation] in C2. rewrite (angles_arg _ _ _ P) in C2.
    destruct (n_position g) as [p|]; [|destruct C2; discriminate]. destruct C2 as (C2 & _). congruence.
  - apply T8; [|exact P]. rewrite E9. cbn. cbn [read_args i_position i_inclination i_polarisation] in C2. rewrite (angles_arg _ _ _ P) in C2.
    destruct (n_position g) as [p|]; [|destruct C2 as (_ & C2 & _); discriminate]. destruct C2 as (_ & C2 & _). congruence.
Qed.
Lemma kept_thm x w k g w' j t a : w_step x (New k g) w = (w', Ok (Collection j)) -> passed g t = Some a -> depends_on x w' j t a.
Proof.
  cbn [w_step]. intros H P. apply bind_ok in H. destruct H as (w1 & i & H & E). unfold wret in E. injection E as <- <-. unfold w_new in H. apply bind_ok in H. destruct H as (w2 & s & H & B).
  unfold wlift in H. injection H as <- H. destruct (build_takes _ _ _ _ _ B) as (o & O & T). apply depends. exists o. split; [exact O|]. exact (new_takes x k g w s o t a H T P).
Qed.
Lemma pres_attr_assign i t a j f : (forall o, array_of t (f o) = array_of t o) -> pres (fun w => attr_array w i t a) (assign j f).
Proof.
  intros F w (o & O & E). unfold assign. destruct (nth_error (w_objs w) j) as [oj|] eqn:Oj; [|exists o; auto]. cbn. destruct (Nat.eq_dec i j) as [->|N].
  - exists (f oj). split; [apply nth_replace_eq; exact (nth_some_lt _ _ _ Oj)|]. rewrite F. congruence.
  - exists o. cbn. rewrite nth_replace_ne by auto. auto.
Qed.
Lemma pres_attr_heap i t a {A} (m : WM A) : (forall w, w_objs (fst (m w)) = w_objs w) -> pres (fun w => attr_array w i t a) m.
Proof. intros H w (o & O & E). exists o. rewrite H. auto. Qed.
Lemma pres_ensure x i j t a : inherited t -> pres (fun w => attr_array w i t a) (w_ensure_t_merge x j).
Proof.
  intros T. unfold w_ensure_t_merge. apply pres_bind; [apply pres_look|]. intros s. destruct (s_t_merge s); [apply pres_ret|]. apply pres_bind.
  - unfold w_merger_time. apply pres_bind; [apply pres_look|]. intros s'. cbn zeta. do 3 (apply pres_bind; [apply pres_lift|]; intros ?). apply pres_bind; [|intros ?; apply pres_lift].
    apply pres_bind; [now apply pres_attr_heap|]. intros b. apply pres_attr_assign. intros o. destruct t; try contradiction; reflexivity.
  - intros ?. apply pres_bind; [apply pres_look|]. intros s'. destruct (s_t_merge s'); [apply pres_ret|apply pres_lift].
Qed.
Lemma place_objs a v w w' b : place a v w = (w', Ok b) -> w_objs w' = w_objs w.
Proof. destruct a; cbn; [unfold wret|]; intros H; injection H as <- <-; reflexivity. Qed.
Lemma place_opt_objs a v w w' b : place_opt a v w = (w', Ok b) -> w_objs w' = w_objs w.
Proof.
  destruct v as [v|]; cbn [place_opt]; [|unfold wret; intros H; injection H as <- <-; reflexivity]. intros H. apply bind_ok in H. destruct H as (w1 & c & H & E). unfold wret in E. injection E as <- <-. exact (place_objs _ _ _ _ _ H).
Qed.
Lemma build_keeps h s w w' j i o : build h s w = (w', Ok j) -> nth_error (w_objs w) i = Some o -> nth_error (w_objs w') i = Some o.
Proof.
  unfold build. intros H O.
  do 5 (apply bind_ok in H; destruct H as (? & ? & E & H); rewrite <- (place_objs _ _ _ _ _ E) in O; clear E).
  do 7 (apply bind_ok in H; destruct H as (? & ? & E & H); rewrite <- (place_opt_objs _ _ _ _ _ E) in O; clear E).
  apply bind_ok in H; destruct H as (? & ? & E & H); rewrite <- (place_objs _ _ _ _ _ E) in O; clear E. cbn in H. injection H as <- <-. cbn [w_objs]. now rewrite nth_before by exact (nth_some_lt _ _ _ O).
Qed.
Lemma evolve_takes x w o new t_evol on t a tm : ensure_t_merge x (view w o) = (view w o, Ok tm) -> snd (evolve_new x t_evol (view w o)) = Ok new -> takes (kept_evolving o) new on ->
  inherited t -> array_of t o = Some a -> array_of t on = Some a.
Proof.
  intros E H (T1 & T2 & T3 & _ & _ & _ & T7 & T8) T A. destruct (evolve_new_init _ _ _ _ H) as (tm' & s1 & mg & ecc & f & tol & base & H1 & H2 & H3 & D1 & D2 & D3 & D4 & D5 & _). rewrite E in H1. injection H1 as <- <-.
  apply init_fwd in H3. destruct H3 as (f' & pos & inc & pol & [C1 C2 _ C4 C5 C6] & F). destruct (finish_arrays _ _ _ _ F) as (E1 & E2 & E3 & E4 & E5 & E6 & E7 & E8 & E9 & _).
  destruct t; try contradiction; cbn [array_of] in *; try (injection A as <-; f_equal; auto; fail).
  - apply T7; [|exact A]. rewrite D4, E8. cbn. cbn [i_position i_inclination i_polarisation] in C2.
    assert (Ei : s_inclination (view w o) = Some (nums (w_heap w) a)) by (cbn; now rewrite A). rewrite Ei in C2. destruct (s_position (view w o)) as [p|]; [|destruct C2; discriminate]. destruct C2 as (C2 & _). congruence.
  - apply T8; [|exact A]. rewrite D5, E9. cbn. cbn [i_position i_inclination i_polarisation] in C2.
    assert (Ei : s_polarisation (view w o) = Some (nums (w_heap w) a)) by (cbn; now rewrite A). rewrite Ei in C2. destruct (s_position (view w o)) as [p|]; [|destruct C2 as (_ & C2 & _); discriminate]. destruct C2 as (_ & C2 & _). congruence.
Qed.
Lemma evolved_thm x w i t_evol w' j t a : reached x w -> w_step x (EvolveNew i t_evol) w = (w', Ok (Collection j)) -> inherited t -> attr_array w i t a ->
  depends_on x w' i t a /\ depends_on x w' j t a.
Proof.
  intros R H T A. pose proof (reached_inv _ _ R) as I. cbn [w_step] in H. apply bind_ok in H. destruct H as (wa & ja & H & E). unfold wret in E. injection E as <- <-.
  unfold w_evolve_new in H. apply bind_ok in H. destruct H as (w1 & tm & Een & H). pose proof (pres_ensure x i i t a T w A) as A1. rewrite Een in A1. cbn [fst] in A1. destruct A as (o & O & A). destruct A1 as (o1 & O1 & A1).
  destruct (good_ensure x i (fun _ => True) w o I O Logic.I) as (w1' & r & s1 & r' & E1 & E2 & K & C & X). rewrite Een in E1. injection E1 as <- <-. rewrite (contents_view _ _ _ O1) in C. apply some_inj in C.
  destruct r' as [tm'|e']; [|contradiction]. apply ensure_again in E2. rewrite <- C in E2.
  apply bind_ok in H. destruct H as (w2 & s & H2 & H). unfold look in H2. rewrite (contents_view _ _ _ O1) in H2. injection H2 as <- <-.
  apply bind_ok in H. destruct H as (w2 & ob & H2 & H). unfold get_obj in H2. rewrite O1 in H2. injection H2 as <- <-.
  apply bind_ok in H. destruct H as (w2 & new & H2 & B). unfold wlift in H2. injection H2 as <- H2. destruct (build_takes _ _ _ _ _ B) as (on & On & Tk). split; apply depends.
  - exists o1. split; [exact (build_keeps _ _ _ _ _ _ _ B O1)|exact A1].
  - exists on. split; [exact On|]. exact (evolve_takes x w1 o1 new t_evol on t a tm' E2 H2 Tk T A1).
Qed.
