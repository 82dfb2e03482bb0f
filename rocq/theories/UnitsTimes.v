(** UnitsTimes.v -- every call of evol.py rejects times that are no times. *)
From Coq Require Import String Reals ZArith List Bool Lra Lia.
From Verif Require Import Num NumFacts Np NpFacts Utils UtilsFacts Strain Evol EvolFacts Units UnitsSpec UnitsFacts UnitsThms UnitsStrain UnitsEvol UnitsEvolSpec UnitsEvolFacts UnitsEvolThms UnitsEvolRuns UnitsEccRuns UnitsSnrEvol.
Import ListNotations.
Open Scope list_scope.
Open Scope R_scope.
Open Scope res_scope.

(** *** Broadcasting *)
Definition fits (n m : nat) : bool := ((n =? m) || (n =? 1) || (m =? 1))%nat.
Definition blen (n m : nat) : nat := if (n =? m)%nat then n else if (n =? 1)%nat then m else n.
Lemma mapM_in {A B} (f : A -> res B) l r : mapM f l = Ok r -> forall x, List.In x l -> exists y, List.In y r /\ f x = Ok y.
Proof.
  revert r. induction l as [|a l IH]; cbn; intros r E x I; [contradiction|].
  destruct (f a) as [b|] eqn:F; [|discriminate]. cbn in E. destruct (mapM f l) as [bs|] eqn:G; [|discriminate]. injection E as <-.
  destruct I as [<-|I]; [exists b; split; [now left|exact F]|]. destruct (IH _ eq_refl x I) as (y & Y & Z). exists y. split; [now right|exact Z].
Qed.
Lemma mapM_err {A B} (f : A -> res B) l e : mapM f l = Err e -> exists x, List.In x l /\ f x = Err e.
Proof.
  induction l as [|a l IH]; cbn; intros E; [discriminate|].
  destruct (f a) as [b|] eqn:F; cbn in E; [|injection E as <-; exists a; split; [now left|exact F]].
  destruct (mapM f l); [discriminate|]. injection E as <-. destruct (IH eq_refl) as (x & I & X). exists x. split; [now right|exact X].
Qed.
Lemma mapM_len {A B} (f : A -> res B) l r : mapM f l = Ok r -> length r = length l.
Proof.
  revert r. induction l as [|a l IH]; cbn; intros r E; [now injection E as <-|].
  destruct (f a); [|discriminate]. cbn in E. destruct (mapM f l); [|discriminate]. injection E as <-. cbn. now rewrite IH.
Qed.
Lemma map2M_in {A B C} (f : A -> B -> res C) l1 l2 r : map2M f l1 l2 = Ok r -> length l1 = length l2 ->
  (forall y, List.In y l2 -> exists x z, List.In x l1 /\ List.In z r /\ f x y = Ok z) /\
  (forall x, List.In x l1 -> exists y z, List.In y l2 /\ List.In z r /\ f x y = Ok z) /\ length r = length l1.
Proof.
  revert l2 r. induction l1 as [|a l1 IH]; intros [|b l2] r; cbn; try discriminate.
  - intros E _. injection E as <-. split; [intros ? []|]. split; [intros ? []|reflexivity].
  - intros E L. destruct (f a b) as [c|] eqn:F; [|discriminate]. cbn in E. destruct (map2M f l1 l2) as [cs|] eqn:G; [|discriminate].
    injection E as <-. injection L as L. destruct (IH _ _ G L) as (P & Q & N). split; [|split].
    + intros y J. destruct J as [<-|J]; [exists a, c; cbn; auto|]. destruct (P y J) as (x & z & X & Z & W). exists x, z. cbn. auto.
    + intros x J. destruct J as [<-|J]; [exists b, c; cbn; auto|]. destruct (Q x J) as (y & z & X & Z & W). exists y, z. cbn. auto.
    + cbn. now rewrite N.
Qed.
Lemma map2M_err {A B C} (f : A -> B -> res C) l1 l2 e : map2M f l1 l2 = Err e ->
  exists x y, List.In x l1 /\ List.In y l2 /\ f x y = Err e.
Proof.
  revert l2. induction l1 as [|a l1 IH]; intros [|b l2]; cbn; try discriminate. intros E.
  destruct (f a b) as [c|] eqn:F; cbn in E; [|injection E as <-; exists a, b; auto].
  destruct (map2M f l1 l2) eqn:G; [discriminate|]. injection E as <-. destruct (IH _ G) as (x & y & I & J & W). exists x, y. auto.
Qed.
Lemma bzipM_in {A B C} (f : A -> B -> res C) l1 l2 r : bzipM f l1 l2 = Ok r ->
  fits (length l1) (length l2) = true /\ length r = blen (length l1) (length l2) /\
  (l1 <> [] -> forall y, List.In y l2 -> exists x z, List.In x l1 /\ List.In z r /\ f x y = Ok z) /\
  (l2 <> [] -> forall x, List.In x l1 -> exists y z, List.In y l2 /\ List.In z r /\ f x y = Ok z).
Proof.
  unfold bzipM, fits, blen. destruct (length l1 =? length l2)%nat eqn:L.
  - apply Nat.eqb_eq in L. intros E. destruct (map2M_in _ _ _ _ E L) as (P & Q & N). cbn. auto.
  - destruct l1 as [|a [|a' l1]].
    + destruct l2 as [|b [|b' l2]]; try discriminate. cbn. intros E. injection E as <-. split; [reflexivity|]. split; [reflexivity|]. split; [congruence|]. intros _ x [].
    + intros E. split; [reflexivity|]. split; [now apply mapM_len in E|]. pose proof (mapM_in _ _ _ E) as M. split.
      * intros _ y I. destruct (M y I) as (z & Z & W). exists a, z. cbn. auto.
      * intros N x [<-|[]]. destruct l2 as [|b l2]; [congruence|]. destruct (M b (or_introl eq_refl)) as (z & Z & W). exists b, z. cbn. auto.
    + destruct l2 as [|b [|b' l2]]; try discriminate. intros E. split; [reflexivity|]. split; [now apply mapM_len in E|].
      pose proof (mapM_in _ _ _ E) as M. split.
      * intros _ y [<-|[]]. destruct (M a (or_introl eq_refl)) as (z & Z & W). exists a, z. cbn. auto.
      * intros _ x I. destruct (M x I) as (z & Z & W). exists b, z. cbn. auto.
Qed.
Lemma bzipM_err {A B C} (f : A -> B -> res C) l1 l2 e : bzipM f l1 l2 = Err e ->
  (exists x y, List.In x l1 /\ List.In y l2 /\ f x y = Err e) \/ (e = ValueError /\ fits (length l1) (length l2) = false).
Proof.
  unfold bzipM, fits. destruct (length l1 =? length l2)%nat eqn:L.
  - intros E. left. now apply map2M_err.
  - destruct l1 as [|a [|a' l1]].
    + destruct l2 as [|b [|b' l2]]; try discriminate. intros E. right. split; [congruence|reflexivity].
    + intros E. left. destruct (mapM_err _ _ _ E) as (y & I & W). exists a, y. cbn. auto.
    + destruct l2 as [|b [|b' l2]]; intros E.
      * right. split; [congruence|reflexivity].
      * left. destruct (mapM_err _ _ _ E) as (x & I & W). exists x, b. cbn in *. auto.
      * right. split; [congruence|reflexivity].
Qed.
(** A column against rows. *)
Lemma column_ok {A B C} (g : A -> B -> C) l rows : fits (length l) (length rows) = true ->
  exists r, bzip2 g (newaxis l) rows = Ok r /\ length r = blen (length l) (length rows) /\
    (l <> [] -> forall row v, List.In row rows -> List.In v row -> exists a z, List.In a l /\ List.In z r /\ List.In (g a v) z).
Proof.
  intros F. assert (LN : length (newaxis l) = length l) by apply map_length.
  assert (IN : forall a, List.In a (newaxis l) -> exists b, List.In b l /\ a = [b]).
  { intros a I. apply in_map_iff in I. destruct I as (b & <- & I). eauto. }
  destruct (bzip2 g (newaxis l) rows) as [r|e] eqn:E.
  - exists r. split; [reflexivity|]. apply bzipM_in in E. destruct E as (_ & L & P & _). rewrite LN in L. split; [exact L|].
    intros N row v R V. destruct P with (y := row) as (x & z & X & Z & W); [now destruct l|exact R|].
    destruct (IN _ X) as (b & IB & ->). rewrite bzip_single_l in W. injection W as <-. exists b, (map (g b) row). split; [exact IB|].
    split; [exact Z|]. now apply in_map.
  - apply bzipM_err in E. destruct E as [(x & y & X & _ & W)|(_ & G)].
    + destruct (IN _ X) as (b & _ & ->). now rewrite bzip_single_l in W.
    + rewrite LN in G. congruence.
Qed.
Lemma column_rejects {A B C} (h : A -> B -> res C) l rows e :
  fits (length l) (length rows) = true -> l <> [] ->
  (forall a row v e', List.In a l -> List.In row rows -> List.In v row -> h a v = Err e' -> e' = e) ->
  (exists row v, List.In row rows /\ List.In v row /\ forall a, List.In a l -> h a v = Err e) ->
  bzip2M h (newaxis l) rows = Err e.
Proof.
  intros F N AE (row & v & R & V & W). assert (LN : length (newaxis l) = length l) by apply map_length.
  assert (IN : forall a, List.In a (newaxis l) -> exists b, List.In b l /\ a = [b]).
  { intros a I. apply in_map_iff in I. destruct I as (b & <- & I). eauto. }
  destruct (bzip2M h (newaxis l) rows) as [r|e'] eqn:E.
  - apply bzipM_in in E. destruct E as (_ & _ & P & _). destruct P with (y := row) as (x & z & X & Z & Q); [now destruct l|exact R|].
    destruct (IN _ X) as (b & IB & ->). rewrite bzipM_single_l in Q. destruct (mapM_in _ _ _ Q v V) as (y & _ & Y). rewrite W in Y by exact IB. discriminate.
  - apply bzipM_err in E. destruct E as [(x & y & X & Y & Q)|(_ & G)].
    + destruct (IN _ X) as (b & IB & ->). rewrite bzipM_single_l in Q. destruct (mapM_err _ _ _ Q) as (z & Z & Q'). f_equal. eapply AE; eassumption.
    + rewrite LN in G. congruence.
Qed.

(** *** Sums, comparisons, conversions *)
Lemma sum_error op a b e : vsum op a b = Err e -> e = UnitError.
Proof. destruct a, b; cbn [vsum]; repeat destruct (dim_eqb _ _); repeat destruct (arbitrary_unit _); congruence. Qed.
Lemma compare_error op a b e : vcompare op a b = Err e -> e = UnitError.
Proof. destruct a, b; cbn [vcompare]; repeat destruct (dim_eqb _ _); repeat destruct (arbitrary_unit _); congruence. Qed.
Lemma compare_wrong op a b : dim_of a <> dim_of b ->
  (is_quantity a = false -> arbitrary_unit (mag a) = false) ->
  (is_quantity b = false -> arbitrary_unit (mag b) = false) -> vcompare op a b = Err UnitError.
Proof.
  intros D A B. unfold dim_of in D. destruct a as [x|x u], b as [y|y w]; cbn [unit_of u_dim one_] in D.
  - congruence.
  - cbn [vcompare]. rewrite dim_eqb_neq by congruence. cbn in A. now rewrite A.
  - cbn [vcompare]. rewrite dim_eqb_neq by congruence. cbn in B. now rewrite B.
  - cbn [vcompare]. now rewrite dim_eqb_neq by congruence.
Qed.
Lemma to_error v u e : to v u = Err e -> e = UnitError \/ e = AttributeError.
Proof. destruct v; cbn [to]; [intros E; right; congruence|]. destruct (dim_eqb _ _); [discriminate|]. intros E. left. congruence. Qed.
Lemma to_not v u w : dim_of v <> u_dim u -> to v u <> Ok w.
Proof. intros D. destruct v as [x|x w']; cbn [to]; [discriminate|]. rewrite dim_eqb_neq by exact D. discriminate. Qed.
Lemma mapM_rejects {A B} (f : A -> res B) l : (forall x e, List.In x l -> f x = Err e -> e = UnitError \/ e = AttributeError) ->
  (exists x, List.In x l /\ forall y, f x <> Ok y) -> rejects (mapM f l).
Proof.
  intros E (x & I & N). destruct (mapM f l) as [r|e] eqn:M.
  - destruct (mapM_in _ _ _ M x I) as (y & _ & Y). now elim (N y).
  - destruct (mapM_err _ _ _ M) as (z & J & Z). destruct (E z e J Z) as [-> | ->]; [left|right]; reflexivity.
Qed.
Lemma to_value_error v u e : to_value v u = Err e -> e = UnitError \/ e = AttributeError.
Proof. unfold to_value. destruct (to v u) eqn:T; cbn; [discriminate|]. intros E. injection E as <-. now apply to_error in T. Qed.
Lemma rows_reject (rows : list (list val)) : (exists row v, List.In row rows /\ List.In v row /\ dim_of v <> time_dim) ->
  rejects (mapM (mapM (fun v => to_value v second)) rows).
Proof.
  intros (row & v & R & V & D). apply mapM_rejects.
  - intros r e _ E. destruct (mapM_err _ _ _ E) as (x & _ & X). now apply to_value_error in X.
  - exists row. split; [exact R|]. intros y E. destruct (mapM_in _ _ _ E v V) as (z & _ & Z). unfold to_value in Z.
    destruct (to v second) as [w|] eqn:T; [|discriminate]. now apply to_not in T.
Qed.
Lemma wrong_dim v : wrong time_dim v -> dim_of v <> time_dim.
Proof. now intros (_ & D & _). Qed.

(** *** Time steps *)
(** Either the creation of the time steps fails, or one of the steps is no time. *)
Lemma create_times quad a b ecc te n ts xa xb : a <> [] -> length a = length xa ->
  (exists v, List.In v (times_given te ts) /\ wrong time_dim v) ->
  rejects (create_timesteps_array_q quad a b ecc te n ts) \/
  exists rows, create_timesteps_array_q quad a b ecc te n ts = Ok rows /\
    create_timesteps_array quad xa xb ecc (si_t_evol te) n (si_timesteps ts) = Ok (map (map si) rows) /\
    (exists row v, List.In row rows /\ List.In v row /\ wrong time_dim v).
Proof.
  intros N L (v & I & W). pose proof (wrong_dim _ W) as D.
  assert (G : forall l f, (exists v, List.In v l /\ dim_of v <> time_dim) -> rejects (mapM (fun stop => s <- to stop second ;; Ok (f s)) l : res (list (list val)))).
  { intros l f (y & J & E). apply mapM_rejects.
    - intros x e _ X. destruct (to x second) eqn:T; [discriminate|]. cbn in X. injection X as <-. now apply to_error in T.
    - exists y. split; [exact J|]. intros z Z. destruct (to y second) eqn:T; [|discriminate]. now apply to_not in T. }
  destruct ts as [|l|rows]; cbn [times_given] in I.
  - left. destruct te as [|t|l]; cbn [create_timesteps_array_q] in *; [contradiction| |].
    + destruct I as [<-|[]]. destruct (is_quantity t); [|right; reflexivity]. cbn [rbind]. apply (G _ (fun s => map (fun x => Qy x second) (linspace0 (mag s) n))).
      exists t. split; [|exact D]. destruct a; [congruence|]. now left.
    + destruct (forallb is_quantity l); [|right; reflexivity]. cbn [rbind]. apply (G _ (fun s => map (fun x => Qy x second) (linspace0 (mag s) n))). eauto.
  - cbn [create_timesteps_array_q]. destruct (forallb is_quantity l); [|left; right; reflexivity]. right. eexists. split; [reflexivity|].
    cbn [si_timesteps create_timesteps_array]. split; [unfold np_repeat; rewrite L; f_equal; clear; induction (length xa); cbn; congruence|].
    exists l, v. split; [|auto]. unfold np_repeat. destruct a; [congruence|]. now left.
  - cbn [create_timesteps_array_q]. right. eexists. split; [reflexivity|]. split; [reflexivity|].
    apply in_concat in I. destruct I as (row & R & V). eauto.
Qed.

(** *** One call *)
Lemma args_some b m1 m2 a f q (H : check_arr_q b m1 m2 a f = Ok q) :
  (forall l, List.In (Some l) [b; m1; m2; a; f] -> l <> []) -> fst q <> [] /\ snd q <> [].
Proof.
  intros N. assert (Z : forall (A B C : Type) (g : A -> B -> res C) l1 l2 r, bzipM g l1 l2 = Ok r -> l1 <> [] -> l2 <> [] -> r <> []).
  { intros A B C g [|x l1] [|y l2] r F X Y; try congruence. apply bzipM_in in F. destruct F as (_ & _ & P & _).
    destruct (P X y (or_introl eq_refl)) as (_ & z & _ & I & _). intros ->. contradiction. }
  unfold check_arr_q, check_mass_freq_input in H.
  destruct (match b with Some _ => _ | None => _ end) as [vb|] eqn:EB; [|discriminate]. cbn [rbind] in H.
  destruct (match a with Some _ => _ | None => _ end) as [va|] eqn:EA; [|discriminate]. cbn [rbind] in H. injection H as <-. cbn [fst snd]. split.
  - destruct b as [lb|]; [injection EB as <-; apply N; now left|]. destruct m1 as [l1|]; [|discriminate]. destruct m2 as [l2|]; [|discriminate].
    eapply Z; [exact EB| |]; apply N; cbn; auto.
  - destruct a as [la|]; [injection EA as <-; apply N; cbn; auto|]. destruct f as [lf|]; [|discriminate].
    destruct m1 as [l1|]; [|discriminate]. destruct m2 as [l2|]; [|discriminate]. unfold get_a_arr_q in EA.
    destruct (bzip _ l1 l2) as [mm|] eqn:EM; [|discriminate]. cbn [rbind] in EA. eapply Z; [exact EA| |apply N; cbn; auto 8].
    unfold bzip in EM. eapply Z; [exact EM| |]; apply N; cbn; auto.
Qed.

Lemma some_arrays d u v : unit_for d u -> some_source v -> forall l, list_in u (arr_of (fst (ensure_array_one (si_arg v)))) = Some l -> l <> [].
Proof.
  intros U S l. unfold some_source in S. destruct v as [|x|xs]; cbn; [discriminate|intros E; injection E as <-; discriminate|].
  intros E. injection E as <-. destruct xs; [congruence|discriminate].
Qed.
Lemma quartic_wrong a b t x y : isv length_dim a x -> isv beta_dim b y -> dim_of t <> time_dim ->
  circ_a_elem_q a (vmul (vmul (lit 4) b) t) = Err UnitError.
Proof.
  intros A B D. unfold circ_a_elem_q, vsub.
  assert (QA : is_quantity a = true) by (eapply not_plain; [exact length_not_none|exact A]).
  assert (QB : is_quantity b = true) by (eapply not_plain; [exact beta_not_none|exact B]).
  rewrite sum_wrong; [reflexivity| | |].
  - rewrite dim_powi, !dim_mul. destruct A as (_ & -> & _), B as (_ & -> & _). intros E. apply D.
    unfold dmul, dpow, dmap2, beta_dim, length_dim, time_dim, lit in *. cbn in E. injection E; intros. apply dim_ext; cbn; lra.
  - rewrite quantity_powi, QA. discriminate.
  - rewrite !quantity_mul, QB, orb_true_r. discriminate.
Qed.
Lemma quartic_error a w x e : isv length_dim a x -> circ_a_elem_q a w = Err e -> e = UnitError.
Proof.
  intros A. assert (QA : is_quantity a = true) by (eapply not_plain; [exact length_not_none|exact A]).
  unfold circ_a_elem_q, vsub. destruct a as [|z u]; [discriminate|]. cbn [vpowi].
  destruct (vsum nsub (Qy (z ^^ 4)%num (upowi u 4)) w) as [d|e'] eqn:V; cbn [rbind].
  - destruct d; [|discriminate]. exfalso. destruct w; cbn [vsum] in V; repeat destruct (dim_eqb _ _) in V; try destruct (arbitrary_unit _) in V; discriminate.
  - intros E. injection E as <-. now apply sum_error in V.
Qed.

Section Calls.
Variables (quad : quad_t) (odeint : odeint_t) (sched : list nat) (n : nat) (b m1 m2 a f : arg) (vars : list string) (ub u1 u2 ua uf : unit_).
Hypotheses (UB : unit_for beta_dim ub) (U1 : unit_for mass_dim u1) (U2 : unit_for mass_dim u2) (UA : unit_for length_dim ua)
  (UF : unit_for frequency_dim uf).
Hypotheses (SB : some_source b) (S1 : some_source m1) (S2 : some_source m2) (SA : some_source a) (SF : some_source f).

Let args_ok := check_rel (u_size ua) _ _ _ _ _ _ _ _ _ _ (opt_list_isv _ _ (arr_of (fst (ensure_array_one (si_arg b)))) UB)
  (opt_list_isv _ _ (arr_of (fst (ensure_array_one (si_arg m1)))) U1) (opt_list_isv _ _ (arr_of (fst (ensure_array_one (si_arg m2)))) U2)
  (opt_list_isz _ _ (arr_of (fst (ensure_array_one (si_arg a)))) UA) (opt_list_isv _ _ (arr_of (fst (ensure_array_one (si_arg f)))) UF).

Lemma arrays_some l : List.In (Some l) [list_in ub (arr_of (fst (ensure_array_one (si_arg b)))); list_in u1 (arr_of (fst (ensure_array_one (si_arg m1))));
    list_in u2 (arr_of (fst (ensure_array_one (si_arg m2)))); list_in ua (arr_of (fst (ensure_array_one (si_arg a))));
    list_in uf (arr_of (fst (ensure_array_one (si_arg f))))] -> l <> [].
Proof.
  cbn [List.In]. intros [E|[E|[E|[E|[E|[]]]]]].
  - exact (some_arrays _ _ _ UB SB _ E).
  - exact (some_arrays _ _ _ U1 S1 _ E).
  - exact (some_arrays _ _ _ U2 S2 _ E).
  - exact (some_arrays _ _ _ UA SA _ E).
  - exact (some_arrays _ _ _ UF SF _ E).
Qed.

Theorem circ_times te ts o : (exists v, List.In v (times_given te ts) /\ wrong time_dim v) ->
  evol_circ quad (si_t_evol te) n (si_timesteps ts) (si_arg b) (si_arg m1) (si_arg m2) (si_arg a) (si_arg f) vars = Ok o ->
  rejects (evol_circ_q quad te n ts (arg_in ub b) (arg_in u1 m1) (arg_in u2 m2) (arg_in ua a) (arg_in uf f) vars).
Proof.
  intros W. unfold evol_circ_q, evol_circ. rewrite !ensure_array_map. cbn [map].
  rewrite (proj1 (arg_arrays _ _ m1 U1)), (proj1 (arg_arrays _ _ m2 U2)),
      (proj1 (arg_arrays _ _ b UB)), (proj1 (arg_arrays _ _ a UA)), (proj1 (arg_arrays _ _ f UF)).
  pose proof args_ok as R. pose proof arrays_some as SM. clear args_ok.
  set (xb := arr_of (fst (ensure_array_one (si_arg b)))) in *.
  set (x1 := arr_of (fst (ensure_array_one (si_arg m1)))) in *.
  set (x2 := arr_of (fst (ensure_array_one (si_arg m2)))) in *.
  set (xa := arr_of (fst (ensure_array_one (si_arg a)))) in *.
  set (xf := arr_of (fst (ensure_array_one (si_arg f)))) in *.
  destruct (check_arr_q _ _ _ _ _) as [q|er] eqn:EQ, (check_arr _ _ _ _ _) as [x|er'] eqn:EX; cbn in R; try contradiction; [|cbn; discriminate].
  destruct R as (B & A). cbn [rbind]. destruct (args_some _ _ _ _ _ _ EQ SM) as (NB & NA).
  replace (match list_in u1 x1 with Some _ => match list_in u2 x2 with Some _ => true | None => false end | None => false end)
    with (match x1 with Some _ => match x2 with Some _ => true | None => false end | None => false end)
    by (destruct x1, x2; reflexivity).
  destruct (any_in ["f_orb"%string; "f_GW"%string] vars && _); [discriminate|].
  pose proof (rel_length _ _ _ A) as LA. pose proof (rel_length _ _ _ B) as LB.
  replace (map (fun _ : val => Fin 0) (snd q)) with (map (fun _ : num => Fin 0) (snd x)) by (clear -A; induction A; cbn; congruence).
  destruct (create_times quad (snd q) (fst q) (map (fun _ => Fin 0) (snd x)) te n ts (snd x) (fst x) NA LA W) as [[E|E]|(rows & E & E' & row & v & IR & IV & WV)];
    [rewrite E; cbn; intros _; now left|rewrite E; cbn; intros _; now right|].
  rewrite E, E'. cbn [rbind]. intros O.
  destruct (bzip2 (fun b t => (b, t)) (newaxis (fst x)) (map (map si) rows)) as [bx|] eqn:EB; [|discriminate]. cbn [rbind] in O.
  destruct (bzip2 _ (newaxis (snd x)) bx) as [ax|] eqn:EA; [|discriminate]. clear O.
  apply bzipM_in in EB. destruct EB as (F1 & L1 & _). apply bzipM_in in EA. destruct EA as (F2 & _). unfold newaxis in F1, F2, L1.
  rewrite !map_length in *. rewrite <- LB in *. rewrite <- LA in *. rewrite L1 in F2.
  destruct (column_ok (fun b t => vmul (vmul (lit 4) b) t) (fst q) rows F1) as (bq & -> & LQ & Q). cbn [rbind].
  destruct (Q NB row v IR IV) as (b0 & z & I0 & Z & V). rewrite <- LQ in F2.
  assert (AI : forall a0, List.In a0 (snd q) -> exists y, isv length_dim a0 y).
  { intros a0 I. clear -A I. induction A as [|v y l l' (P & _) _ IH]; [contradiction|]. destruct I as [<-|I]; [eauto|auto]. }
  assert (BI : exists y, isv beta_dim b0 y).
  { clear -B I0. induction B as [|v y l l' P _ IH]; [contradiction|]. destruct I0 as [<-|I0]; [eauto|auto]. }
  rewrite (column_rejects circ_a_elem_q (snd q) bq UnitError F2 NA); [left; reflexivity| |].
  - intros a0 r w e I _ _ X. destruct (AI a0 I) as (y & Y). eapply quartic_error; eassumption.
  - exists z, (vmul (vmul (lit 4) b0) v). split; [exact Z|]. split; [exact V|]. intros a0 I. destruct (AI a0 I) as (y & Y), BI as (y' & Y').
    eapply quartic_wrong; [exact Y|exact Y'|now apply wrong_dim].
Qed.

Theorem ecc_times ecc n_proc am ex tb tm utb um te ts o : unit_for time_dim utb -> unit_for time_dim um ->
  (exists v, List.In v (times_given te ts) /\ wrong time_dim v) ->
  evol_ecc quad odeint sched ecc (si_t_evol te) n (si_timesteps ts) (si_arg b) (si_arg m1) (si_arg m2) (si_arg a) (si_arg f) vars n_proc am ex tb tm = Ok o ->
  rejects (evol_ecc_q quad odeint sched ecc te n ts (arg_in ub b) (arg_in u1 m1) (arg_in u2 m2) (arg_in ua a) (arg_in uf f) vars
    n_proc am ex (in_unit utb tb) (list_in um tm)).
Proof.
  intros UTB UM W. unfold evol_ecc_q, evol_ecc. rewrite !ensure_array_map. cbn [map].
  rewrite (proj1 (arg_arrays _ _ m1 U1)), (proj1 (arg_arrays _ _ m2 U2)),
      (proj1 (arg_arrays _ _ b UB)), (proj1 (arg_arrays _ _ a UA)), (proj1 (arg_arrays _ _ f UF)).
  pose proof args_ok as R. pose proof arrays_some as SM. clear args_ok.
  set (xb := arr_of (fst (ensure_array_one (si_arg b)))) in *.
  set (x1 := arr_of (fst (ensure_array_one (si_arg m1)))) in *.
  set (x2 := arr_of (fst (ensure_array_one (si_arg m2)))) in *.
  set (xa := arr_of (fst (ensure_array_one (si_arg a)))) in *.
  set (xf := arr_of (fst (ensure_array_one (si_arg f)))) in *.
  destruct (check_arr_q _ _ _ _ _) as [q|er] eqn:EQ, (check_arr _ _ _ _ _) as [x|er'] eqn:EX; cbn in R; try contradiction; [|cbn; discriminate].
  destruct R as (B & A). cbn [rbind]. destruct (args_some _ _ _ _ _ _ EQ SM) as (NB & NA).
  replace (match list_in u1 x1 with Some _ => match list_in u2 x2 with Some _ => true | None => false end | None => false end)
    with (match x1 with Some _ => match x2 with Some _ => true | None => false end | None => false end)
    by (destruct x1, x2; reflexivity).
  destruct (any_in ["f_orb"%string; "f_GW"%string] vars && _); [discriminate|].
  destruct (arr_of (fst (ensure_array_one ecc))) as [xe|]; [|discriminate].
  assert (RC : res_rel (Forall2 (isv length_dim)) (bzipM (fun a e => c_0_q a (Pl e)) (snd q) xe) (bzip c_0 (snd x) xe)).
  { unfold bzip. eapply rel_bzipM; [eapply all_isv; exact A|apply eq_forall2|]. intros v y e0 e' I <-. rewrite (c_0_isv _ _ _ I).
    cbn. apply isv_in. auto with units. }
  destruct (bzipM _ (snd q) xe) as [cq|er], (bzip c_0 (snd x) xe) as [cx|er']; cbn in RC; try contradiction; [|cbn; discriminate].
  cbn [rbind]. pose proof (rel_length _ _ _ A) as LA.
  destruct (create_times quad (snd q) (fst q) xe te n ts (snd x) (fst x) NA LA W) as [[E|E]|(rows & E & E' & row & v & IR & IV & WV)];
    [rewrite E; cbn; intros _; now left|rewrite E; cbn; intros _; now right|].
  rewrite E, E'. cbn [rbind].
  set (r2 := if am then _ else Ok (map (map si) rows)). set (r1 := if am then _ else Ok rows).
  intros O. assert (K : r1 = Err UnitError \/ r1 = Ok rows).
  { unfold r1, r2 in *. destruct am; [|now right].
    assert (RT : res_rel (Forall2 (isv time_dim))
      (match list_in um tm with
       | Some tm0 => Ok tm0
       | None => tm0 <- get_t_merge_ecc_q quad xe (Some (snd q)) None (Some (fst q)) None None small_e_tol_default large_e_tol_default ex ;;
                 mapM (fun v => to v gigayear) tm0
       end)
      (match tm with
       | Some tm0 => Ok tm0
       | None => get_t_merge_ecc quad xe (Some (snd x)) None (Some (fst x)) None None small_e_tol_default large_e_tol_default ex
       end)).
    { destruct tm as [l|]; cbn [list_in option_map]; [cbn; now apply list_isv|].
      match type of A with Forall2 (isz _ ?s0) _ _ => set (s := s0) in A end.
      rewrite (t_merge_ecc_rel quad s xe (Some (fst q)) None None (Some (snd q)) None (Some (fst x)) None None (Some (snd x)) None);
        try exact Logic.I; try exact A; try exact B.
      destruct (get_t_merge_ecc _ _ _ _ _ _ _ _ _ _) as [l|e]; [|reflexivity]. cbn [rmap rbind].
      rewrite (mapM_to (fun v => to v gigayear) (in_unit gigayear) (isv time_dim) _ l).
      - cbn. apply list_isv. auto with units.
      - apply list_isv. auto with units.
      - intros w y I. apply (to_in time_dim); auto with units. }
    clear r1 r2. match type of RT with res_rel _ ?m ?m' => destruct m as [tq|e], m' as [tx|e'] end; cbn in RT; try contradiction; [|discriminate O].
    cbn [rbind] in *. unfold avoid_merger_clamp_q. unfold avoid_merger_clamp in O.
    destruct (bzip _ (map (map si) rows) tx) as [mx|] eqn:EM; [|discriminate]. cbn [rbind] in O.
    apply bzipM_in in EM. destruct EM as (F & _). rewrite map_length, <- (rel_length _ _ _ RT) in F.
    assert (LI : forall t0, List.In t0 tq -> exists w y, vsub t0 (in_unit utb tb) = Ok w /\ isv time_dim w y).
    { intros t0 I. assert (T0 : exists y, isv time_dim t0 y).
      { clear -RT I. induction RT as [|z y l l' P _ IH]; [contradiction|]. destruct I as [<-|I]; [eauto|auto]. }
      destruct T0 as (y & T0). destruct (limit_isv _ _ _ _ T0 (isv_in _ _ tb UTB)) as (w & Ew & Iw). eauto. }
    destruct (bzipM (fun row tm0 => too_close_row_q tm0 (in_unit utb tb) row) rows tq) as [mq|e] eqn:MQ.
    - cbn [rbind]. destruct tq as [|t0 tq].
      + right. apply bzipM_in in MQ. destruct MQ as (_ & L & _). cbn [length] in *.
        assert (mq = []) as ->. { destruct rows as [|r0 [|r1 rs]]; [contradiction| |discriminate]. destruct mq; [reflexivity|discriminate]. }
        cbn [existsb]. replace (existsb (fun r => match r with [] => true | _ => false end) rows)
          with (existsb (fun r => match r with [] => true | _ => false end) (map (map si) rows)).
        * destruct (existsb _ (map (map si) rows)); [discriminate O|reflexivity].
        * clear. induction rows as [|[|] rs IH]; cbn; congruence.
      + exfalso. apply bzipM_in in MQ. destruct MQ as (_ & _ & _ & P). destruct (P ltac:(discriminate) row IR) as (tm0 & z & IT & _ & X).
        destruct (LI tm0 IT) as (w & y & Ew & Iw). unfold too_close_row_q in X. rewrite Ew in X. cbn [rbind] in X.
        destruct (mapM (fun t => vge t w) row) as [c|] eqn:V; [|discriminate]. destruct (mapM_in _ _ _ V v IV) as (z' & _ & Z').
        unfold vge in Z'. rewrite compare_wrong in Z'; [discriminate| | |].
        * destruct Iw as (_ & -> & _). now apply wrong_dim.
        * apply WV.
        * rewrite (not_plain _ _ _ time_not_none Iw). discriminate.
    - left. cbn [rbind]. apply bzipM_err in MQ. destruct MQ as [(r & t0 & _ & IT & X)|(_ & X)]; [|congruence].
      destruct (LI t0 IT) as (w & y & Ew & Iw). unfold too_close_row_q in X. rewrite Ew in X. cbn [rbind] in X.
      destruct (mapM (fun t => vge t w) r) as [c|] eqn:V; [discriminate|]. cbn [rbind] in X. injection X as <-.
      destruct (mapM_err _ _ _ V) as (t1 & _ & V'). apply compare_error in V'. now subst. }
  clear O. destruct K as [-> | ->]; cbn [rbind]; [now left|].
  rewrite (mapM_of (fun v => to_value v meter) (isv length_dim) cq cx RC);
    [|intros w y I; apply (to_value_si length_dim); auto with units].
  cbn [rbind].
  rewrite (mapM_of (fun v => to_value v m4_per_s) (isv beta_dim) (fst q) (fst x) B);
    [|intros w y I; apply (to_value_si beta_dim); auto with units; apply m4s_one].
  cbn [rbind].
  destruct (rows_reject rows) as [Z|Z]; [exists row, v; split; [exact IR|]; split; [exact IV|now apply wrong_dim]|rewrite Z; now left|rewrite Z; now right].
Qed.
End Calls.

(** *** Approximate frequency evolution and stationarity *)
Lemma inner_wrong f m t e x y : isv frequency_dim f x -> isv mass_dim m y -> dim_of t <> time_dim -> inner_part_q f m t e = Err UnitError.
Proof.
  intros If Im D. unfold inner_part_q. destruct (peters_f_si (Pl e) e (is_pl e)) as (p & -> & Ip). cbn [rbind].
  assert (QF : is_quantity f = true) by (eapply not_plain; [exact frequency_not_none|exact If]).
  unfold vsub. apply sum_wrong.
  - rewrite dim_pow, !dim_mul, dim_div, dim_pow, !dim_mul, dim_powi. destruct If as (_ & -> & _), Im as (_ & -> & _), Ip as (_ & -> & _).
    intros E. apply D. unfold dim_of, lit, Gq, cq, dmul, ddiv, dpow, dmap2, frequency_dim, mass_dim, dimensionless in E. cbn in E.
    injection E; intros. unfold dim_of, time_dim. apply dim_ext; cbn; lra.
  - rewrite quantity_pow, QF. discriminate.
  - rewrite !quantity_mul, quantity_pow, quantity_mul. cbn. rewrite !orb_true_r. discriminate.
Qed.
Theorem evolve_f_times f m t ecc mf uf um umf o : unit_for frequency_dim uf -> unit_for mass_dim um -> unit_for frequency_dim umf ->
  f <> [] -> m <> [] -> ecc <> [] -> (exists v, List.In v t /\ dim_of v <> time_dim) ->
  evolve_f_orb_circ f m (map si t) ecc mf = Ok o ->
  evolve_f_orb_circ_q (map (in_unit uf) f) (map (in_unit um) m) t ecc (in_unit umf mf) = Err UnitError.
Proof.
  intros UF UM _ NF NM NE (v & I & D). unfold evolve_f_orb_circ, evolve_f_orb_circ_q.
  destruct (bzip (fun t0 e => (t0, e)) (map si t) ecc) as [tx|] eqn:E1; [|discriminate]. cbn [rbind].
  destruct (bzip (fun m0 q => (m0, q)) m tx) as [mx|] eqn:E2; [|discriminate]. cbn [rbind].
  destruct (bzip _ f mx) as [ix|] eqn:E3; [|discriminate]. intros _.
  apply bzipM_in in E1. destruct E1 as (F1 & L1 & _). apply bzipM_in in E2. destruct E2 as (F2 & L2 & _). apply bzipM_in in E3. destruct E3 as (F3 & _).
  rewrite map_length in F1, L1.
  destruct (bzip (fun t0 e => (t0, e)) t ecc) as [tq|] eqn:E1; [|apply bzipM_err in E1; destruct E1 as [(? & ? & _ & _ & ?)|(_ & ?)]; [discriminate|congruence]].
  cbn [rbind]. apply bzipM_in in E1. destruct E1 as (_ & K1 & _ & P1). destruct (P1 NE v I) as (e & z & _ & I1 & X). injection X as <-.
  assert (NT : tq <> []) by (intros ->; contradiction).
  destruct (bzip (fun m0 q => (m0, q)) (map (in_unit um) m) tq) as [mq|] eqn:E2;
    [|apply bzipM_err in E2; rewrite map_length, K1, <- L1 in E2; destruct E2 as [(? & ? & _ & _ & ?)|(_ & ?)]; [discriminate|congruence]].
  cbn [rbind]. apply bzipM_in in E2. destruct E2 as (_ & K2 & P2 & _). rewrite map_length, K1, <- L1, <- L2 in K2.
  assert (NM' : map (in_unit um) m <> []) by (destruct m; [congruence|discriminate]).
  destruct (P2 NM' _ I1) as (m0 & z & IM & I2 & X). injection X as <-.
  match goal with |- rbind ?b _ = _ => destruct b as [iq|er] eqn:E3 end.
  - exfalso. apply bzipM_in in E3. destruct E3 as (_ & _ & P3 & _). destruct (P3 ltac:(destruct f; [congruence|discriminate]) _ I2) as (f0 & z & IF & _ & X).
    apply in_map_iff in IF. destruct IF as (f1 & <- & _). apply in_map_iff in IM. destruct IM as (m1 & <- & _). cbn [fst snd] in X.
    rewrite (inner_wrong _ _ _ _ _ _ (isv_in _ _ f1 UF) (isv_in _ _ m1 UM) D) in X. discriminate.
  - cbn [rbind]. apply bzipM_err in E3. destruct E3 as [(f0 & z & IF & I3 & X)|(_ & X)].
    + apply in_map_iff in IF. destruct IF as (f1 & <- & _). f_equal. unfold inner_part_q in X.
      destruct (peters_f_si (Pl (snd (snd z))) _ (is_pl _)) as (p & EP & _). rewrite EP in X. cbn [rbind] in X. now apply sum_error in X.
    + rewrite map_length, K2 in X. congruence.
Qed.
Theorem stationarity_times f t ecc m1 m2 mc tol uf u1 u2 uc o : unit_for frequency_dim uf -> unit_for mass_dim u1 -> unit_for mass_dim u2 -> unit_for mass_dim uc ->
  f <> [] -> ecc <> [] -> m1 <> Some [] -> m2 <> Some [] -> mc <> Some [] -> (exists v, List.In v t /\ dim_of v <> time_dim) ->
  determine_stationarity f (map si t) ecc m1 m2 mc tol = Ok o ->
  determine_stationarity_q (map (in_unit uf) f) t ecc (list_in u1 m1) (list_in u2 m2) (list_in uc mc) tol = Err UnitError.
Proof.
  intros UF U1 U2 UC NF NE N1 N2 NC W. unfold determine_stationarity, determine_stationarity_q.
  assert (EM : Qy (Fin 1000000000) hertz = in_unit hertz merge_f_default).
  { unfold in_unit, merge_f_default. f_equal. symmetry. apply over_one. }
  assert (K : forall um m o, unit_for mass_dim um -> m <> [] -> (f_orb_f <- evolve_f_orb_circ f m (map si t) ecc merge_f_default ;;
      bzip (fun ff fi => nle ((ff - fi) / fi) tol) f_orb_f f) = Ok o ->
    evolve_f_orb_circ_q (map (in_unit uf) f) (map (in_unit um) m) t ecc (Qy (Fin 1000000000) hertz) = Err UnitError).
  { intros um m o' UM NM O. destruct (evolve_f_orb_circ f m (map si t) ecc merge_f_default) as [l|] eqn:E; [|discriminate]. rewrite EM.
    eapply evolve_f_times; eauto with units. }
  destruct mc as [m|]; cbn [list_in option_map rbind].
  - intros O. rewrite (K uc m o); [reflexivity|exact UC|congruence|exact O].
  - destruct m1 as [x|]; [|discriminate]. destruct m2 as [y|]; [|discriminate]. cbn [list_in option_map].
    rewrite chirp_masses by assumption. destruct (bzip chirp_mass x y) as [m|] eqn:EB; [|discriminate]. cbn [rmap rbind].
    intros O. rewrite (K msun m o); [reflexivity|auto with units| |exact O].
    apply bzipM_in in EB. destruct EB as (_ & _ & P & _). intros ->. destruct y as [|y0 y]; [congruence|].
    destruct (P ltac:(congruence) y0 (or_introl eq_refl)) as (_ & z & _ & [] & _).
Qed.
