(** InitFacts.v -- what __init__ accepts and builds (C65, C66). *)
From Coq Require Import String Reals ZArith List Bool Lra Lia.
From Verif Require Import Num NumFacts Np NpFacts Utils Spec UtilsFacts Strain StrainSpec Psd Snr SnrSpec Evol ArrEvolFacts Harmonics ScParams Source Index SourceSpec
  History CurveSpec CurveFacts CurveThms SourceFacts InitSpec.
Import ListNotations.
Open Scope R_scope.

Lemma entries_list (v : pyval num unit) : list_of v = entries v.
Proof. destruct v; reflexivity. Qed.
Lemma has_unit_iff v : has_unit v <-> py_has_units v = true.
Proof.
  split; [intros [[l ->]|[y ->]]; reflexivity|]. destruct v as [|l []|y []|l|l|y]; try discriminate; intros _; [left|right]; eauto.
Qed.
Lemma is_array_len v : is_array v <-> exists n, len_of v = Ok n.
Proof.
  split; [intros [[l ->]|[[l ->]|[l ->]]]; cbn; eauto|]. destruct v as [|l []|y []|l|l|y]; intros [n H]; try discriminate H; unfold is_array; eauto.
Qed.
Lemma is_array_entries v n : len_of v = Ok n -> n = length (entries v).
Proof. destruct v; cbn; congruence. Qed.
Lemma ensured (v : pyval num unit) : entries (fst (ensure_array_one v)) = entries v.
Proof. destruct v; reflexivity. Qed.
Lemma bzip_ok {A B C} (f : A -> B -> C) l1 l2 : (exists v, bzip f l1 l2 = Ok v) <-> broadcasts (length l1) (length l2).
Proof.
  unfold broadcasts. split.
  - intros [v H]. unfold bzip, bzipM in H. destruct (length l1 =? length l2)%nat eqn:E; [apply Nat.eqb_eq in E; auto|].
    destruct l1 as [|y [|z l1]]; [|right; left; reflexivity|]; destruct l2 as [|y' [|z' l2]]; cbn in *; try discriminate; auto.
  - intros [H|[H|H]].
    + eexists. now apply bzip_eq.
    + destruct l1 as [|y [|]]; try discriminate H. eexists. apply bzip_single_l.
    + destruct l2 as [|y [|]]; try discriminate H. eexists. apply bzip_single_r.
Qed.
Lemma map2_length {A B C} (f : A -> B -> C) : forall l1 l2, length l1 = length l2 -> length (map2 f l1 l2) = length l1.
Proof. induction l1 as [|y l1 IH]; intros [|z l2] H; cbn in *; try discriminate; auto. Qed.
Lemma bzip_len {A B C} (f : A -> B -> C) l1 l2 v : bzip f l1 l2 = Ok v ->
  (length l1 = length l2 /\ length v = length l1) \/ (length l1 = 1%nat /\ length v = length l2) \/ (length l2 = 1%nat /\ length v = length l1).
Proof.
  intros H. assert (B0 : broadcasts (length l1) (length l2)) by (apply (proj1 (bzip_ok f l1 l2)); eauto). destruct B0 as [E|[E|E]].
  - rewrite bzip_eq in H by auto. injection H as <-. left. split; auto. now apply map2_length.
  - destruct l1 as [|y [|]]; try discriminate E. rewrite bzip_single_l in H. injection H as <-. right; left. now rewrite map_length.
  - destruct l2 as [|y [|]]; try discriminate E. rewrite bzip_single_r in H. injection H as <-. right; right. now rewrite map_length.
Qed.
(** What __init__ computes before it fills the object. *)
Record checked (x : ext) (i : init_args) (f : list num) (pos : option (list (num * num))) (inc pol : option (list num)) : Prop := {
  ch_freq : i_f_orb i <> PNone \/ i_a i <> PNone;
  ch_sky : match i_position i with
           | None => i_inclination i = None /\ i_polarisation i = None /\ pos = None /\ inc = None /\ pol = None
           | Some p => (match i_inclination i with Some l => inc = Some l | None => exists n, len_of (i_m_1 i) = Ok n /\ inc = Some (x_inc x n) end) /\
                       (match i_polarisation i with Some l => pol = Some l | None => exists n, len_of (i_m_1 i) = Ok n /\ pol = Some (x_pol x n) end) /\
                       (forall e, In e (entries (i_ecc i)) -> e = Fin 0) /\
                       exists p', bzip (fun q (_ : num) => q) p (entries (i_dist i)) = Ok p' /\ pos = Some p'
           end;
  ch_f : exists fv, (if py_exists (i_f_orb i) then Ok (i_f_orb i) else f_orb_from_a (i_a i) (i_m_1 i) (i_m_2 i)) = Ok fv /\ f = entries fv /\ has_unit fv;
  ch_units : has_unit (i_m_1 i) /\ has_unit (i_m_2 i) /\ has_unit (i_dist i);
  ch_ecc : i_ecc i <> PNone;
  ch_len : length (entries (i_m_2 i)) = length (entries (i_m_1 i)) /\ length (entries (i_dist i)) = length (entries (i_m_1 i)) /\
           length (entries (i_ecc i)) = length (entries (i_m_1 i)) /\ length f = length (entries (i_m_1 i)) }.
Definition weights_of (i : init_args) : option (list num) := if py_exists (i_weights i) then Some (entries (i_weights i)) else None.
Definition object (k : klass) (i : init_args) f pos inc pol : src :=
  built k i (entries (i_m_1 i)) (entries (i_m_2 i)) (entries (i_dist i)) f (entries (i_ecc i)) (weights_of i) pos inc pol.
Lemma ens_ecc (v : pyval num unit) : v <> PNone <-> exists n, len_of (fst (ensure_array_one v)) = Ok n.
Proof. destruct v; cbn; split; intros H; eauto; try congruence; try easy. destruct H; discriminate. Qed.
Lemma init_fwd x k i s : init x k i = Ok s -> exists f pos inc pol, checked x i f pos inc pol /\ finish x i (object k i f pos inc pol) = (s, Ok tt).
Proof.
  unfold init. destruct (negb (py_exists (i_f_orb i)) && negb (py_exists (i_a i))) eqn:E0; [discriminate|].
  assert (H0 : i_f_orb i <> PNone \/ i_a i <> PNone).
  { destruct (i_f_orb i); cbn in E0; try (left; discriminate). right. intros K. rewrite K in E0. discriminate. }
  match goal with |- rbind ?r _ = _ -> _ => destruct r as [[[pos inc] pol]|e] eqn:E1 end; cbn [rbind]; [|discriminate].
  match goal with |- rbind ?r _ = _ -> _ => destruct r as [fv|e] eqn:E2 end; cbn [rbind]; [|discriminate].
  destruct (negb (forallb py_has_units _)) eqn:E3; [discriminate|]. rewrite ensure_array_map. cbn [map fst].
  destruct (len_of (fst (ensure_array_one (i_ecc i)))) as [n|e] eqn:E4; cbn [rbind]; [|discriminate].
  cbn zeta. match goal with |- (if ?b then _ else _) = _ -> _ => destruct b eqn:Ex end; [intros H; discriminate H|]. intros H. exists (entries fv), pos, inc, pol. split.
  - cbn [forallb] in E3. apply negb_false_iff in E3. repeat (apply andb_prop in E3; destruct E3 as [?E E3]).
    split; auto.
    + destruct (i_position i) as [p|].
      * assert (Z : existsb (fun e => negb (neqb e (Fin 0))) (list_of (i_ecc i)) = false -> forall e, In e (entries (i_ecc i)) -> e = Fin 0).
        { intros EE e He. rewrite entries_list in EE. destruct (neqb e (Fin 0)) eqn:Ez.
          - destruct e; cbn in Ez; try discriminate. apply neqb_fin in Ez. congruence.
          - exfalso. assert (T : existsb (fun e => negb (neqb e (Fin 0))) (entries (i_ecc i)) = true) by (apply existsb_exists; exists e; rewrite Ez; auto). congruence. }
        revert E1. destruct (i_inclination i) as [li|], (i_polarisation i) as [lp|]; cbn [rbind];
          try (destruct (len_of (i_m_1 i)) as [n1|]; cbn [rbind]; [|discriminate]);
          (match goal with |- (if ?b then _ else _) = _ -> _ => destruct b eqn:EE end; [intros H1; discriminate H1|]); rewrite entries_list;
          (match goal with |- rbind ?r _ = _ -> _ => destruct r as [p'|] eqn:EB end; cbn [rbind]; [|intros H1; discriminate H1]); intros H1; injection H1 as <- <- <-;
          (split; [eauto|split; [eauto|split; [auto|eauto]]]).
      * destruct (i_inclination i), (i_polarisation i); try discriminate. injection E1 as <- <- <-. auto.
    + exists fv. split; auto. split; auto. now apply has_unit_iff.
    + split; [|split]; now apply has_unit_iff.
    + apply ens_ecc. eauto.
    + cbn [existsb] in Ex. rewrite Nat.eqb_refl in Ex. cbn [negb orb] in Ex. repeat (apply orb_false_elim in Ex; destruct Ex as [?H Ex]).
      repeat match goal with H : negb _ = false |- _ => apply negb_false_iff, Nat.eqb_eq in H; rewrite !entries_list, !ensured in H end. auto.
  - unfold object, built, weights_of, finish. rewrite !entries_list, !ensured in H.
    assert (W : (if py_exists (fst (ensure_array_one (i_weights i))) then Some (entries (i_weights i)) else None) = (if py_exists (i_weights i) then Some (entries (i_weights i)) else None)) by (destruct (i_weights i); reflexivity).
    rewrite W in H. match type of H with match ?c with _ => _ end = _ => destruct c as [s1 [[]|e]] eqn:E end; [|discriminate]. injection H as ->. reflexivity.
Qed.
Lemma init_bwd x k i s f pos inc pol : checked x i f pos inc pol -> finish x i (object k i f pos inc pol) = (s, Ok tt) -> init x k i = Ok s.
Proof.
  intros [C1 C2 (fv & C3 & -> & C3') (C4 & C5 & C6) C7 (L1 & L2 & L3 & L4)] F. unfold init.
  assert (E0 : negb (py_exists (i_f_orb i)) && negb (py_exists (i_a i)) = false) by (destruct C1; destruct (i_f_orb i), (i_a i); auto; congruence). rewrite E0.
  assert (E1 : match i_position i with
      | None => match i_inclination i with Some _ => Err ValueError | None => match i_polarisation i with Some _ => Err ValueError | None => Ok (None, None, None) end end
      | Some p => rbind (match i_inclination i with Some l => Ok l | None => rbind (len_of (i_m_1 i)) (fun n => Ok (x_inc x n)) end) (fun inc =>
          rbind (match i_polarisation i with Some l => Ok l | None => rbind (len_of (i_m_1 i)) (fun n => Ok (x_pol x n)) end) (fun pol =>
          if existsb (fun e => negb (neqb e (Fin 0))) (list_of (i_ecc i)) then Err ValueError
          else rbind (bzip (fun q (_ : num) => q) p (list_of (i_dist i))) (fun p => Ok (Some p, Some inc, Some pol)))) end = Ok (pos, inc, pol)).
  { destruct (i_position i) as [p|].
    - destruct C2 as (I1 & I2 & I3 & p' & I4 & ->).
      assert (EE : existsb (fun e => negb (neqb e (Fin 0))) (list_of (i_ecc i)) = false).
      { destruct (existsb _ _) eqn:EE; auto. apply existsb_exists in EE. destruct EE as (e & He & Ne). rewrite entries_list in He. rewrite (I3 e He), neqb_t in Ne by auto. discriminate. }
      destruct (i_inclination i); [subst inc|destruct I1 as (n & In1 & ->); rewrite In1]; destruct (i_polarisation i); [subst pol| |subst pol|]; try (destruct I2 as (n2 & In2 & ->); rewrite ?In2); cbn [rbind]; rewrite EE, entries_list, I4; cbn [rbind]; congruence.
    - destruct C2 as (-> & -> & -> & -> & ->). reflexivity. }
  rewrite E1. cbn [rbind]. rewrite C3. cbn [rbind].
  assert (E3 : forallb py_has_units [i_m_1 i; i_m_2 i; i_dist i; fv] = true) by (cbn; rewrite (proj1 (has_unit_iff _) C4), (proj1 (has_unit_iff _) C5), (proj1 (has_unit_iff _) C6), (proj1 (has_unit_iff _) C3'); reflexivity).
  rewrite E3. cbn [negb]. rewrite ensure_array_map. cbn [map fst]. apply ens_ecc in C7. destruct C7 as [n C7]. rewrite C7. cbn [rbind]. cbn zeta. rewrite !entries_list, !ensured.
  assert (Ex : existsb (fun l : list num => negb (length l =? length (entries (i_m_1 i)))%nat) [entries (i_m_1 i); entries (i_m_2 i); entries (i_dist i); entries fv; entries (i_ecc i)] = false)
    by (cbn [existsb]; rewrite L1, L2, L3, L4, Nat.eqb_refl; reflexivity).
  rewrite Ex. unfold object, built, weights_of, finish in F.
  assert (W : (if py_exists (fst (ensure_array_one (i_weights i))) then Some (entries (i_weights i)) else None) = (if py_exists (i_weights i) then Some (entries (i_weights i)) else None)) by (destruct (i_weights i); reflexivity).
  rewrite W, F. reflexivity.
Qed.
(** The frequencies used. *)
Lemma get_f_arr_ok a m1 m2 : length m1 = length m2 -> (length a = length m1 \/ length a = 1%nat) -> exists f, get_f_arr a m1 m2 = Ok f /\ length f = length m1.
Proof.
  intros L H. unfold get_f_arr. rewrite bzip_eq by auto. cbn [rbind].
  assert (LM : length (map2 (fun y z : num => (y, z)) m1 m2) = length m1) by (now apply map2_length).
  destruct (proj2 (bzip_ok (fun (q : num * num) y => get_f_orb_from_a y (fst q) (snd q)) (map2 (fun y z : num => (y, z)) m1 m2) a)) as [f Hf].
  { rewrite LM. destruct H as [->| ->]; unfold broadcasts; auto. }
  exists f. split; auto. apply bzip_len in Hf. rewrite LM in Hf. lia.
Qed.
Lemma get_f_arr_len a m1 m2 f : get_f_arr a m1 m2 = Ok f -> length m1 = length m2 -> length f = length m1 -> length a = length m1 \/ length a = 1%nat.
Proof.
  intros H L Lf. unfold get_f_arr in H. rewrite bzip_eq in H by auto. cbn [rbind] in H. apply bzip_len in H. rewrite (map2_length _ _ _ L) in H. lia.
Qed.
Lemma f_from_a a m1 m2 : has_unit a -> has_unit m1 -> has_unit m2 ->
  f_orb_from_a a m1 m2 = rbind (get_f_arr (entries a) (entries m1) (entries m2)) (fun f =>
    Ok (match is_scalar a && is_scalar m1 && is_scalar m2, f with true, v :: _ => PQScalar v tt | _, _ => PQArr f tt end)).
Proof. intros H1 H2 H3. unfold f_orb_from_a. rewrite (proj1 (has_unit_iff _) H1), (proj1 (has_unit_iff _) H2), (proj1 (has_unit_iff _) H3), !entries_list. reflexivity. Qed.
Lemma scalar_one (v : pyval num unit) : is_scalar v = true -> length (entries v) = 1%nat.
Proof. destruct v; try discriminate; reflexivity. Qed.
Lemma f_from_a_entries a m1 m2 f : length (entries m1) = length (entries m2) -> get_f_arr (entries a) (entries m1) (entries m2) = Ok f ->
  entries (match is_scalar a && is_scalar m1 && is_scalar m2, f with true, v :: _ => PQScalar v tt | _, _ => PQArr f tt end) = f.
Proof.
  intros L H. destruct (is_scalar a && is_scalar m1 && is_scalar m2) eqn:E; [|reflexivity]. destruct f as [|v [|w f]]; try reflexivity. exfalso.
  apply andb_prop in E. destruct E as [E E3]. apply andb_prop in E. destruct E as [E1 E2].
  unfold get_f_arr in H. rewrite bzip_eq in H by auto. cbn [rbind] in H. apply bzip_len in H. rewrite (map2_length _ _ _ L), (scalar_one _ E2), (scalar_one _ E1) in H. cbn in H. lia.
Qed.
Lemma f_unit (b : bool) (f : list num) : has_unit (match b, f with true, v :: _ => PQScalar v tt | _, _ => PQArr f tt end).
Proof. unfold has_unit. destruct b, f; eauto. Qed.
Lemma checked_ok x i : documented_input i -> usable_input i -> exists f pos inc pol, checked x i f pos inc pol /\
  (i_f_orb i <> PNone -> f = entries (i_f_orb i)) /\ (i_f_orb i = PNone -> get_f_arr (entries (i_a i)) (entries (i_m_1 i)) (entries (i_m_2 i)) = Ok f).
Proof.
  intros [D1 D2 D3 (U1 & U2 & U3 & U4) (L1 & L2 & L3 & L4) D6] [N1 N2 N3].
  assert (SK : exists pos inc pol, match i_position i with
           | None => i_inclination i = None /\ i_polarisation i = None /\ pos = None /\ inc = None /\ pol = None
           | Some p => (match i_inclination i with Some l => inc = Some l | None => exists n, len_of (i_m_1 i) = Ok n /\ inc = Some (x_inc x n) end) /\
                       (match i_polarisation i with Some l => pol = Some l | None => exists n, len_of (i_m_1 i) = Ok n /\ pol = Some (x_pol x n) end) /\
                       (forall e, In e (entries (i_ecc i)) -> e = Fin 0) /\
                       exists p', bzip (fun q (_ : num) => q) p (entries (i_dist i)) = Ok p' /\ pos = Some p' end).
  { destruct (i_position i) as [p|].
    - destruct (proj2 (bzip_ok (fun q (_ : num) => q) p (entries (i_dist i))) (N2 p eq_refl)) as [p' Hp].
      assert (Hd : i_inclination i = None \/ i_polarisation i = None -> exists n, len_of (i_m_1 i) = Ok n) by (intros H; apply is_array_len; apply N3; [discriminate|auto]).
      exists (Some p').
      destruct (i_inclination i) as [li|], (i_polarisation i) as [lp|].
      + exists (Some li), (Some lp). split; auto. split; auto. split; [apply D3; discriminate|eauto].
      + destruct Hd as [n Hn]; auto. exists (Some li), (Some (x_pol x n)). split; auto. split; eauto. split; [apply D3; discriminate|eauto].
      + destruct Hd as [n Hn]; auto. exists (Some (x_inc x n)), (Some lp). split; eauto. split; auto. split; [apply D3; discriminate|eauto].
      + destruct Hd as [n Hn]; auto. exists (Some (x_inc x n)), (Some (x_pol x n)). split; eauto. split; eauto. split; [apply D3; discriminate|eauto].
    - exists None, None, None. destruct (D2 eq_refl). auto. }
  destruct SK as (pos & inc & pol & SK).
  assert (FF : exists f, (exists fv, (if py_exists (i_f_orb i) then Ok (i_f_orb i) else f_orb_from_a (i_a i) (i_m_1 i) (i_m_2 i)) = Ok fv /\ f = entries fv /\ has_unit fv) /\ length f = length (entries (i_m_1 i)) /\
    (i_f_orb i <> PNone -> f = entries (i_f_orb i)) /\ (i_f_orb i = PNone -> get_f_arr (entries (i_a i)) (entries (i_m_1 i)) (entries (i_m_2 i)) = Ok f)).
  { destruct (i_f_orb i) as [|l []|y []|l|l|y] eqn:EF; cbn [py_exists].
    - destruct (get_f_arr_ok (entries (i_a i)) (entries (i_m_1 i)) (entries (i_m_2 i)) (eq_sym L1) (N1 eq_refl)) as (f & Hf & Lf). exists f. split; [|split; [exact Lf|split; [congruence|auto]]].
      rewrite (f_from_a _ _ _ U4 U1 U2), Hf. cbn [rbind]. eexists. split; [reflexivity|]. split; [symmetry; apply f_from_a_entries; auto|]. apply f_unit.
    - exists l. split; [eexists; split; [reflexivity|split; [reflexivity|exact U4]]|]. split; [now apply L4|]. split; [reflexivity|discriminate].
    - exists [y]. split; [eexists; split; [reflexivity|split; [reflexivity|exact U4]]|]. split; [now apply L4|]. split; [reflexivity|discriminate].
    - apply has_unit_iff in U4. discriminate.
    - apply has_unit_iff in U4. discriminate.
    - apply has_unit_iff in U4. discriminate. }
  destruct FF as (f & F1 & F2 & F3 & F4). exists f, pos, inc, pol. split; [|auto]. split; auto.
Qed.
Lemma finish_ok x k i f pos inc pol : settings_ok x i -> exists s, finish x i (object k i f pos inc pol) = (s, Ok tt).
Proof.
  intros ((h & Hh) & d & Hd & Hc). unfold finish, assign_gw_lum_tol. unfold mbind at 1. change (s_harm (object k i f pos inc pol)) with no_harm. rewrite Hh. unfold mbind at 1. rewrite assign_cases, Hd. cbn zeta beta iota.
  unfold set_sc. cbn [s_interpolate_sc put_params set_curve set_harm object built s_params]. destruct (i_interpolate_sc i); [|eexists; reflexivity].
  destruct Hc as [c Hc]; auto. rewrite Hc. eexists. reflexivity.
Qed.
Lemma accepts_thm x k i : documented_input i -> usable_input i -> settings_ok x i -> exists s, init x k i = Ok s.
Proof.
  intros D U S. destruct (checked_ok x i D U) as (f & pos & inc & pol & C & _). destruct (finish_ok x k i f pos inc pol S) as [s Hs]. exists s. eapply init_bwd; eauto.
Qed.
Lemma only_thm x k i s : init x k i = Ok s -> documented_input i /\ usable_input i /\ settings_ok x i.
Proof.
  intros H. apply init_fwd in H. destruct H as (f & pos & inc & pol & [C1 C2 (fv & C3 & -> & C3') (C4 & C5 & C6) C7 (L1 & L2 & L3 & L4)] & F).
  split; [|split].
  - split; auto.
    + intros E. rewrite E in C2. tauto.
    + intros E. destruct (i_position i); [|easy]. tauto.
    + do 3 (split; auto). destruct (i_f_orb i) eqn:EF; cbn in C3; try (injection C3 as <-; auto). unfold f_orb_from_a in C3. destruct (py_has_units (i_a i)) eqn:EA; [|discriminate]. now apply has_unit_iff.
    + do 3 (split; auto). intros N. destruct (i_f_orb i) eqn:EF; cbn in C3; try (injection C3 as <-; auto). congruence.
  - split.
    + intros E. rewrite E in C3. cbn [py_exists] in C3. unfold f_orb_from_a in C3. destruct (_ && _ && _); [|discriminate].
      destruct (get_f_arr _ _ _) as [f|] eqn:Ef; [|discriminate]. cbn [rbind] in C3. injection C3 as <-. rewrite !entries_list in Ef.
      rewrite (f_from_a_entries _ _ _ _ (eq_sym L1) Ef) in L4. eapply get_f_arr_len; eauto.
    + intros p Hp. rewrite Hp in C2. destruct C2 as (_ & _ & _ & p' & Hb & _). apply (proj1 (bzip_ok (fun q (_ : num) => q) p (entries (i_dist i)))). eauto.
    + intros N O. destruct (i_position i) as [p|]; [|easy]. destruct C2 as (I1 & I2 & _). apply is_array_len. destruct O as [O|O]; rewrite O in *; [destruct I1 as (n & Hn & _)|destruct I2 as (n & Hn & _)]; eauto.
  - destruct (finish_cases _ _ _ _ F) as (h & d & s1 & Hh & Hd & Hs & _). split; [exists h; exact Hh|]. exists d. split; auto. intros E. unfold set_sc in Hs. cbn in Hs. rewrite E in Hs.
    destruct (curve_of x d) as [c|]; [eauto|discriminate].
Qed.
(** The object built. *)
Lemma finish_arrays x i s0 s : finish x i s0 = (s, Ok tt) -> s_m_1 s = s_m_1 s0 /\ s_m_2 s = s_m_2 s0 /\ s_dist s = s_dist s0 /\ s_f_orb s = s_f_orb s0 /\ s_ecc s = s_ecc s0 /\
  s_weights s = s_weights s0 /\ s_position s = s_position s0 /\ s_inclination s = s_inclination s0 /\ s_polarisation s = s_polarisation s0 /\ s_t_merge s = s_t_merge s0 /\
  s_snr s = s_snr s0 /\ s_max_snr_harmonic s = s_max_snr_harmonic s0 /\ s_merged s = s_merged s0 /\ s_class s = s_class s0 /\ s_stat_tol s = s_stat_tol s0 /\ s_n_proc s = s_n_proc s0 /\
  s_interpolate_sc s = s_interpolate_sc s0.
Proof.
  intros F. destruct (finish_cases _ _ _ _ F) as (h & d & s1 & Hh & Hd & Hs & ->). unfold set_sc in Hs. destruct (s_interpolate_sc _) eqn:EI.
  - destruct (curve_of x _); [|discriminate]. injection Hs as <-. cbn in *. auto 20.
  - injection Hs as <-. cbn in *. auto 20.
Qed.
Lemma lengths_thm x k i s : init x k i = Ok s -> let n := length (entries (i_m_1 i)) in
  length (s_m_1 s) = n /\ length (s_m_2 s) = n /\ length (s_dist s) = n /\ length (s_f_orb s) = n /\ length (s_ecc s) = n /\ length (s_merged s) = n.
Proof.
  intros H. apply init_fwd in H. destruct H as (f & pos & inc & pol & C & F). destruct (finish_arrays _ _ _ _ F) as (E1 & E2 & E3 & E4 & E5 & _ & _ & _ & _ & _ & _ & _ & E13 & _).
  destruct C as [_ _ _ _ _ (L1 & L2 & L3 & L4)]. rewrite E1, E2, E3, E4, E5, E13. cbn. unfold np_repeat. rewrite repeat_length. auto 10.
Qed.
(** The errors. *)
Lemma no_frequency_thm x k i : i_f_orb i = PNone -> i_a i = PNone -> init x k i = Err ValueError.
Proof. intros H1 H2. unfold init. now rewrite H1, H2. Qed.
Lemma sky_without_position_thm x k i : i_position i = None -> i_inclination i <> None \/ i_polarisation i <> None -> init x k i = Err ValueError.
Proof.
  intros H1 H2. unfold init. rewrite H1. destruct (negb _ && negb _); auto. destruct (i_inclination i), (i_polarisation i); try reflexivity. destruct H2; congruence.
Qed.
Lemma eccentric_position_thm x k i e : i_position i <> None -> In e (entries (i_ecc i)) -> e <> Fin 0 -> is_array (i_m_1 i) -> init x k i = Err ValueError.
Proof.
  intros H1 H2 H3 H4. unfold init. destruct (negb _ && negb _); auto. destruct (i_position i) as [p|]; [|easy]. apply is_array_len in H4. destruct H4 as [n H4]. rewrite H4.
  assert (T : existsb (fun e => negb (neqb e (Fin 0))) (list_of (i_ecc i)) = true).
  { apply existsb_exists. exists e. rewrite entries_list. split; auto. destruct (neqb e (Fin 0)) eqn:E; auto. destruct e; cbn in E; try discriminate. apply neqb_fin in E. congruence. }
  destruct (i_inclination i), (i_polarisation i); cbn [rbind]; rewrite T; reflexivity.
Qed.
Lemma missing_units_thm x k i : i_f_orb i <> PNone -> i_position i = None -> i_inclination i = None -> i_polarisation i = None ->
  ~ (has_unit (i_m_1 i) /\ has_unit (i_m_2 i) /\ has_unit (i_dist i) /\ has_unit (i_f_orb i)) -> init x k i = Err AssertionError.
Proof.
  intros H1 H2 H3 H4 H5. unfold init. rewrite H2, H3, H4. assert (E : py_exists (i_f_orb i) = true) by (destruct (i_f_orb i); auto; congruence). rewrite E. cbn [negb andb rbind].
  destruct (forallb py_has_units _) eqn:F; [|reflexivity]. exfalso. apply H5. cbn in F. repeat (apply andb_prop in F; destruct F as [?F F]). rewrite !has_unit_iff. auto.
Qed.
Lemma different_lengths_thm x k i : i_f_orb i <> PNone -> i_position i = None -> i_inclination i = None -> i_polarisation i = None -> i_ecc i <> PNone ->
  has_unit (i_m_1 i) /\ has_unit (i_m_2 i) /\ has_unit (i_dist i) /\ has_unit (i_f_orb i) ->
  ~ (length (entries (i_m_2 i)) = length (entries (i_m_1 i)) /\ length (entries (i_dist i)) = length (entries (i_m_1 i)) /\
     length (entries (i_ecc i)) = length (entries (i_m_1 i)) /\ length (entries (i_f_orb i)) = length (entries (i_m_1 i))) -> init x k i = Err ValueError.
Proof.
  intros H1 H2 H3 H4 HE (U1 & U2 & U3 & U4) H5. unfold init. rewrite H2, H3, H4. assert (E : py_exists (i_f_orb i) = true) by (destruct (i_f_orb i); auto; congruence). rewrite E. cbn [negb andb rbind].
  cbn [forallb]. rewrite (proj1 (has_unit_iff _) U1), (proj1 (has_unit_iff _) U2), (proj1 (has_unit_iff _) U3), (proj1 (has_unit_iff _) U4). cbn [andb negb].
  rewrite ensure_array_map. cbn [map fst]. apply ens_ecc in HE. destruct HE as [n HE]. rewrite HE. cbn [rbind]. cbn zeta. rewrite !entries_list, !ensured.
  match goal with |- (if ?b then _ else _) = _ => destruct b eqn:Ex end; [reflexivity|]. exfalso. apply H5.
  cbn [existsb] in Ex. rewrite Nat.eqb_refl in Ex. cbn [negb orb] in Ex. repeat (apply orb_false_elim in Ex; destruct Ex as [?H Ex]).
  repeat match goal with H : negb _ = false |- _ => apply negb_false_iff, Nat.eqb_eq in H end. auto.
Qed.
(** Refuted: the length of the weights is not checked. *)
Lemma weights_thm x k i s w : init x k i = Ok s -> exists s', init x k (mkInit (i_m_1 i) (i_m_2 i) (i_ecc i) (i_dist i) (i_n_proc i) (i_f_orb i) (i_a i) (i_position i)
    (i_polarisation i) (i_inclination i) (PArr w) (i_gw_lum_tol i) (i_stat_tol i) (i_interpolate_g i) (i_interpolate_sc i) (i_sc_params i)) = Ok s' /\ s_weights s' = Some w.
Proof.
  intros H. destruct (only_thm _ _ _ _ H) as (D & U & S). set (i' := mkInit _ _ _ _ _ _ _ _ _ _ _ _ _ _ _ _).
  assert (D' : documented_input i') by (destruct D; split; auto). assert (U' : usable_input i') by (destruct U; split; auto).
  destruct (accepts_thm x k i' D' U' S) as [s' Hs]. exists s'. split; auto. apply init_fwd in Hs. destruct Hs as (f & pos & inc & pol & C & F).
  destruct (finish_arrays _ _ _ _ F) as (_ & _ & _ & _ & _ & E & _). exact E.
Qed.
(** With one entry per source everywhere, the object is a collection of these sources. *)
Fixpoint rows (m1 m2 d f e w : list num) (sk : list angles) (n : nat) : list row :=
  match n with
  | O => []
  | S n => mkRow (hd NaN m1) (hd NaN m2) (hd NaN d) (hd NaN f) (hd NaN e) (hd (mkAngles 0 0 0 0) sk) (hd NaN w) NaN NaN 0 false ::
           rows (tl m1) (tl m2) (tl d) (tl f) (tl e) (tl w) (tl sk) n
  end.
Lemma rows_map : forall n m1 m2 d f e w sk, length m1 = n -> length m2 = n -> length d = n -> length f = n -> length e = n ->
  let xs := rows m1 m2 d f e w sk n in
  map r_m1 xs = m1 /\ map r_m2 xs = m2 /\ map r_d xs = d /\ map r_f xs = f /\ map r_e xs = e /\ map r_merged xs = repeat false n /\ (length w = n -> map r_w xs = w) /\
  (length sk = n -> map r_sky xs = sk) /\ length xs = n.
Proof.
  induction n as [|n IH]; intros m1 m2 d f e w sk H1 H2 H3 H4 H5; cbn.
  - destruct m1, m2, d, f, e; try discriminate. repeat split; auto. + destruct w; [auto|discriminate]. + destruct sk; [auto|discriminate].
  - destruct m1 as [|x1 m1], m2 as [|x2 m2], d as [|x3 d], f as [|x4 f], e as [|x5 e]; try discriminate. cbn.
    destruct (IH m1 m2 d f e (tl w) (tl sk)) as (A1 & A2 & A3 & A4 & A5 & A6 & A7 & A8 & A9); try (cbn in *; lia).
    rewrite A1, A2, A3, A4, A5, A6, A9. repeat split; auto.
    + destruct w as [|x6 w]; [discriminate|]. cbn in *. intros L. rewrite A7 by lia. reflexivity.
    + destruct sk as [|x6 sk]; [discriminate|]. cbn in *. intros L. rewrite A8 by lia. reflexivity.
Qed.
Lemma keep_pos {A B} (p : list A) (d : list B) : length p = length d -> bzip (fun q (_ : B) => q) p d = Ok p.
Proof.
  intros L. rewrite bzip_eq by auto. f_equal. revert d L. induction p as [|y p IH]; intros [|z d] L; cbn in *; try discriminate; auto. f_equal. apply IH. lia.
Qed.
Lemma collection_thm x k i s : init x k i = Ok s -> extras_fit x i ->
  exists xs, collection s xs /\ length xs = length (entries (i_m_1 i)) /\ s_t_merge s = None /\ s_snr s = None /\ s_max_snr_harmonic s = None /\ forall r, In r xs -> r_merged r = false.
Proof.
  intros H [EW EP]. apply init_fwd in H. destruct H as (f & pos & inc0 & pol & [C1 C2 C3 (C4 & C5 & C6) C7 (L1 & L2 & L3 & L4)] & F).
  destruct (finish_arrays _ _ _ _ F) as (E1 & E2 & E3 & E4 & E5 & E6 & E7 & E8 & E9 & E10 & E11 & E12 & E13 & _). cbn in E1, E2, E3, E4, E5, E6, E7, E8, E9, E10, E11, E12, E13.
  set (n := length (entries (i_m_1 i))) in *.
  assert (SK : exists sk : list angles, length sk = n /\ (mkSky pos pol inc0 = no_sky \/
     mkSky pos pol inc0 = mkSky (Some (map (fun k => (Fin (lat k), Fin (lon k))) sk)) (Some (map (fun k => Fin (psi k)) sk)) (Some (map (fun k => Fin (inc k)) sk)))).
  { destruct (i_position i) as [p|].
    - destruct (EP p eq_refl) as (sk & S1 & S2 & S3 & S4). exists sk. split; auto. right. destruct C2 as (I1 & I2 & _ & p' & I4 & ->).
      rewrite keep_pos in I4 by (rewrite S2, map_length; congruence). injection I4 as <-.
      assert (A : inc0 = Some (map (fun k => Fin (inc k)) sk)).
      { destruct (i_inclination i); [congruence|]. destruct I1 as (m & Hm & ->). apply is_array_entries in Hm. fold n in Hm. congruence. }
      assert (B : pol = Some (map (fun k => Fin (psi k)) sk)).
      { destruct (i_polarisation i); [congruence|]. destruct I2 as (m & Hm & ->). apply is_array_entries in Hm. fold n in Hm. congruence. }
      now rewrite A, B, S2.
    - exists (repeat (mkAngles 0 0 0 0) n). split; [apply repeat_length|]. left. destruct C2 as (_ & _ & -> & -> & ->). reflexivity. }
  destruct SK as (sk & SL & SK).
  pose proof (rows_map n (entries (i_m_1 i)) (entries (i_m_2 i)) (entries (i_dist i)) f (entries (i_ecc i)) (entries (i_weights i)) sk eq_refl L1 L2 L4 L3) as R0. cbn zeta in R0.
  set (xs := rows _ _ _ _ _ _ _ n) in R0. destruct R0 as (A1 & A2 & A3 & A4 & A5 & A6 & A7 & A8 & A9). specialize (A8 SL).
  exists xs. split; [|split; [exact A9|]].
  - split; try congruence.
    + rewrite E13, A6. reflexivity.
    + unfold weights_of in E6. destruct (py_exists (i_weights i)) eqn:EX; [right|now left]. rewrite E6. f_equal. symmetry. apply A7. apply EW. intros K. rewrite K in EX. discriminate.
    + left. exact E10.
    + left. exact E11.
    + left. exact E12.
    + rewrite E7, E8, E9. destruct SK as [K|K]; [left; exact K|right]. rewrite K. cbn. rewrite <- A8, !map_map. reflexivity.
  - split; auto. split; auto. split; auto. intros r Hr. apply (in_map r_merged) in Hr. rewrite A6 in Hr. now apply repeat_spec in Hr.
Qed.

(** ** C66 *)
Lemma column_f bs : (forall b, In b bs -> kepler_binary b) -> get_f_arr (column b_a bs) (column b_m1 bs) (column b_m2 bs) = Ok (column b_f bs).
Proof.
  intros H. unfold get_f_arr, column. rewrite bzip_map. cbn [rbind]. rewrite bzip_map. f_equal. apply map_ext_in. intros b Hb. cbn [fst snd].
  destruct (H b Hb) as (P1 & P2 & P3 & P4 & K). rewrite get_f_fin by auto. f_equal. apply (kepler_f_unique (b_m1 b) (b_m2 b) (b_a b)); auto using fR_pos, fR_kepler.
Qed.
Lemma column_a bs : (forall b, In b bs -> kepler_binary b) -> get_a_arr (column b_f bs) (column b_m1 bs) (column b_m2 bs) = Ok (column b_a bs).
Proof.
  intros H. unfold column. rewrite get_a_arr_map. f_equal. apply map_ext_in. intros b Hb.
  destruct (H b Hb) as (P1 & P2 & P3 & P4 & K). rewrite get_a_fin by auto. f_equal. apply (kepler_a_unique (b_m1 b) (b_m2 b) _ _ (b_f b)); auto using aR_pos, aR_kepler.
Qed.
Lemma set_a_thm s bs : (forall b, In b bs -> kepler_binary b) -> s_m_1 s = column b_m1 bs -> s_m_2 s = column b_m2 bs ->
  exists s', a_setter (PQArr (column b_a bs) tt) s = (s', Ok tt) /\ s_f_orb s' = column b_f bs /\ a_getter s' = Ok (column b_a bs) /\ s' = set_f_orb (column b_f bs) s.
Proof.
  intros H E1 E2. exists (set_f_orb (column b_f bs) s). unfold a_setter. rewrite mbind_self, mbind_lift, E1, E2, (column_f bs H). split; [reflexivity|]. split; [reflexivity|]. split; [|reflexivity].
  unfold a_getter. cbn [set_f_orb set_orbit s_f_orb s_m_1 s_m_2]. rewrite E1, E2. now apply column_a.
Qed.
Lemma set_a_units_thm s v : ~ has_unit v -> a_setter v s = (s, Err AssertionError).
Proof. intros H. destruct v as [|l []|y []|l|l|y]; try reflexivity; exfalso; apply H; unfold has_unit; eauto. Qed.
Lemma init_a_thm x k i bs : (forall b, In b bs -> kepler_binary b) -> i_m_1 i = PQArr (column b_m1 bs) tt -> i_m_2 i = PQArr (column b_m2 bs) tt ->
  i_f_orb i = PNone -> i_a i = PQArr (column b_a bs) tt ->
  init x k i = init x k (mkInit (i_m_1 i) (i_m_2 i) (i_ecc i) (i_dist i) (i_n_proc i) (PQArr (column b_f bs) tt) PNone (i_position i)
    (i_polarisation i) (i_inclination i) (i_weights i) (i_gw_lum_tol i) (i_stat_tol i) (i_interpolate_g i) (i_interpolate_sc i) (i_sc_params i)).
Proof.
  intros H E1 E2 E3 E4.
  assert (F : f_orb_from_a (i_a i) (i_m_1 i) (i_m_2 i) = Ok (PQArr (column b_f bs) tt)).
  { rewrite E1, E2, E4. unfold f_orb_from_a. cbn [py_has_units andb list_of is_scalar]. now rewrite (column_f bs H). }
  unfold init. cbn [i_m_1 i_m_2 i_ecc i_dist i_f_orb i_a i_position i_polarisation i_inclination i_weights i_stat_tol i_n_proc i_interpolate_sc i_gw_lum_tol i_sc_params i_interpolate_g py_exists].
  rewrite F, E3. replace (py_exists (i_a i)) with true by (now rewrite E4). reflexivity.
Qed.
(** Refuted: assigning separations of another length is accepted and misaligns the arrays. *)
Lemma set_a_misaligned_thm s m1 m2 a1 a2 : s_m_1 s = [Fin m1] -> s_m_2 s = [Fin m2] ->
  exists s', a_setter (PQArr [Fin a1; Fin a2] tt) s = (s', Ok tt) /\ length (s_m_1 s') = 1%nat /\ length (s_f_orb s') = 2%nat.
Proof.
  intros E1 E2. unfold a_setter. rewrite mbind_self, mbind_lift, E1, E2. unfold get_f_arr. rewrite bzip_eq by reflexivity. cbn [map2 rbind]. rewrite bzip_single_l.
  eexists. split; [reflexivity|]. cbn. rewrite E1. auto.
Qed.
