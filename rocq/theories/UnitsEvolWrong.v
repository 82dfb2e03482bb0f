(** UnitsEvolWrong.v -- evolution times without a unit, or with a unit that is not one of time. *)
From Coq Require Import String Reals ZArith List Bool Lra Lia.
From Verif Require Import Num NumFacts Np NpFacts Utils UtilsFacts Strain Evol EvolFacts Units UnitsSpec UnitsFacts UnitsThms UnitsStrain UnitsEvol UnitsEvolSpec UnitsEvolFacts UnitsEvolThms UnitsEvolRuns UnitsEccRuns.
Import ListNotations.
Open Scope list_scope.
Open Scope R_scope.
Open Scope res_scope.

(** The evolution time (or the time steps) that the call would use carries no unit. *)
Definition no_unit (te : tevol_q) (ts : tsteps_q) : Prop :=
  match ts with
  | S1Q l => exists x, List.In (Pl x) l
  | S2Q _ => False
  | SNoneQ => match te with TScalarQ v => is_quantity v = false | TArrQ l => exists x, List.In (Pl x) l | TNoneQ => False end
  end.

Lemma create_plain quad a b ecc te n ts : no_unit te ts -> create_timesteps_array_q quad a b ecc te n ts = Err AttributeError.
Proof.
  assert (P : forall l x, List.In (Pl x) l -> forallb is_quantity l = false).
  { intros l x I. destruct (forallb is_quantity l) eqn:E; [|reflexivity]. rewrite forallb_forall in E. now specialize (E _ I). }
  destruct ts as [|l|l]; cbn [no_unit create_timesteps_array_q].
  - destruct te as [|v|l]; cbn; [contradiction|intros ->; reflexivity|]. intros (x & I). now rewrite (P _ _ I).
  - intros (x & I). now rewrite (P _ _ I).
  - contradiction.
Qed.
Section Calls.
Variables (quad : quad_t) (odeint : odeint_t) (sched : list nat) (n : nat) (b m1 m2 a f : arg) (vars : list string) (ub u1 u2 ua uf : unit_).
Hypotheses (UB : unit_for beta_dim ub) (U1 : unit_for mass_dim u1) (U2 : unit_for mass_dim u2) (UA : unit_for length_dim ua)
  (UF : unit_for frequency_dim uf).

Let args_ok := check_rel (u_size ua) _ _ _ _ _ _ _ _ _ _ (opt_list_isv _ _ (arr_of (fst (ensure_array_one (si_arg b)))) UB)
  (opt_list_isv _ _ (arr_of (fst (ensure_array_one (si_arg m1)))) U1) (opt_list_isv _ _ (arr_of (fst (ensure_array_one (si_arg m2)))) U2)
  (opt_list_isz _ _ (arr_of (fst (ensure_array_one (si_arg a)))) UA) (opt_list_isv _ _ (arr_of (fst (ensure_array_one (si_arg f)))) UF).

Lemma circ_time_error te ts te' ts' e o :
  (forall aq bq ecc xb xa, check_arr (arr_of (fst (ensure_array_one (si_arg b)))) (arr_of (fst (ensure_array_one (si_arg m1))))
       (arr_of (fst (ensure_array_one (si_arg m2)))) (arr_of (fst (ensure_array_one (si_arg a)))) (arr_of (fst (ensure_array_one (si_arg f)))) = Ok (xb, xa) ->
     length aq = length xa -> create_timesteps_array_q quad aq bq ecc te' n ts' = Err e) ->
  evol_circ quad te n ts (si_arg b) (si_arg m1) (si_arg m2) (si_arg a) (si_arg f) vars = Ok o ->
  evol_circ_q quad te' n ts' (arg_in ub b) (arg_in u1 m1) (arg_in u2 m2) (arg_in ua a) (arg_in uf f) vars = Err e.
Proof.
  intros E. unfold evol_circ_q, evol_circ. rewrite !ensure_array_map. cbn [map].
  rewrite (proj1 (arg_arrays _ _ m1 U1)), (proj1 (arg_arrays _ _ m2 U2)),
      (proj1 (arg_arrays _ _ b UB)), (proj1 (arg_arrays _ _ a UA)), (proj1 (arg_arrays _ _ f UF)).
  pose proof args_ok as R. clear args_ok.
  set (xb := arr_of (fst (ensure_array_one (si_arg b)))) in *.
  set (x1 := arr_of (fst (ensure_array_one (si_arg m1)))) in *.
  set (x2 := arr_of (fst (ensure_array_one (si_arg m2)))) in *.
  set (xa := arr_of (fst (ensure_array_one (si_arg a)))) in *.
  set (xf := arr_of (fst (ensure_array_one (si_arg f)))) in *.
  destruct (check_arr_q _ _ _ _ _) as [q|er], (check_arr _ _ _ _ _) as [x|er'] eqn:EX; cbn in R; try contradiction; [|cbn; discriminate].
  destruct R as (B & A). cbn [rbind].
  replace (match list_in u1 x1 with Some _ => match list_in u2 x2 with Some _ => true | None => false end | None => false end)
    with (match x1 with Some _ => match x2 with Some _ => true | None => false end | None => false end)
    by (destruct x1, x2; reflexivity).
  destruct (any_in ["f_orb"%string; "f_GW"%string] vars && _); [discriminate|]. intros _.
  rewrite (E (snd q) (fst q) _ (fst x) (snd x)); [reflexivity|destruct x; reflexivity|eapply rel_length; exact A].
Qed.

Theorem circ_no_unit te ts te' ts' o : no_unit te' ts' ->
  evol_circ quad te n ts (si_arg b) (si_arg m1) (si_arg m2) (si_arg a) (si_arg f) vars = Ok o ->
  evol_circ_q quad te' n ts' (arg_in ub b) (arg_in u1 m1) (arg_in u2 m2) (arg_in ua a) (arg_in uf f) vars = Err AttributeError.
Proof. intros N. eapply circ_time_error. intros. now apply create_plain. Qed.

Lemma ecc_time_error ecc n_proc am ex tb tm tbq tmq te ts te' ts' e o :
  (forall aq bq ec xb xa, check_arr (arr_of (fst (ensure_array_one (si_arg b)))) (arr_of (fst (ensure_array_one (si_arg m1))))
       (arr_of (fst (ensure_array_one (si_arg m2)))) (arr_of (fst (ensure_array_one (si_arg a)))) (arr_of (fst (ensure_array_one (si_arg f)))) = Ok (xb, xa) ->
     length aq = length xa -> create_timesteps_array_q quad aq bq ec te' n ts' = Err e) ->
  evol_ecc quad odeint sched ecc te n ts (si_arg b) (si_arg m1) (si_arg m2) (si_arg a) (si_arg f) vars n_proc am ex tb tm = Ok o ->
  evol_ecc_q quad odeint sched ecc te' n ts' (arg_in ub b) (arg_in u1 m1) (arg_in u2 m2) (arg_in ua a) (arg_in uf f) vars
    n_proc am ex tbq tmq = Err e.
Proof.
  intros E. unfold evol_ecc_q, evol_ecc. rewrite !ensure_array_map. cbn [map].
  rewrite (proj1 (arg_arrays _ _ m1 U1)), (proj1 (arg_arrays _ _ m2 U2)),
      (proj1 (arg_arrays _ _ b UB)), (proj1 (arg_arrays _ _ a UA)), (proj1 (arg_arrays _ _ f UF)).
  pose proof args_ok as R. clear args_ok.
  set (xb := arr_of (fst (ensure_array_one (si_arg b)))) in *.
  set (x1 := arr_of (fst (ensure_array_one (si_arg m1)))) in *.
  set (x2 := arr_of (fst (ensure_array_one (si_arg m2)))) in *.
  set (xa := arr_of (fst (ensure_array_one (si_arg a)))) in *.
  set (xf := arr_of (fst (ensure_array_one (si_arg f)))) in *.
  destruct (check_arr_q _ _ _ _ _) as [q|er], (check_arr _ _ _ _ _) as [x|er'] eqn:EX; cbn in R; try contradiction; [|cbn; discriminate].
  destruct R as (B & A). cbn [rbind].
  replace (match list_in u1 x1 with Some _ => match list_in u2 x2 with Some _ => true | None => false end | None => false end)
    with (match x1 with Some _ => match x2 with Some _ => true | None => false end | None => false end)
    by (destruct x1, x2; reflexivity).
  destruct (any_in ["f_orb"%string; "f_GW"%string] vars && _); [discriminate|].
  destruct (arr_of (fst (ensure_array_one ecc))) as [xe|]; [|discriminate].
  assert (RC : res_rel (Forall2 (isv length_dim)) (bzipM (fun a e => c_0_q a (Pl e)) (snd q) xe) (bzip c_0 (snd x) xe)).
  { unfold bzip. eapply rel_bzipM; [eapply all_isv; exact A|apply eq_forall2|]. intros v y e0 e' I <-. rewrite (c_0_isv _ _ _ I).
    cbn. apply isv_in. auto with units. }
  destruct (bzipM _ (snd q) xe) as [cq|er], (bzip c_0 (snd x) xe) as [cx|er']; cbn in RC; try contradiction; [|cbn; discriminate].
  cbn [rbind]. intros _.
  rewrite (E (snd q) (fst q) _ (fst x) (snd x)); [reflexivity|destruct x; reflexivity|eapply rel_length; exact A].
Qed.

Theorem ecc_no_unit ecc n_proc am ex tb tm tbq tmq te ts te' ts' o : no_unit te' ts' ->
  evol_ecc quad odeint sched ecc te n ts (si_arg b) (si_arg m1) (si_arg m2) (si_arg a) (si_arg f) vars n_proc am ex tb tm = Ok o ->
  evol_ecc_q quad odeint sched ecc te' n ts' (arg_in ub b) (arg_in u1 m1) (arg_in u2 m2) (arg_in ua a) (arg_in uf f) vars
    n_proc am ex tbq tmq = Err AttributeError.
Proof. intros N. eapply ecc_time_error. intros. now apply create_plain. Qed.
End Calls.

Theorem ecc_same_outcome : forall quad odeint sched ecc te n ts b m1 m2 a f vars n_proc am ex tb tm
    ut us ub u1 u2 ua uf utb um vt vs vb v1 v2 va vf vtb vm,
  unit_for time_dim ut -> unit_for time_dim us ->
  unit_for beta_dim ub -> unit_for mass_dim u1 -> unit_for mass_dim u2 -> unit_for length_dim ua -> unit_for frequency_dim uf ->
  unit_for time_dim utb -> unit_for time_dim um ->
  unit_for time_dim vt -> unit_for time_dim vs ->
  unit_for beta_dim vb -> unit_for mass_dim v1 -> unit_for mass_dim v2 -> unit_for length_dim va -> unit_for frequency_dim vf ->
  unit_for time_dim vtb -> unit_for time_dim vm ->
  rmap fst (evol_ecc_q quad odeint sched ecc (t_evol_in ut te) n (timesteps_in us ts) (arg_in ub b) (arg_in u1 m1) (arg_in u2 m2)
    (arg_in ua a) (arg_in uf f) vars n_proc am ex (in_unit utb tb) (list_in um tm))
  = rmap fst (evol_ecc_q quad odeint sched ecc (t_evol_in vt te) n (timesteps_in vs ts) (arg_in vb b) (arg_in v1 m1) (arg_in v2 m2)
    (arg_in va a) (arg_in vf f) vars n_proc am ex (in_unit vtb tb) (list_in vm tm)).
Proof.
  intros. rewrite !evol_ecc_si by assumption. destruct (evol_ecc _ _ _ _ _ _ _ _ _ _ _ _ _ _ _ _ _ _); reflexivity.
Qed.

(** Two stars of 2e30 kg, one AU apart, and one day later. *)
Definition kilometre : unit_ := mkUnit 1000 length_dim.
Definition hour : unit_ := mkUnit 3600 time_dim.
Definition star : num := Fin 2000000000000000000000000000000.
Definition day_run (quad : quad_t) : res outputs :=
  evol_circ quad TNone 2 (S1 [Fin 86400]) (si_arg Absent) (si_arg (Scalar star)) (si_arg (Scalar star))
     (si_arg (Scalar (Fin AU))) (si_arg Absent) ["a"%string].

(** The same time steps, written in kilometres by mistake. *)
Definition day_in_kilometres : tsteps_q := S1Q [Qy (Fin (86400 / 1000)) kilometre].

Lemma day_beta : exists b, beta star star = Fin b /\ 0 <= b <= 100000000000000000000.
Proof.
  unfold beta, star. cbn [nmul nadd npowi ndiv]. change (0 <=? 3)%Z with true. change (0 <=? 5)%Z with true. cbn [nmul ndiv].
  pose proof (pow_lt clight (Z.to_nat 5) clight_pos) as C.
  unfold Reqb. destruct (Req_EM_T _ 0) as [E|_].
  { exfalso. change (Z.to_nat 5) with 5%nat in *. lra. }
  eexists. split; [reflexivity|].
  Transparent Ggrav clight. change (Z.to_nat 5) with 5%nat in *. change (Z.to_nat 3) with 3%nat. unfold Ggrav, clight in *. Opaque Ggrav clight. split; [|lra]. lra.
Qed.
Lemma day_sep b : 0 <= b <= 100000000000000000000 -> exists x, circ_a_elem (Fin AU) (Fin b) (Fin 86400) = Fin x /\ 1 < x.
Proof.
  intros B. unfold circ_a_elem.
  replace (Fin AU ^^ 4 - Fin 4 * Fin b * Fin 86400)%num with (Fin (AU ^ 4 - 4 * b * 86400)).
  2:{ unfold nsub. cbn [nmul nneg npowi]. change (0 <=? 4)%Z with true. cbn [nadd]. f_equal. }
  assert (P : 1 < AU ^ 4 - 4 * b * 86400) by (unfold AU; lra).
  cbv zeta. cbn [nle]. unfold Rleb. destruct (Rle_dec _ 0); [lra|]. cbn [npowr]. unfold Rltb. destruct (Rlt_dec 0 _); [|lra].
  eexists. split; [reflexivity|]. apply (Rle_lt_trans _ (Rpower 2 0)); [rewrite Rpower_O; lra|]. unfold Rpower. apply exp_increasing.
  rewrite Rmult_0_l. apply Rmult_lt_0_compat; [lra|]. apply (Rle_lt_trans _ (ln 1)); [rewrite ln_1; lra|]. apply ln_increasing; lra.
Qed.
Lemma day_run_ok quad : exists x, day_run quad = Ok (Single (E1 [Fin x])) /\ 1 < x.
Proof.
  destruct day_beta as (b & B & HB). destruct (day_sep b HB) as (x & X & HX). exists x. split; [|exact HX].
  unfold day_run, evol_circ.
  cbn [si_arg ensure_array ensure_array_one py_exists py_has_units py_is_array py_is_list np_wrap andb orb negb arr_of].
  unfold check_arr, check_mass_freq_input, beta_arr. unfold bzip. cbn [bzipM length Nat.eqb map2M rbind map fst snd].
  rewrite B. cbn [rbind fst snd any_in existsb String.eqb Ascii.eqb Bool.eqb andb orb negb].
  cbn [create_timesteps_array np_repeat repeat length rbind newaxis map].
  unfold bzip2, bzip2M, bzip. cbn [bzipM length Nat.eqb map2M rbind newaxis map fst snd]. rewrite X. reflexivity.
Qed.
Theorem units_example :
  unit_for length_dim kilometre /\ unit_for time_dim hour /\ unit_for mass_dim msun /\ unit_for mass_dim (mkUnit 1 mass_dim) /\
  unit_for frequency_dim (mkUnit (1/1000) frequency_dim) /\ unit_for beta_dim (mkUnit 1 beta_dim) /\
  (forall quad, off_marker kilometre (day_run quad) /\ (exists o, day_run quad = Ok o)) /\
  no_unit (TScalarQ (Pl (Fin 5))) SNoneQ /\
  (exists v, List.In v (times_given TNoneQ day_in_kilometres) /\ wrong time_dim v) /\ si_timesteps day_in_kilometres = S1 [Fin 86400] /\
  some_source Absent /\ some_source (Scalar star).
Proof.
  split; [split; [cbn; lra|reflexivity]|]. split; [split; [cbn; lra|reflexivity]|]. split; [exact unit_msun|].
  split; [split; [cbn; lra|reflexivity]|]. split; [split; [cbn; lra|reflexivity]|]. split; [split; [cbn; lra|reflexivity]|]. split; [|split].
  - intros quad. destruct (day_run_ok quad) as (x & E & X). split; [|eexists; exact E].
    intros e y E' I. rewrite E in E'. injection E' as <-. cbn in I. destruct I as [<-|[]]. split; intros K; injection K as K; revert K.
    + cbn. lra.
    + unfold AU. lra.
  - reflexivity.
  - split; [|split; [|split; discriminate]].
    + exists (Qy (Fin (86400 / 1000)) kilometre). split; [left; reflexivity|].
      split; [unfold proper; cbn [unit_of u_size kilometre]; lra|]. split; [|discriminate]. unfold dim_of. cbn. intros K. injection K. lra.
    + unfold day_in_kilometres. cbn [si_timesteps map]. unfold si. cbn [mag unit_of u_size kilometre nmul]. do 3 f_equal. lra.
Qed.
