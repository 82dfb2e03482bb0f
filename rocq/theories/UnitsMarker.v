(** UnitsMarker.v -- the marker for merged binaries depends on the unit of the separation. *)
From Coq Require Import String Reals ZArith List Bool Lra Lia.
From Verif Require Import Num NumFacts Np NpFacts Utils UtilsFacts Strain Evol EvolFacts Units UnitsSpec UnitsFacts UnitsThms UnitsStrain UnitsEvol UnitsEvolSpec UnitsEvolFacts UnitsEvolThms UnitsEvolRuns UnitsEccRuns.
Import ListNotations.
Open Scope list_scope.
Open Scope R_scope.
Open Scope res_scope.

(** The frequencies evol_circ returns at t = 0 for the separation [a] (metres), written in the unit [u]; masses 1 kg. *)
Definition start_frequency (quad : quad_t) (u : unit_) (a : num) : res outputs_q :=
  evol_circ_q quad TNoneQ 2 (S1Q [Qy (Fin 0) second]) PNone (PQScalar (Qy (Fin 1) (mkUnit 1 mass_dim)) tt)
    (PQScalar (Qy (Fin 1) (mkUnit 1 mass_dim)) tt) (PQScalar (in_unit u a) tt) PNone ["f_orb"%string].

Lemma kg_isv : isv mass_dim (Qy (Fin 1) (mkUnit 1 mass_dim)) (Fin 1).
Proof. split; [unfold proper; cbn; lra|]. split; [reflexivity|]. unfold si. cbn. f_equal. ring. Qed.

Lemma circ_start a b : 0 < a -> circ_a_elem (Fin a) (Fin b) (Fin 0) = Fin a.
Proof.
  intros A. unfold circ_a_elem.
  replace (Fin a ^^ 4 - Fin 4 * Fin b * Fin 0)%num with (Fin (a ^ 4)).
  2:{ unfold nsub. cbn [nmul nneg npowi]. change (0 <=? 4)%Z with true. cbn [nadd]. f_equal. change (Z.to_nat 4) with 4%nat. ring. }
  assert (P : 0 < a ^ 4) by now apply pow_lt.
  cbv zeta. cbn [nle]. unfold Rleb. destruct (Rle_dec (a ^ 4) 0); [lra|]. cbn [npowr]. unfold Rltb. destruct (Rlt_dec 0 (a ^ 4)); [|lra].
  f_equal. rewrite <- (Rpower_pow 4 a A). rewrite Rpower_mult. replace (INR 4 * (1/4)) with 1 by (cbn; lra). now apply Rpower_1.
Qed.

Lemma start_general quad u a : unit_for length_dim u -> 0 < a ->
  exists w f, isz length_dim (u_size u) w (Fin a) /\
    freq_of_a_q (Qy (Fin 1) (mkUnit 1 mass_dim)) (Qy (Fin 1) (mkUnit 1 mass_dim)) w = Ok f /\
    start_frequency quad u (Fin a) = rmap (fun v => SingleQ (E1Q [v])) (to f hertz).
Proof.
  intros U A. unfold start_frequency, evol_circ_q.
  cbn [ensure_array ensure_array_one py_exists py_has_units py_is_array py_is_list np_wrap andb orb negb arr_of_q].
  unfold check_arr_q, check_mass_freq_input, beta_arr_q. cbn [bzipM length Nat.eqb map2M].
  rewrite (beta_isv _ _ _ _ kg_isv kg_isv). cbn [rbind fst snd].
  cbn [any_in existsb String.eqb Ascii.eqb Bool.eqb andb orb negb].
  cbn [create_timesteps_array_q forallb is_quantity andb np_repeat repeat length rbind newaxis map].
  unfold bzip2, bzip2M, bzip. cbn [bzipM length Nat.eqb map2M rbind].
  pose proof (isz_in _ _ (Fin a) U) as IA.
  pose proof (four_bt _ _ _ _ (isv_in _ _ (beta (Fin 1) (Fin 1)) unit_m4s) (seconds_isv (Fin 0))) as IB.
  destruct (circ_a_isz _ _ _ _ (beta (Fin 1) (Fin 1), Fin 0) IA IB) as (w & -> & W). cbn [fst snd] in W.
  assert (BF : exists b, beta (Fin 1) (Fin 1) = Fin b).
  { unfold beta. cbn [nmul nadd npowi ndiv]. change (0 <=? 3)%Z with true. change (0 <=? 5)%Z with true. cbn [nmul ndiv].
    unfold Reqb. destruct (Req_EM_T _ 0) as [E|_]; [|eexists; reflexivity].
    exfalso. pose proof (pow_lt clight (Z.to_nat 5) clight_pos). lra. }
  destruct BF as (b & BF). rewrite BF, circ_start in W by exact A.
  cbn [rbind]. unfold freq_rows_q, bzip2M, bzip. cbn [newaxis map bzipM length Nat.eqb map2M rbind fst snd].
  exists w.
  assert (F : exists f, freq_of_a_q (Qy (Fin 1) (mkUnit 1 mass_dim)) (Qy (Fin 1) (mkUnit 1 mass_dim)) w = Ok f).
  { destruct W as (Iw & _). pose proof (not_plain _ _ _ length_not_none Iw) as Q. destruct w as [|y z]; [discriminate|]. cbn [freq_of_a_q].
    destruct (neqb y (Fin 0)).
    - assert (IM : is_ length_dim (Fin (marker * u_size z)) (Qy (Fin marker) z)) by (repeat split; apply Iw).
      rewrite (f_from_a_si _ _ _ _ _ _ IM kg_isv kg_isv). cbn [rbind]. eexists. reflexivity.
    - rewrite (f_from_a_si _ _ _ _ _ _ Iw kg_isv kg_isv). cbn [rbind]. eexists. reflexivity. }
  destruct F as (f & F). exists f. split; [exact W|]. split; [exact F|]. rewrite F. cbn [rbind].
  cbn [mapM rbind]. unfold convert. cbn [mapM rbind]. destruct (to f hertz) as [v|e]; reflexivity.
Qed.

Lemma fast_start : exists f, get_f_orb_from_a (Fin marker) (Fin 1) (Fin 1) = Fin f /\ 100 < f.
Proof.
  unfold get_f_orb_from_a. cbn [nadd nmul npowi]. change (0 <=? 3)%Z with true. cbn [ndiv].
  assert (M : 0 < marker ^ Z.to_nat 3) by (apply pow_lt; unfold marker; lra).
  unfold Reqb at 1. destruct (Req_EM_T (marker ^ Z.to_nat 3) 0); [lra|].
  set (x := Ggrav * (1 + 1) / marker ^ Z.to_nat 3).
  assert (X : 640000 < x).
  { unfold x. apply Rmult_lt_reg_r with (marker ^ Z.to_nat 3); [exact M|]. unfold Rdiv. rewrite Rmult_assoc, Rinv_l, Rmult_1_r by lra.
    Transparent Ggrav. unfold Ggrav. Opaque Ggrav. change (Z.to_nat 3) with 3%nat. unfold marker. lra. }
  cbn [npowr]. unfold Rltb. destruct (Rlt_dec 0 x); [|lra]. cbn [nmul ndiv].
  pose proof PI_RGT_0 as P0. pose proof PI_4 as P4. unfold Reqb. destruct (Req_EM_T (2 * PI) 0); [lra|].
  eexists. split; [reflexivity|]. replace (1/2) with (/2) by lra. rewrite Rpower_sqrt by lra.
  apply Rmult_lt_reg_r with (2 * PI); [lra|]. unfold Rdiv. rewrite Rmult_assoc, Rinv_l, Rmult_1_r by lra.
  assert (800 < sqrt x). { replace 800 with (sqrt (800 * 800)) by (rewrite sqrt_square; lra). apply sqrt_lt_1; lra. }
  lra.
Qed.

Theorem marker_unit quad :
  start_frequency quad meter (Fin marker) = Ok (SingleQ (E1Q [in_unit hertz (Fin 100)])) /\
  start_frequency quad au (Fin marker) = Ok (SingleQ (E1Q [in_unit hertz (get_f_orb_from_a (Fin marker) (Fin 1) (Fin 1))])) /\
  start_frequency quad meter (Fin marker) <> start_frequency quad au (Fin marker).
Proof.
  assert (MP : 0 < marker) by (unfold marker; lra).
  assert (E1 : start_frequency quad meter (Fin marker) = Ok (SingleQ (E1Q [in_unit hertz (Fin 100)]))).
  { destruct (start_general quad meter marker unit_meter MP) as (w & f & W & F & ->).
    apply (isz_eq length_dim meter) in W; [|auto with units|auto with units]. subst w.
    cbn [freq_of_a_q in_unit] in F. change (u_size meter) with 1 in F. rewrite over_one in F.
    replace (neqb (Fin marker) (Fin 0)) with false in F by (symmetry; apply neqb_ne; intros K; injection K; lra).
    cbv zeta in F. cbv iota in F. destruct (get_f_orb_from_a_q _ _ _); cbn [rbind] in F; cbn [mag] in F; [|discriminate]. cbn [in_unit mag] in F. change (u_size meter) with 1 in F. rewrite over_one, neqb_self in F. injection F as <-.
    rewrite (to_in _ _ _ _ unit_hertz frequency_not_none (hertz_isv (Fin 100))). reflexivity. }
  assert (E2 : start_frequency quad au (Fin marker) = Ok (SingleQ (E1Q [in_unit hertz (get_f_orb_from_a (Fin marker) (Fin 1) (Fin 1))]))).
  { destruct (start_general quad au marker unit_au MP) as (w & f & W & F & ->).
    destruct (freq_isv (u_size au) _ _ _ _ _ _ kg_isv kg_isv W (or_introl eq_refl)) as (f' & F' & I). rewrite F in F'. injection F' as <-.
    rewrite (to_in _ _ _ _ unit_hertz frequency_not_none I). cbn [rmap]. do 4 f_equal. unfold freq_of_a.
    replace (neqb (Fin marker) (Fin 0)) with false by (symmetry; apply neqb_ne; intros K; injection K; lra).
    replace (neqb (Fin marker) (Fin tiny)) with false; [reflexivity|]. symmetry. apply neqb_ne. intros K. injection K as K.
    revert K. unfold marker, tiny, AU. lra. }
  split; [exact E1|]. split; [exact E2|]. rewrite E1, E2. destruct fast_start as (f & -> & H). intros K. injection K as K.
  revert K. cbn. unfold Reqb. destruct (Req_EM_T 1 0); [lra|]. intros K. injection K. lra.
Qed.
