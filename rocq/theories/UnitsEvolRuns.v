(** UnitsEvolRuns.v -- evol_circ, evol_ecc and determine_stationarity with quantities. *)
From Coq Require Import String Reals ZArith List Bool Lra Lia.
From Verif Require Import Num NumFacts Np NpFacts Utils UtilsFacts Strain Evol EvolFacts Units UnitsSpec UnitsFacts UnitsThms UnitsStrain UnitsEvol UnitsEvolSpec UnitsEvolFacts UnitsEvolThms.
Import ListNotations.
Open Scope list_scope.
Open Scope R_scope.
Open Scope res_scope.

(** *** Time steps *)
Lemma all_quantities d u l : unit_for d u -> forallb is_quantity (map (in_unit u) l) = true.
Proof. intros _. induction l; cbn; auto. Qed.
Lemma seconds_isv x : isv time_dim (Qy x second) x.
Proof. split; [cbn; unfold proper; cbn; lra|]. split; [reflexivity|]. unfold si. cbn [mag unit_of second u_size]. apply scale_one. Qed.
Lemma seconds_isz x : isz time_dim 1 (Qy x second) x.
Proof. split; [apply seconds_isv|reflexivity]. Qed.
Lemma linspace_rel l l' n : Forall2 (isv time_dim) l l' ->
  res_rel (Forall2 (Forall2 (isz time_dim 1)))
    (mapM (fun stop => s <- to stop second ;; Ok (map (fun x => Qy x second) (linspace0 (mag s) n))) l)
    (Ok (map (fun stop => linspace0 stop n) l')).
Proof.
  intros H. induction H as [|x y l l' XY H IH]; [constructor|]. cbn [mapM map].
  rewrite (to_in _ _ _ _ unit_second time_not_none XY). cbn [rbind mag in_unit]. change (u_size second) with 1. rewrite over_one.
  destruct (mapM _ l) as [k|]; cbn in *; [|contradiction]. constructor; [|exact IH].
  clear. induction (linspace0 y n); constructor; auto using seconds_isz.
Qed.
Lemma rows_isz d u l : unit_for d u -> Forall2 (Forall2 (isz d (u_size u))) (map (map (in_unit u)) l) l.
Proof. intros H. induction l; constructor; auto using list_isz. Qed.
Lemma rows_weaken d s l l' : Forall2 (Forall2 (isz d s)) l l' -> Forall2 (Forall2 (isv d)) l l'.
Proof. apply forall2_imp. intros ? ?. apply all_isv. Qed.
(** Size of the unit of the time steps. *)
Definition steps_size (us : unit_) (ts : tsteps) : R := match ts with SNone => 1 | _ => u_size us end.
Lemma timesteps_rel quad s a xa b xb ecc t_evol n ts ut us :
  Forall2 (isz length_dim s) a xa -> Forall2 (isv beta_dim) b xb -> unit_for time_dim ut -> unit_for time_dim us ->
  res_rel (Forall2 (Forall2 (isz time_dim (steps_size us ts))))
    (create_timesteps_array_q quad a b ecc (t_evol_in ut t_evol) n (timesteps_in us ts))
    (create_timesteps_array quad xa xb ecc t_evol n ts).
Proof.
  intros A B UT US. destruct ts as [|l|l]; cbn [timesteps_in create_timesteps_array_q create_timesteps_array steps_size].
  - destruct t_evol as [|t|l]; cbn [t_evol_in].
    + rewrite (t_merge_ecc_rel quad s ecc (Some b) None None (Some a) None (Some xb) None None (Some xa) None);
        try exact Logic.I; try assumption.
      destruct (get_t_merge_ecc _ _ _ _ _ _ _ _ _ _) as [l|e]; [|reflexivity]. cbn [rmap rbind].
      apply linspace_rel. apply list_isv. auto with units.
    + cbn [is_quantity in_unit rbind]. rewrite (rel_length _ _ _ A). apply linspace_rel. apply rel_repeat. now apply isv_in.
    + rewrite (all_quantities _ _ _ UT). cbn [rbind]. apply linspace_rel. now apply list_isv.
  - rewrite (all_quantities _ _ _ US). cbn. rewrite (rel_length _ _ _ A). apply rel_repeat. now apply list_isz.
  - cbn. now apply rows_isz.
Qed.

(** *** Circular evolution, entry by entry *)
Lemma four_bt b t x y : isv beta_dim b x -> isv time_dim t y ->
  isv (dpow length_dim 4) (vmul (vmul (lit 4) b) t) (Fin 4 * x * y).
Proof.
  intros Ib It. unfold isv in *. replace (dpow length_dim 4) with (dmul (dmul dimensionless beta_dim) time_dim) by dim_eq. mean.
Qed.
Lemma fourth_root s : 0 < s -> Rpower (powerRZ s 4) (1/4) = s.
Proof.
  intros S. rewrite powerRZ_nonneg by lia. change (Z.to_nat 4) with 4%nat. rewrite <- Rpower_pow by exact S. rewrite Rpower_mult.
  replace (INR 4 * (1/4)) with 1 by (cbn; lra). now apply Rpower_1.
Qed.
Lemma le0_scale x s : 0 < s -> nle (x * Fin s) (Fin 0) = nle x (Fin 0).
Proof.
  intros S. replace (Fin 0) with (Fin 0 * Fin s)%num at 1 by (cbn; f_equal; ring). now apply le_scale.
Qed.
Lemma circ_a_isz s a x v q : isz length_dim s a x -> isv (dpow length_dim 4) v (Fin 4 * fst q * snd q) ->
  exists w, circ_a_elem_q a v = Ok w /\ isz length_dim s w (circ_a_elem x (fst q) (snd q)).
Proof.
  intros (Ia & S) Iv. unfold circ_a_elem_q, circ_a_elem.
  assert (I4 : is_ (dpow length_dim 4) (x ^^ 4) (vpowi a 4)) by (apply is_powi; [lia|exact Ia]).
  pose proof (not_plain _ _ _ length_not_none Ia) as Qa. destruct a as [|p u]; [discriminate|]. cbn [vpowi] in *.
  destruct (is_sub _ _ _ _ _ I4 Iv) as (d & E & I & Qd). unfold vsub. rewrite E. cbn [rbind].
  assert (Q : is_quantity d = true) by (rewrite Qd; reflexivity). destruct d as [|y w]; [discriminate|].
  assert (W : w = upowi u 4).
  { destruct v as [|z w0]; cbn in E.
    - destruct Iv as (_ & D & _). exfalso. cbn in D. unfold dim_of in D. cbn in D. injection D. lra.
    - destruct (dim_eqb _ _); [|discriminate]. now injection E. }
  subst w. eexists. split; [reflexivity|].
  destruct I as (P & D & Sy). unfold proper in P. unfold si in Sy. cbn [mag unit_of u_size upowi] in *.
  assert (U : 0 < u_size u) by apply Ia.
  set (diff := (x ^^ 4 - Fin 4 * fst q * snd q)%num) in *.
  assert (K : is_ (dpow length_dim 4) (if nle diff (Fin 0) then Fin 0 else diff)
                (Qy (if nle y (Fin 0) then Fin 0 else y) (upowi u 4))).
  { split; [exact P|]. split; [exact D|]. unfold si. cbn [mag unit_of u_size upowi].
    rewrite <- Sy, le0_scale by exact P. destruct (nle y (Fin 0)); [cbn; f_equal; ring|reflexivity]. }
  split.
  - replace length_dim with (dpow (dpow length_dim 4) (1/4)) by dim_eq. now apply is_pow.
  - cbn [vpow unit_of upow u_size upowi]. rewrite fourth_root by exact U. exact S.
Qed.

(** The frequency at a separation, unless the separation is one of the markers. *)
Lemma marker_tiny : marker * AU = tiny.
Proof. unfold marker, tiny. lra. Qed.
Lemma tiny_nz : tiny <> 0.
Proof. unfold tiny, AU. lra. Qed.
Lemma marker_nz : marker <> 0.
Proof. unfold marker. lra. Qed.
Lemma neqb_scale x y s : 0 < s -> neqb (x * Fin s) (y * Fin s) = neqb x y.
Proof.
  intros S. destruct x, y; rewrite ?scale_pinf, ?scale_ninf, ?scale_nan by assumption; try reflexivity.
  cbn. unfold Reqb. destruct (Req_EM_T (r * s) (r0 * s)), (Req_EM_T r r0); try reflexivity; exfalso; nra.
Qed.
Lemma neqb_ne x y : x <> Fin y -> neqb x (Fin y) = false.
Proof. destruct x; intros H; try reflexivity. cbn. unfold Reqb. destruct (Req_EM_T r y); [exfalso; apply H; congruence|reflexivity]. Qed.
Lemma neqb_self y : neqb (Fin y) (Fin y) = true.
Proof. cbn. unfold Reqb. destruct (Req_EM_T y y); [reflexivity|lra]. Qed.
Lemma hertz_isv x : isv frequency_dim (Qy x hertz) x.
Proof. split; [cbn; unfold proper; cbn; lra|]. split; [reflexivity|]. unfold si. cbn [mag unit_of hertz u_size]. apply scale_one. Qed.
Lemma freq_isv s m_1 m_2 a x1 x2 x : isv mass_dim m_1 x1 -> isv mass_dim m_2 x2 -> isz length_dim s a x ->
  s = AU \/ x <> Fin (marker * s) /\ x <> Fin tiny ->
  exists f, freq_of_a_q m_1 m_2 a = Ok f /\ isv frequency_dim f (freq_of_a x1 x2 x).
Proof.
  intros I1 I2 (Ia & S) H. pose proof (not_plain _ _ _ length_not_none Ia) as Qa. destruct a as [|p u]; [discriminate|].
  unfold freq_of_a_q, freq_of_a. cbn [unit_of] in S. destruct Ia as (P & D & Sx). unfold proper in P. unfold si in Sx.
  cbn [unit_of mag] in *. assert (U : 0 < s) by (rewrite <- S; exact P).
  assert (Z : neqb p (Fin 0) = neqb x (Fin 0)).
  { rewrite <- Sx. replace (Fin 0) with (Fin 0 * Fin (u_size u))%num at 2 by (cbn; f_equal; ring). symmetry. now apply neqb_scale. }
  rewrite Z. destruct (neqb x (Fin 0)) eqn:X0.
  - assert (IM : is_ length_dim (Fin (marker * u_size u)) (Qy (Fin marker) u)) by (repeat split; assumption).
    rewrite (f_from_a_si _ _ _ _ _ _ IM I1 I2). cbn [rbind mag]. rewrite !neqb_self. eexists. split; [reflexivity|]. apply hertz_isv.
  - assert (IA : is_ length_dim x (Qy p u)) by (repeat split; assumption).
    rewrite (f_from_a_si _ _ _ _ _ _ IA I1 I2). cbn [rbind mag].
    assert (M : neqb p (Fin marker) = neqb x (Fin tiny)).
    { rewrite <- (neqb_scale p (Fin marker) (u_size u)) by exact P. rewrite Sx, S. cbn [nmul].
      destruct H as [-> | (Hm & Ht)]; [now rewrite marker_tiny|]. now rewrite !neqb_ne. }
    rewrite M. eexists. split; [reflexivity|]. destruct (neqb x (Fin tiny)); [apply hertz_isv|].
    apply isv_in. auto with units.
Qed.

Lemma freq_rows_rel s m_1 m_2 a x1 x2 xa : Forall2 (isv mass_dim) m_1 x1 -> Forall2 (isv mass_dim) m_2 x2 ->
  Forall2 (Forall2 (isz length_dim s)) a xa ->
  s = AU \/ Forall (Forall (fun x => x <> Fin (marker * s) /\ x <> Fin tiny)) xa ->
  res_rel (Forall2 (Forall2 (isv frequency_dim))) (freq_rows_q m_1 m_2 a) (freq_rows x1 x2 xa).
Proof.
  intros H1 H2 HA HC. unfold freq_rows_q, freq_rows.
  assert (HA' : Forall2 (Forall2 (fun v x => isz length_dim s v x /\ (s = AU \/ x <> Fin (marker * s) /\ x <> Fin tiny))) a xa).
  { destruct HC as [E|HC].
    - eapply forall2_imp; [|exact HA]. intros v x Hr. eapply forall2_imp; [|exact Hr]. intros; split; [assumption|now left].
    - clear -HA HC. induction HA as [|r r' a xa RR HA IH]; constructor.
      + inversion HC as [|? ? HR _]; subst. clear -RR HR. induction RR; inversion HR; subst; constructor; auto.
      + inversion HC; subst. auto. }
  apply (rel_bind (Forall2 (fun q x => isv mass_dim (fst q) (fst x) /\ isv mass_dim (snd q) (snd x)))).
  - eapply rel_bzip; [exact H1|exact H2|]. intros; split; assumption.
  - intros q x Q. unfold bzip2. eapply rel_bzip2M; [apply rel_newaxis; exact Q|exact HA'|].
    intros p r v y (P1 & P2) (I & C). destruct (freq_isv s _ _ _ _ _ _ P1 P2 I C) as (w & -> & W). exact W.
Qed.

(** *** Outputs *)
Lemma map2_map_app {A B C} (f : A -> B -> C) a b c d : length a = length b ->
  map2 f (a ++ c) (b ++ d) = map2 f a b ++ map2 f c d.
Proof. revert b. induction a as [|x a IH]; intros [|y b] L; try discriminate; [reflexivity|]. cbn. rewrite IH by (cbn in L; lia). reflexivity. Qed.
Lemma collect_rel gq g us (vars : list string) :
  (forall v, gq v = Ok (map2 dress_evo (us v) (g v)) /\ length (us v) = length (g v)) ->
  exists ps, mapM gq vars = Ok ps /\ concat ps = map2 dress_evo (flat_map us vars) (flat_map g vars).
Proof.
  intros H. induction vars as [|v vars IH]; [exists []; split; reflexivity|]. destruct IH as (ps & E & C).
  destruct (H v) as (Hv & L). cbn [mapM]. rewrite Hv, E. cbn [rbind]. eexists. split; [reflexivity|].
  cbn [concat flat_map]. rewrite C. symmetry. now apply map2_map_app.
Qed.
Lemma flat_lengths {A B C} (f : A -> list B) (g : A -> list C) l : (forall x, length (f x) = length (g x)) ->
  length (flat_map f l) = length (flat_map g l).
Proof. intros H. induction l; cbn; [reflexivity|]. rewrite !app_length. congruence. Qed.
Lemma pack_rel us l : length us = length l -> pack_q (map2 dress_evo us l) = rmap (dress us) (pack l).
Proof.
  intros L. destruct us as [|u us], l as [|e l]; try discriminate; [reflexivity|].
  destruct us as [|u' us], l as [|e' l]; try discriminate; reflexivity.
Qed.
Lemma shape_dress single u x : shape_q single (map (map (in_unit u)) x) = dress_evo (Some u) (shape single x).
Proof. destruct single; cbn [shape_q shape dress_evo dress_val]; [f_equal; symmetry; apply concat_map|reflexivity]. Qed.
Lemma shape_plain single x : shape_q single (map (map Pl) x) = dress_evo None (shape single x).
Proof. destruct single; cbn [shape_q shape dress_evo dress_val]; [f_equal; symmetry; apply concat_map|reflexivity]. Qed.
Lemma convert_rel d u x y : unit_for d u -> d <> dimensionless -> Forall2 (Forall2 (isv d)) x y ->
  convert u x = Ok (map (map (in_unit u)) y).
Proof. intros U N H. eapply mapM_rows_to; [exact H|]. intros. now apply (to_in d). Qed.
Lemma one_hertz : umul one_ hertz = hertz.
Proof. unfold umul, one_, hertz. cbn [u_size u_dim]. f_equal; [lra|]. dim_eq. Qed.
Lemma twice_hertz x : vmul (lit 2) (in_unit hertz x) = in_unit hertz (Fin 2 * x)%num.
Proof.
  unfold in_unit, vmul. cbn [lit mag unit_of]. rewrite one_hertz. change (u_size hertz) with 1. now rewrite !over_one.
Qed.

(** *** Arguments *)
Lemma arg_arrays u d v : unit_for d u ->
  arr_of_q (fst (ensure_array_one (arg_in u v))) = list_in u (arr_of (fst (ensure_array_one (si_arg v)))) /\
  snd (ensure_array_one (arg_in u v)) = snd (ensure_array_one (si_arg v)).
Proof. intros _. destruct v; split; reflexivity. Qed.

Theorem evol_circ_si quad te n ts b m1 m2 a f vars ut us ub u1 u2 ua uf :
  unit_for time_dim ut -> unit_for time_dim us ->
  unit_for beta_dim ub -> unit_for mass_dim u1 -> unit_for mass_dim u2 -> unit_for length_dim ua -> unit_for frequency_dim uf ->
  any_in ["f_orb"%string; "f_GW"%string] vars = false \/ a = Absent \/ u_size ua = AU \/
    off_marker ua (evol_circ quad te n ts (si_arg b) (si_arg m1) (si_arg m2) (si_arg a) (si_arg f) ["a"%string]) ->
  evol_circ_q quad (t_evol_in ut te) n (timesteps_in us ts) (arg_in ub b) (arg_in u1 m1) (arg_in u2 m2) (arg_in ua a)
    (arg_in uf f) vars
  = rmap (dress (circ_units vars))
      (evol_circ quad te n ts (si_arg b) (si_arg m1) (si_arg m2) (si_arg a) (si_arg f) vars).
Proof.
  intros UT US UB U1 U2 UA UF M. unfold evol_circ_q, evol_circ in *.
  rewrite !ensure_array_map in *. cbn [map] in *. set (single_q := existsb _ _). set (single := existsb _ _) in *.
  assert (SS : single_q = single).
  { unfold single_q, single. cbn [existsb]. rewrite (proj2 (arg_arrays _ _ m1 U1)), (proj2 (arg_arrays _ _ m2 U2)),
      (proj2 (arg_arrays _ _ b UB)), (proj2 (arg_arrays _ _ a UA)), (proj2 (arg_arrays _ _ f UF)). reflexivity. }
  rewrite SS. clearbody single. clear single_q SS.
  rewrite (proj1 (arg_arrays _ _ m1 U1)), (proj1 (arg_arrays _ _ m2 U2)),
      (proj1 (arg_arrays _ _ b UB)), (proj1 (arg_arrays _ _ a UA)), (proj1 (arg_arrays _ _ f UF)).
  assert (AA : a = Absent <-> arr_of (fst (ensure_array_one (si_arg a))) = None) by (destruct a; split; (discriminate || reflexivity)).
  set (xb := arr_of (fst (ensure_array_one (si_arg b)))) in *.
  set (x1 := arr_of (fst (ensure_array_one (si_arg m1)))) in *.
  set (x2 := arr_of (fst (ensure_array_one (si_arg m2)))) in *.
  set (xa := arr_of (fst (ensure_array_one (si_arg a)))) in *.
  set (xf := arr_of (fst (ensure_array_one (si_arg f)))) in *.
  pose proof (check_rel (u_size ua) _ _ _ _ _ _ _ _ _ _ (opt_list_isv _ _ xb UB) (opt_list_isv _ _ x1 U1) (opt_list_isv _ _ x2 U2)
               (opt_list_isz _ _ xa UA) (opt_list_isv _ _ xf UF)) as R.
  destruct (check_arr_q _ _ _ _ _) as [q|e], (check_arr _ _ _ _ _) as [x|e']; cbn in R; try contradiction; [|cbn; congruence].
  destruct R as (B & A). cbn [rbind]. set (s := match xa with Some _ => u_size ua | None => AU end) in *.
  replace (match list_in u1 x1 with Some _ => match list_in u2 x2 with Some _ => true | None => false end | None => false end)
    with (match x1 with Some _ => match x2 with Some _ => true | None => false end | None => false end)
    by (destruct x1, x2; reflexivity).
  destruct (any_in ["f_orb"%string; "f_GW"%string] vars && _) eqn:EM; [reflexivity|].
  replace (map (fun _ : val => Fin 0) (snd q)) with (map (fun _ : num => Fin 0) (snd x)) by
    (clear -A; induction A; cbn; congruence).
  pose proof (timesteps_rel quad s (snd q) (snd x) (fst q) (fst x) (map (fun _ => Fin 0) (snd x)) te n ts ut us A B UT US) as R.
  destruct (create_timesteps_array_q _ _ _ _ _ _ _) as [tq|e], (create_timesteps_array _ _ _ _ _ _ _) as [tx|e'] eqn:ET; cbn in R;
    try contradiction; [|cbn; congruence].
  apply rows_weaken in R.
  cbn [rbind] in *.
  assert (RB : res_rel (Forall2 (Forall2 (fun v p => isv (dpow length_dim 4) v (Fin 4 * fst p * snd p))))
                 (bzip2 (fun b t => vmul (vmul (lit 4) b) t) (newaxis (fst q)) tq)
                 (bzip2 (fun b t => (b, t)) (newaxis (fst x)) tx)).
  { eapply rel_bzip2; [apply rel_newaxis; exact B|exact R|]. intros. cbn [fst snd]. now apply four_bt. }
  destruct (bzip2 _ _ tq) as [bq|e], (bzip2 _ _ tx) as [bx|e'] eqn:EB; cbn [res_rel] in RB; try contradiction; [|cbn; congruence].
  cbn [rbind] in *.
  assert (RA : res_rel (Forall2 (Forall2 (isz length_dim s)))
                 (bzip2M circ_a_elem_q (newaxis (snd q)) bq)
                 (bzip2 (fun a (p : num * num) => circ_a_elem a (fst p) (snd p)) (newaxis (snd x)) bx)).
  { unfold bzip2. eapply rel_bzip2M; [apply rel_newaxis; exact A|exact RB|]. intros v y w p I J.
    destruct (circ_a_isz _ _ _ _ _ I J) as (z & -> & Z). exact Z. }
  destruct (bzip2M circ_a_elem_q _ bq) as [aq|e], (bzip2 _ _ bx) as [ax|e'] eqn:EA; cbn [res_rel] in RA; try contradiction; [|cbn; congruence].
  cbn [rbind] in *.
  assert (CL : any_in ["f_orb"%string; "f_GW"%string] vars = true ->
               s = AU \/ Forall (Forall (fun x => x <> Fin (marker * s) /\ x <> Fin tiny)) ax).
  { intros WF. destruct M as [M|[M|[M|M]]]; [congruence| | |].
    - left. unfold s. apply AA in M. now rewrite M.
    - left. unfold s. rewrite M. now destruct xa.
    - destruct (Req_EM_T s AU) as [|NE]; [now left|right].
      assert (SU : s = u_size ua) by (unfold s in *; destruct xa; [reflexivity|contradiction]).
      specialize (M (shape single ax)). cbn [flat_map any_in existsb String.eqb andb orb rbind app pack Ascii.eqb Bool.eqb] in M.
      rewrite ET in M. cbn [rbind] in M. rewrite EB in M. cbn [rbind] in M. rewrite EA in M. cbn [rbind] in M.
      assert (EN : forall y, List.In y (concat ax) -> List.In y (entries (shape single ax))) by (destruct single; cbn; auto).
      apply Forall_forall. intros r Hr. apply Forall_forall. intros y Hy.
      assert (IN : List.In y (concat ax)) by (apply in_concat; eauto).
      destruct (M y eq_refl (EN y IN)) as (M1 & M2). rewrite SU. unfold marker, tiny. split; [|exact M2].
      intros E. apply M1. rewrite E. f_equal. unfold Rdiv. ring. }
  assert (RF : res_rel (Forall2 (Forall2 (isv frequency_dim)))
      (if any_in ["f_orb"%string; "f_GW"%string] vars
       then match list_in u1 x1 with Some y1 => match list_in u2 x2 with Some y2 => freq_rows_q y1 y2 aq | None => Err ValueError end | None => Err ValueError end
       else Ok [])
      (if any_in ["f_orb"%string; "f_GW"%string] vars
       then match x1 with Some y1 => match x2 with Some y2 => freq_rows y1 y2 ax | None => Err ValueError end | None => Err ValueError end
       else Ok [])).
  { destruct (any_in _ vars); [|constructor]. destruct x1 as [y1|]; cbn [list_in option_map]; [|reflexivity].
    destruct x2 as [y2|]; cbn [list_in option_map]; [|reflexivity].
    apply freq_rows_rel with s; [now apply list_isv|now apply list_isv|exact RA|now apply CL]. }
  match goal with |- rbind ?m _ = rmap _ (rbind ?m' _) => change (res_rel (Forall2 (Forall2 (isv frequency_dim))) m m') in RF; destruct m as [fq|e], m' as [fx|e'] end;
    cbn in RF; try contradiction; [|cbn; congruence].
  cbn [rbind].
  assert (RA' : Forall2 (Forall2 (isv length_dim)) aq ax) by (eapply forall2_imp; [|exact RA]; intros ? ?; apply all_isv).
  match goal with |- rbind (mapM ?gq vars) _ = rmap _ (pack (flat_map ?g vars)) =>
    destruct (collect_rel gq g var_unit vars) as (ps & E & C) end.
  { intros v. unfold var_unit. destruct (String.eqb v "timesteps").
    - rewrite (convert_rel time_dim year _ _ unit_year time_not_none R). cbn [rbind]. rewrite shape_dress. split; reflexivity.
    - destruct (String.eqb v "a").
      + rewrite (convert_rel length_dim au _ _ unit_au length_not_none RA'). cbn [rbind]. rewrite shape_dress. split; reflexivity.
      + destruct (String.eqb v "f_orb").
        * rewrite (convert_rel frequency_dim hertz _ _ unit_hertz frequency_not_none RF). cbn [rbind]. rewrite shape_dress. split; reflexivity.
        * destruct (String.eqb v "f_GW"); [|split; reflexivity].
          rewrite (convert_rel frequency_dim hertz _ _ unit_hertz frequency_not_none RF). cbn [rbind].
          replace (map (map (vmul (lit 2))) (map (map (in_unit hertz)) fx)) with (map (map (in_unit hertz)) (map (map (nmul (Fin 2))) fx)).
          -- rewrite shape_dress. split; reflexivity.
          -- rewrite !map_map. apply map_ext. intros r. rewrite !map_map. apply map_ext. intros y. symmetry. apply twice_hertz. }
  rewrite E. cbn [rbind]. rewrite C. apply pack_rel. apply flat_lengths. intros v. unfold var_unit.
  destruct (String.eqb v "timesteps"), (String.eqb v "a"), (String.eqb v "f_orb"), (String.eqb v "f_GW"); reflexivity.
Qed.

(** *** Keeping clear of the merger *)
Lemma limit_isv tm tb x y : isv time_dim tm x -> isv time_dim tb y ->
  exists l, vsub tm tb = Ok l /\ isv time_dim l (x - y).
Proof. intros I J. destruct (is_sub _ _ _ _ _ I J) as (l & E & K & _). exists l. split; assumption. Qed.
Lemma too_close_eq st tm tb row x y xs : isv time_dim tm x -> isv time_dim tb y -> Forall2 (isz time_dim st) row xs ->
  too_close_row_q tm tb row = Ok (too_close_row x y xs).
Proof.
  intros I J H. unfold too_close_row_q. destruct (limit_isv _ _ _ _ I J) as (l & -> & L). cbn [rbind].
  rewrite (mapM_to (fun t => vge t l) (fun t => nge t (x - y)%num) (isz time_dim st) row xs H).
  - cbn [rbind]. destruct H; reflexivity.
  - intros v z (Iv & _). eapply (compare_scale nge ge_scale); [exact Iv|exact L|auto with units].
Qed.
Lemma row_max_rel st row xs : Forall2 (isz time_dim st) row xs -> xs <> [] ->
  exists m, row_max_q row = Ok m /\ isz time_dim st m (row_max xs).
Proof.
  intros H N. destruct H as [|v x row xs I H]; [contradiction|]. cbn [row_max_q row_max]. clear N. revert v x I.
  induction H as [|w y row xs J H IH]; intros v x I; cbn [fold_left]; [exists v; split; [reflexivity|exact I]|].
  cbn [rbind]. destruct (max_q v w time_dim x y (proj1 I) (proj1 J) time_not_none) as (m & -> & M & S).
  apply IH. split; [exact M|]. rewrite S. apply I.
Qed.
Lemma minus_gyr : isv time_dim (Qy (Fin (-1)) gigayear) (Fin (- Gyr)).
Proof. split; [exact gigayear_pos|]. split; [reflexivity|]. unfold si. cbn. f_equal. unfold gigayear. cbn. ring. Qed.
Lemma clamp_row_rel st mask row xs : Forall2 (isz time_dim st) row xs -> length mask = length xs -> xs <> [] ->
  exists r, clamp_row_q mask row = Ok r /\ Forall2 (isz time_dim st) r (clamp_row mask xs).
Proof.
  intros H L N. unfold clamp_row_q, clamp_row.
  destruct (rel_map2M_total eq (isz time_dim st) (isz time_dim st)
             (fun (b : bool) t => if b then store t (Qy (Fin (-1)) gigayear) else Ok t)
             (fun (b : bool) t => if b then Fin (- Gyr)%R else t) mask mask row xs (eq_forall2 mask) H) as (mk & -> & M).
  { intros b b' v x <- I. destruct b; [|exists v; split; [reflexivity|exact I]].
    destruct (store_isv time_dim v _ _ x (proj1 I) minus_gyr time_not_none) as (w & E & Z). exists w. split; [exact E|].
    rewrite <- (proj2 I). exact Z. }
  cbn [rbind].
  assert (NM : map2 (fun (b : bool) t => if b then Fin (- Gyr)%R else t) mask xs <> []).
  { destruct xs; [contradiction|]. destruct mask; [discriminate|]. discriminate. }
  destruct (row_max_rel st _ _ M NM) as (pv & -> & P). cbn [rbind].
  apply (rel_map2M_total eq (isz time_dim st) (isz time_dim st)); [apply eq_forall2|exact M|].
  intros b b' v x <- I. destruct b; [|exists v; split; [reflexivity|exact I]].
  destruct (store_isv time_dim v _ _ x (proj1 I) (proj1 P) time_not_none) as (w & E & Z). exists w. split; [exact E|].
  rewrite <- (proj2 I). exact Z.
Qed.
Lemma too_close_length tm tb row : length (too_close_row tm tb row) = length row.
Proof. destruct row; [reflexivity|]. cbn. now rewrite map_length. Qed.

Lemma masks_fit (tm : list num) tb ts masks : bzip (fun row x => too_close_row x tb row) ts tm = Ok masks ->
  Forall2 (fun m (r : list num) => length m = length r) masks ts \/ length ts = 1%nat.
Proof.
  unfold bzip, bzipM. destruct (length ts =? length tm)%nat eqn:L.
  - apply Nat.eqb_eq in L. revert tm masks L. induction ts as [|r ts IH]; intros [|x tm] masks L; try discriminate.
    + intros E. injection E as <-. left. constructor.
    + cbn [map2M rbind]. destruct (map2M _ ts tm) as [l|] eqn:E; cbn; [|discriminate]. intros K. injection K as <-.
      assert (L' : length ts = length tm) by (cbn in L; lia).
      left. constructor; [apply too_close_length|]. clear IH.
      clear L. revert tm l L' E. clear. induction ts as [|r ts IH]; intros [|x tm] l L E; try discriminate.
      * injection E as <-. constructor.
      * cbn [map2M rbind] in E. destruct (map2M _ ts tm) as [k|] eqn:E'; cbn in E; [|discriminate]. injection E as <-.
        constructor; [apply too_close_length|]. apply (IH tm); [cbn in L; lia|exact E'].
  - destruct ts as [|r [|r' ts]]; [|right; reflexivity|].
    + destruct tm as [|x [|y tm]]; cbn in *; try discriminate. intros E. injection E as <-. left. constructor.
    + destruct tm as [|x [|y tm]]; try discriminate. intros E. left. revert masks E. generalize (r :: r' :: ts). clear.
      induction l as [|r l IH]; intros masks E; cbn in E; [injection E as <-; constructor|].
      destruct (mapM _ l) as [k|]; cbn in E; [|discriminate]. injection E as <-. constructor; [apply too_close_length|now apply IH].
Qed.
Lemma one_row_masks (tm : list num) tb (r : list num) masks : bzip (fun row x => too_close_row x tb row) [r] tm = Ok masks ->
  Forall (fun m => length m = length r) masks.
Proof.
  unfold bzip, bzipM. destruct tm as [|x [|y tm]]; cbn [length Nat.eqb].
  - cbn. intros E. injection E as <-. constructor.
  - cbn. intros E. injection E as <-. constructor; [apply too_close_length|constructor].
  - intros E. revert masks E. generalize (x :: y :: tm). clear. induction l as [|z l IH]; intros masks E; cbn in E; [injection E as <-; constructor|].
    destruct (mapM _ l) as [k|]; cbn in E; [|discriminate]. injection E as <-. constructor; [apply too_close_length|now apply IH].
Qed.
Lemma clamp_rows_rel st masks ts xs : Forall2 (Forall2 (isz time_dim st)) ts xs ->
  (forall m x, List.In (m, x) (combine masks xs) -> length m = length x /\ x <> []) ->
  exists r, map2M clamp_row_q masks ts = Ok r /\ Forall2 (Forall2 (isz time_dim st)) r (map2 clamp_row masks xs).
Proof.
  intros H. revert masks. induction H as [|row x ts xs R H IH]; intros masks C.
  - destruct masks; exists []; split; constructor.
  - destruct masks as [|m masks]; [exists []; split; constructor|]. cbn [map2M map2].
    destruct (C m x (or_introl eq_refl)) as (L & N).
    destruct (clamp_row_rel st m row x R L N) as (w & -> & W).
    destruct (IH masks) as (r & -> & RR); [intros; apply C; now right|]. cbn [rbind]. eexists. split; [reflexivity|].
    now constructor.
Qed.
Lemma clamp_rel st tm tb ts xm xb xs : Forall2 (isv time_dim) tm xm -> isv time_dim tb xb ->
  Forall2 (Forall2 (isz time_dim st)) ts xs ->
  res_rel (Forall2 (Forall2 (isz time_dim st))) (avoid_merger_clamp_q tm tb ts) (avoid_merger_clamp xm xb xs).
Proof.
  intros HM HB HT. unfold avoid_merger_clamp_q, avoid_merger_clamp.
  assert (R : res_rel (Forall2 eq) (bzipM (fun row tm => too_close_row_q tm tb row) ts tm) (bzip (fun row tm => too_close_row tm xb row) xs xm)).
  { unfold bzip. eapply rel_bzipM; [exact HT|exact HM|]. intros row x t y I J. rewrite (too_close_eq st _ _ _ _ _ _ J HB I). reflexivity. }
  destruct (bzipM _ ts tm) as [mq|e]; destruct (bzip _ xs xm) as [mx|e'] eqn:EX; cbn in R; try contradiction; [|cbn; congruence].
  assert (mq = mx) as -> by (clear -R; induction R; congruence). cbn [rbind].
  assert (EE : existsb (fun row : list val => match row with [] => true | _ => false end) ts =
               existsb (fun row : list num => match row with [] => true | _ => false end) xs).
  { clear -HT. induction HT as [|r x ts xs I HT IH]; [reflexivity|]. cbn. rewrite IH. destruct I; reflexivity. }
  rewrite EE. destruct (existsb _ xs) eqn:EM; [reflexivity|].
  destruct (existsb _ mx); [|exact HT]. replace (length ts) with (length xs) by (clear -HT; induction HT; cbn; congruence).
  destruct (length mx =? length xs)%nat; [|reflexivity].
  assert (C : forall m x, List.In (m, x) (combine mx xs) -> length m = length x /\ x <> []).
  { intros m x I. split.
    - destruct (masks_fit _ _ _ _ EX) as [F|O].
      + clear -I F. revert I. induction F; cbn; [intros []|]. intros [E|I]; [|auto]. now injection E as -> ->.
      + destruct xs as [|r [|? ?]]; try discriminate. pose proof (one_row_masks _ _ _ _ EX) as F.
        destruct mx as [|m' mx]; [destruct I|]. cbn in I. destruct I as [E|I]; [|destruct mx; destruct I]. injection E as -> ->.
        inversion F; subst; assumption.
    - apply in_combine_r in I. intros ->.
      assert (existsb (fun row : list num => match row with [] => true | _ => false end) xs = true)
        by (apply existsb_exists; exists []; split; [exact I|reflexivity]). congruence. }
  destruct (clamp_rows_rel st mx ts xs HT C) as (r & -> & RR). exact RR.
Qed.
