(** UnitsPsdWrong.v -- psd.py on quantities of the wrong dimension, and on numbers without unit. *)
From Coq Require Import String Reals ZArith List Bool Lra Lia.
From Verif Require Import Num NumFacts Np NpFacts Psd PsdSpec PsdFacts Units UnitsSpec UnitsFacts UnitsThms UnitsStrain
  UnitsEvol UnitsEvolSpec UnitsEvolFacts UnitsPsd UnitsPsdSpec UnitsPsdFacts.
Import ListNotations.
Open Scope list_scope.
Open Scope R_scope.
Open Scope res_scope.

(** *** Frequencies *)
Lemma in_hertz_plain x l : in_hertz (map Pl (x :: l)) = Err AttributeError.
Proof. reflexivity. Qed.
Lemma in_hertz_wrong x l u : u_dim u <> frequency_dim -> in_hertz (map (fun x => Qy x u) (x :: l)) = Err UnitError.
Proof. intros D. unfold in_hertz. cbn [map mapM]. unfold to_value. now rewrite (to_wrong (Qy x u) hertz) by (try reflexivity; exact D). Qed.

Lemma over_dimensionless d : ddiv frequency_dim d = dimensionless -> d = frequency_dim.
Proof.
  intros E. destruct d as [a b c e f g h i]. injection E. intros. unfold frequency_dim. f_equal; lra.
Qed.
Lemma knee_wrong L f : dim_of f <> frequency_dim -> tianqin_noise_q L f = Err UnitError.
Proof.
  intros D. unfold tianqin_noise_q. cbv zeta. unfold vadd at 1. rewrite sum_wrong; [reflexivity| | |].
  - intros E. apply D. apply over_dimensionless. symmetry. destruct f; exact E.
  - intros _. cbn. unfold Reqb. destruct (Req_EM_T 1 0); [lra|reflexivity].
  - destruct f; discriminate.
Qed.

Theorem frequency_wrong w x l u i p t L a c : In i ["LISA"; "TianQin"; "DECIGO"]%string ->
  (u_dim u <> frequency_dim -> power_spectral_density_q w (map (fun x => Qy x u) (x :: l)) i p t L a c = Err UnitError) /\
  power_spectral_density_q w (map Pl (x :: l)) i p t L a c = Err (if String.eqb i "TianQin" then UnitError else AttributeError).
Proof.
  intros I. destruct I as [<-|[<-|[<-|[]]]]; unfold power_spectral_density_q; cbn [String.eqb Ascii.eqb Bool.eqb].
  - unfold lisa_psd_q. split; [intros D; now rewrite in_hertz_wrong|now rewrite in_hertz_plain].
  - unfold tianqin_psd_q. cbn [map mapM]. split; [intros D; now rewrite knee_wrong by exact D|]. rewrite knee_wrong; [reflexivity|].
    intros E. apply frequency_not_none. now symmetry.
  - unfold decigo_psd_q. split; [intros D; now rewrite in_hertz_wrong|now rewrite in_hertz_plain].
Qed.

(** *** Arm lengths *)
Lemma sum_error op a b e : vsum op a b = Err e -> e = UnitError.
Proof.
  destruct a, b; cbn [vsum]; [discriminate| | |]; repeat (destruct (dim_eqb _ _) || destruct (arbitrary_unit _)); congruence.
Qed.
Lemma dim_f_star L : dim_of (f_star_q L) = ddiv (mkDim 1 0 (-1) 0 0 0 0 0) (dim_of L).
Proof. unfold dim_of, f_star_q. destruct L; cbn; dim_eq. Qed.
Lemma f_star_wrong L : dim_of L <> length_dim -> to_value (f_star_q L) hertz = Err UnitError.
Proof.
  intros D. unfold to_value. rewrite to_wrong; [reflexivity|destruct L; reflexivity|].
  rewrite dim_f_star. intros E. apply D. destruct (dim_of L) as [a b c e f g h i]. injection E. intros. unfold length_dim. f_equal; lra.
Qed.
Theorem arm_wrong w fq f x y p t L a c : all_is frequency_dim (x :: fq) (y :: f) -> dim_of L <> length_dim ->
  power_spectral_density_q w (x :: fq) "LISA" p t (Given L) a c = Err UnitError /\
  power_spectral_density_q w (x :: fq) "TianQin" p t (Given L) a c = Err UnitError.
Proof.
  intros F D. unfold power_spectral_density_q. cbn [String.eqb Ascii.eqb Bool.eqb resolve]. split.
  - unfold lisa_psd_q. rewrite (in_hertz_si _ _ F). cbn [rbind]. now rewrite f_star_wrong.
  - inversion F as [|? ? ? ? X F' E1 E2]; subst. unfold tianqin_psd_q. cbn [mapM].
    replace (tianqin_noise_q L x) with (Err UnitError : res val); [reflexivity|]. symmetry. unfold tianqin_noise_q. cbv zeta.
    assert (K : is_ dimensionless (Fin 1e-4 / y)%num (vdiv (Qy (Fin 1e-4) hertz) x)).
    { apply (is_dim (ddiv frequency_dim frequency_dim)); [dim_eq|]. apply is_div; [|exact X].
      split; [unfold proper; cbn; lra|]. split; [reflexivity|]. unfold si. cbn [mag unit_of hertz u_size]. apply scale_one. }
    destruct (is_add (lit 1) _ _ _ _ (is_lit 1) K) as (knee & EK & IK & _). fold vadd in EK. rewrite EK. cbn [rbind].
    match goal with |- rbind ?m _ = _ => destruct m as [noise|e] eqn:EN end.
    + cbn [rbind]. unfold vadd. rewrite sum_wrong; [reflexivity| | |].
      * intros E. apply D. clear - E X. destruct X as (_ & DX & _). unfold dim_of in *. destruct L as [l|l u], x as [x|x v];
          cbn in E, DX |- *; try discriminate; unfold one_ in *; cbn in *; subst.
        -- injection DX. intros. lra.
        -- rewrite DX in E. cbn in E. injection E. intros. exfalso. lra.
        -- injection DX. intros. lra.
        -- rewrite DX in E. destruct (u_dim u). cbn in E. injection E. intros. unfold length_dim. f_equal; lra.
      * intros _. cbn. unfold Reqb. destruct (Req_EM_T 1 0); [lra|reflexivity].
      * pose proof (not_plain _ _ _ frequency_not_none X) as Q. destruct x; [discriminate|]. destruct L; discriminate.
    + cbn [rbind]. f_equal. exact (sum_error _ _ _ _ EN).
Qed.

(** *** Mission lengths *)
Lemma nearest_wrong v l ls : dim_of v <> time_dim -> (is_quantity v = false -> arbitrary_unit (mag v) = false) ->
  nearest_length_q v (l :: ls) = Err UnitError.
Proof.
  intros D A. unfold nearest_length_q. cbn [mapM]. unfold vsub. rewrite sum_wrong; [reflexivity|exact D|exact A|discriminate].
Qed.
Theorem mission_wrong fq f v : all_is frequency_dim fq f -> wrong time_dim v ->
  get_confusion_noise_q fq (Some "robson19"%string) (Given v) = Err UnitError /\
  get_confusion_noise_q fq (Some "huang20"%string) (Given v) = Err UnitError /\
  get_confusion_noise_q fq (Some "thiele21"%string) (Given v) = Err ValueError /\
  get_confusion_noise_q fq (Some "karnesis21"%string) (Given v) = Err (if is_quantity v then UnitError else AttributeError).
Proof.
  intros F (_ & D & A). unfold get_confusion_noise_q. cbn [String.eqb Ascii.eqb Bool.eqb resolve].
  split; [|split; [|split]].
  - unfold get_confusion_noise_robson19_q. rewrite (in_hertz_si _ _ F). cbn [rbind]. now rewrite nearest_wrong.
  - unfold get_confusion_noise_huang20_q. now rewrite nearest_wrong.
  - now rewrite four_years_wrong.
  - unfold get_confusion_noise_karnesis21_q. rewrite (in_hertz_si _ _ F). cbn [rbind]. unfold to_value.
    destruct v as [x|x u]; [reflexivity|]. rewrite to_wrong; [reflexivity|reflexivity|exact D].
Qed.
(** Without confusion noise the mission length is never looked at. *)
Lemma mission_ignored w fq p v v' L a : 
  power_spectral_density_q w fq "LISA" p (Given v) L a CNoneQ = power_spectral_density_q w fq "LISA" p (Given v') L a CNoneQ /\
  power_spectral_density_q w fq "TianQin" p (Given v) L a CNoneQ = power_spectral_density_q w fq "TianQin" p (Given v') L a CNoneQ /\
  power_spectral_density_q w fq "DECIGO" p (Given v) L a CNoneQ = power_spectral_density_q w fq "DECIGO" p (Given v') L a CNoneQ.
Proof. split; [|split]; reflexivity. Qed.

(** *** Custom confusion noise *)
Definition millihertz : unit_ := mkUnit (1/1000) frequency_dim.
Definition per_millihertz : unit_ := upowi millihertz (-1).
Definition noise_in (u : unit_) (x : num) : conf_q := CFunQ (fun _ _ => Ok [in_unit u x]).

Lemma unit_per_millihertz : unit_for time_dim per_millihertz /\ u_size per_millihertz = 1000.
Proof.
  assert (S : u_size per_millihertz = 1000) by (unfold per_millihertz, millihertz, upowi, powerRZ; cbn [u_size]; change (Pos.to_nat 1) with 1%nat; rewrite pow_1; lra).
  split; [|exact S]. split; [rewrite S; lra|]. unfold per_millihertz, millihertz, upowi. cbn [u_dim]. dim_eq.
Qed.
(** One frequency, in the band: the unit of the custom noise is dropped. *)
Lemma lisa_custom w t f : 1e-7 <= f <= 2 ->
  exists base, 0 < base /\ forall u x,
  power_spectral_density_q w [Qy (Fin f) hertz] "LISA" None (Given t) Auto true (noise_in u (Fin x))
  = Ok [Qy (Fin base + Fin x / Fin (u_size u))%num per_hertz].
Proof.
  intros B. destruct (robson_response_fin 2.5e9 f ltac:(lra)) as (ER & RP). destruct (lisa_noise_fin 2.5e9 _ f ltac:(lra) RP ltac:(lra)) as (EL & LP).
  exists (lisa_curve 2.5e9 (robson_response 2.5e9 f) f). split; [exact LP|]. intros u x.
  unfold power_spectral_density_q. cbn [String.eqb Ascii.eqb Bool.eqb resolve]. unfold lisa_psd_q.
  assert (F : all_is frequency_dim [Qy (Fin f) hertz] [Fin f]).
  { constructor; [|constructor]. rewrite <- in_hz. apply isv_in. split; [exact hertz_pos|reflexivity]. }
  rewrite (in_hertz_si _ _ F). cbn [rbind map].
  assert (IB : in_band (Fin 1e-7) (Fin 2) (Fin f) = true) by (apply in_band_fin; exact B). unfold band. rewrite IB.
  assert (LL : isv length_dim lisa_L_q (Fin 2.5e9)).
  { split; [unfold proper; cbn; lra|]. split; [reflexivity|]. unfold si, lisa_L_q. cbn [mag unit_of meter u_size]. apply scale_one. }
  rewrite (to_value_si frequency_dim hertz _ _ ltac:(split; [exact hertz_pos|reflexivity]) eq_refl frequency_not_none (f_star_is _ _ LL)). cbn [rbind].
  rewrite fstar_fin by lra. unfold approximate_response_function. cbn [map].
  replace (resolve_conf_q "karnesis21" (noise_in u (Fin x))) with (noise_in u (Fin x)) by reflexivity.
  unfold confusion_bare, noise_in. cbn [rbind mapM value in_unit].
  rewrite (to_value_si length_dim meter _ _ ltac:(split; [cbn; lra|reflexivity]) eq_refl length_not_none LL). cbn [rbind].
  rewrite ER. unfold bzip, bzipM. cbn [length Nat.eqb map2M rbind]. rewrite EL, IB. reflexivity.
Qed.
Lemma decigo_custom w t f : 1e-3 <= f <= 1e2 ->
  exists base, 0 < base /\ forall u x,
  power_spectral_density_q w [Qy (Fin f) hertz] "DECIGO" None (Given t) Auto true (noise_in u (Fin x))
  = Ok [Qy (Fin base + Fin x / Fin (u_size u))%num per_hertz].
Proof.
  intros B. destruct (decigo_noise_fin f ltac:(lra)) as (EL & LP). exists (decigo_curve f). split; [exact LP|]. intros u x.
  unfold power_spectral_density_q. cbn [String.eqb Ascii.eqb Bool.eqb resolve]. unfold decigo_psd_q.
  assert (UH : unit_for frequency_dim hertz) by (split; [exact hertz_pos|reflexivity]).
  assert (H : forall x, isv frequency_dim (Qy x hertz) x) by (intros y; rewrite <- in_hz; now apply isv_in).
  assert (F : all_is frequency_dim [Qy (Fin f) hertz] [Fin f]) by (constructor; [apply H|constructor]).
  rewrite (in_hertz_si _ _ F). cbn [rbind map]. unfold decigo_f_low_q, decigo_f_high_q.
  rewrite (to_value_si frequency_dim hertz _ _ UH eq_refl frequency_not_none (H _)). cbn [rbind].
  rewrite (to_value_si frequency_dim hertz _ _ UH eq_refl frequency_not_none (H _)). cbn [rbind map].
  assert (IB : in_band (Fin 1e-3) (Fin 1e2) (Fin f) = true) by (apply in_band_fin; exact B). unfold band. rewrite IB.
  unfold confusion_bare, noise_in, resolve_conf_q. cbn [rbind mapM value in_unit map].
  unfold bzip, bzipM. cbn [length Nat.eqb map2M rbind]. rewrite EL, IB. reflexivity.
Qed.
(** The same noise, 1/Hz, written in 1/Hz and in 1/mHz. *)
Theorem custom_noise_unit w t i : i = "LISA"%string \/ i = "DECIGO"%string ->
  exists base, 0 < base /\
  power_spectral_density_q w [Qy (Fin (1/100)) hertz] i None (Given t) Auto true (noise_in per_hertz (Fin 1))
    = Ok [Qy (Fin (base + 1)) per_hertz] /\
  power_spectral_density_q w [Qy (Fin (1/100)) hertz] i None (Given t) Auto true (noise_in per_millihertz (Fin 1))
    = Ok [Qy (Fin (base + 1/1000)) per_hertz].
Proof.
  assert (S1 : (Fin 1 / Fin (u_size per_hertz))%num = Fin 1).
  { rewrite per_hertz_one. rewrite ndiv_fin by lra. f_equal. lra. }
  assert (S2 : (Fin 1 / Fin (u_size per_millihertz))%num = Fin (1/1000)).
  { rewrite (proj2 unit_per_millihertz). rewrite ndiv_fin by lra. reflexivity. }
  intros [->| ->].
  - destruct (lisa_custom w t (1/100) ltac:(lra)) as (b & P & E). exists b. split; [exact P|]. split; rewrite E, ?S1, ?S2; reflexivity.
  - destruct (decigo_custom w t (1/100) ltac:(lra)) as (b & P & E). exists b. split; [exact P|]. split; rewrite E, ?S1, ?S2; reflexivity.
Qed.
(** A custom noise without unit has no [.value]. *)
Theorem custom_noise_plain w fq f t g i : i = "LISA"%string \/ i = "DECIGO"%string -> all_is frequency_dim fq f ->
  (forall fs, exists x l, g (BareQ fs) t = Ok (Pl x :: l)) ->
  power_spectral_density_q w fq i None (Given t) Auto true (CFunQ g) = Err AttributeError.
Proof.
  assert (UH : unit_for frequency_dim hertz) by (split; [exact hertz_pos|reflexivity]).
  assert (C : forall g fs, (forall fs, exists x l, g (BareQ fs) t = Ok (Pl x :: l)) -> confusion_bare fs t (CFunQ g) = Err AttributeError).
  { intros g0 fs P. unfold confusion_bare. destruct (P fs) as (x & l & ->). reflexivity. }
  intros [->| ->] F P; unfold power_spectral_density_q; cbn [String.eqb Ascii.eqb Bool.eqb resolve resolve_conf_q].
  - unfold lisa_psd_q. rewrite (in_hertz_si _ _ F). cbn [rbind].
    assert (LL : isv length_dim lisa_L_q (Fin 2.5e9)).
    { split; [unfold proper; cbn; lra|]. split; [reflexivity|]. unfold si, lisa_L_q. cbn [mag unit_of meter u_size]. apply scale_one. }
    rewrite (to_value_si frequency_dim hertz _ _ UH eq_refl frequency_not_none (f_star_is _ _ LL)). cbn [rbind].
    now rewrite (C g _ P).
  - unfold decigo_psd_q. assert (H : forall x, isv frequency_dim (Qy x hertz) x) by (intros y; rewrite <- in_hz; now apply isv_in).
    rewrite (in_hertz_si _ _ F). cbn [rbind]. unfold decigo_f_low_q, decigo_f_high_q.
    rewrite (to_value_si frequency_dim hertz _ _ UH eq_refl frequency_not_none (H _)). cbn [rbind].
    rewrite (to_value_si frequency_dim hertz _ _ UH eq_refl frequency_not_none (H _)). cbn [rbind].
    now rewrite (C g _ P).
Qed.
