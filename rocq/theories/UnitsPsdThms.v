(** UnitsPsdThms.v -- the statements of C95 from UnitsPsdFacts and UnitsPsdWrong. *)
From Coq Require Import String Reals ZArith List Bool Lra Lia.
From Verif Require Import Num NumFacts Np NpFacts Psd PsdSpec PsdFacts Units UnitsSpec UnitsFacts UnitsThms UnitsStrain
  UnitsEvol UnitsEvolSpec UnitsEvolFacts UnitsPsd UnitsPsdSpec UnitsPsdFacts UnitsPsdWrong.
Import ListNotations.
Open Scope list_scope.
Open Scope R_scope.
Open Scope res_scope.

Lemma auto_in_is d u x : unit_for d u -> auto_is d (auto_in u x) x.
Proof. intros U. destruct x as [|x]; [exact Logic.I|]. exact (isv_in d u x U). Qed.
Theorem psd_in_units w f instrument p p' t L a c c' uf ut uL :
  unit_for frequency_dim uf -> unit_for time_dim ut -> unit_for length_dim uL -> same_noise c c' -> instrument <> "custom"%string ->
  power_spectral_density_q w (map (in_unit uf) f) instrument p (auto_in ut t) (auto_in uL L) a c =
  rmap (map (in_unit per_hertz)) (power_spectral_density w f instrument p' t L a c').
Proof. intros UF UT UL C N. apply psd_si; auto using list_is, auto_in_is. Qed.
Theorem confusion_in_units f m t uf ut : unit_for frequency_dim uf -> unit_for time_dim ut ->
  get_confusion_noise_q (map (in_unit uf) f) m (auto_in ut t) = rmap (map (in_unit per_hertz)) (get_confusion_noise f m t).
Proof. intros UF UT. apply confusion_noise_si; auto using list_is, auto_in_is. Qed.
Theorem arm_in_units w f x p t L a c uf : unit_for frequency_dim uf -> dim_of L <> length_dim ->
  power_spectral_density_q w (map (in_unit uf) (x :: f)) "LISA" p t (Given L) a c = Err UnitError /\
  power_spectral_density_q w (map (in_unit uf) (x :: f)) "TianQin" p t (Given L) a c = Err UnitError.
Proof. intros U D. apply (arm_wrong w _ f _ x); [exact (list_is _ _ (x :: f) U)|exact D]. Qed.
Theorem mission_in_units f v uf : unit_for frequency_dim uf -> wrong time_dim v ->
  get_confusion_noise_q (map (in_unit uf) f) (Some "robson19"%string) (Given v) = Err UnitError /\
  get_confusion_noise_q (map (in_unit uf) f) (Some "huang20"%string) (Given v) = Err UnitError /\
  get_confusion_noise_q (map (in_unit uf) f) (Some "thiele21"%string) (Given v) = Err ValueError /\
  get_confusion_noise_q (map (in_unit uf) f) (Some "karnesis21"%string) (Given v) = Err (if is_quantity v then UnitError else AttributeError).
Proof. intros U W. apply (mission_wrong _ f); [now apply list_is|exact W]. Qed.

Theorem custom_noise_misread w t i : i = "LISA"%string \/ i = "DECIGO"%string ->
  same (in_unit per_hertz (Fin 1)) (in_unit per_millihertz (Fin 1)) /\
  exists base, 0 < base /\
  power_spectral_density_q w [Qy (Fin (1/100)) hertz] i None (Given t) Auto true (CFunQ (fun _ _ => Ok [in_unit per_hertz (Fin 1)]))
    = Ok [Qy (Fin (base + 1)) per_hertz] /\
  power_spectral_density_q w [Qy (Fin (1/100)) hertz] i None (Given t) Auto true (CFunQ (fun _ _ => Ok [in_unit per_millihertz (Fin 1)]))
    = Ok [Qy (Fin (base + 1/1000)) per_hertz].
Proof.
  intros I. split; [|exact (custom_noise_unit w t i I)].
  destruct (isv_in time_dim per_hertz (Fin 1) unit_per_hertz) as (P & D & S).
  destruct (isv_in time_dim per_millihertz (Fin 1) (proj1 unit_per_millihertz)) as (P' & D' & S').
  split; [exact P|]. split; [exact P'|]. split; [reflexivity|]. split; congruence.
Qed.
Theorem custom_noise_kept w f t u x : unit_for time_dim u ->
  power_spectral_density_q w [in_unit hertz f] "TianQin" None (Given t) Auto true (CFunQ (fun _ _ => Ok [in_unit u x]))
  = Ok [in_unit per_hertz (tianqin_noise tianqin_L f + x)%num].
Proof.
  intros U. unfold power_spectral_density_q. cbn [String.eqb Ascii.eqb Bool.eqb resolve resolve_conf_q]. unfold tianqin_psd_q, confusion_with_unit.
  assert (UH : unit_for frequency_dim hertz) by (split; [exact hertz_pos|reflexivity]).
  destruct (tianqin_noise_si _ _ _ _ tianqin_L_is (isv_in _ _ f UH)) as (v & E & V). cbn [mapM]. rewrite E. cbn [rbind].
  unfold bzipM. cbn [length Nat.eqb map2M]. unfold vadd. destruct (is_add _ _ _ _ _ V (isv_in _ _ x U)) as (s & ES & IS & _). rewrite ES. unfold in_place. cbn [rbind mapM length Nat.eqb].
  now rewrite (to_in time_dim per_hertz _ _ unit_per_hertz time_not_none IS).
Qed.

Definition month : unit_ := mkUnit (yr / 12) time_dim.
Lemma psd_units_example :
  unit_for frequency_dim millihertz /\ unit_for time_dim month /\ unit_for length_dim kilometer /\
  same_noise (CNameQ "auto") (CName "auto") /\ same_noise (CFunQ (fun _ _ => Ok [Qy (Fin 1) per_hertz])) (CFun (fun _ _ => Ok [Fin 1])) /\
  (forall w, exists r, 0 < r /\ power_spectral_density w [Fin (1/100)] "LISA" None Auto Auto true (CName "auto") = Ok [Fin r]) /\
  wrong time_dim (Pl (Fin 4)) /\ wrong time_dim (Qy (Fin 4) kilometer) /\ dim_of (Pl (Fin 4)) <> length_dim.
Proof.
  pose proof yr_pos as Y. assert (IP : in_unit per_hertz (Fin 1) = Qy (Fin 1) per_hertz).
  { unfold in_unit. rewrite per_hertz_one, ndiv_fin by lra. do 2 f_equal. lra. }
  split; [split; [cbn; lra|reflexivity]|]. split; [split; [cbn; lra|reflexivity]|]. split; [split; [cbn; lra|reflexivity]|].
  split; [reflexivity|]. split.
  { cbn. split; intros; [now rewrite IP|]. constructor; [|constructor]. rewrite <- IP. apply isv_in, unit_per_hertz. }
  split.
  { intros w. destruct (lisa_map w (CName "karnesis21") (4 * yr) 2.5e9 true) as (p & E & _ & B); [unfold builtin; auto 10|lra|lra|now left|].
    destruct (B (1/100) ltac:(lra)) as (v & r & _ & V & R & RP & EP). exists (lisa_curve 2.5e9 r (1/100) + v). split.
    - pose proof (proj2 (lisa_noise_fin 2.5e9 r (1/100) ltac:(lra) RP ltac:(lra))). lra.
    - change (power_spectral_density w [Fin (1 / 100)] "LISA" None Auto Auto true (CName "auto"))
        with (lisa_psd w [Fin (1/100)] (Fin (4 * yr)) (Fin 2.5e9) true (CName "karnesis21")). rewrite E. cbn [map]. now rewrite EP. }
  split; [|split].
  - split; [unfold proper; cbn; lra|]. split; [intros E; apply time_not_none; now symmetry|]. intros _. cbn. unfold Reqb. destruct (Req_EM_T 4 0); [lra|reflexivity].
  - split; [unfold proper; cbn; lra|]. split; [|discriminate]. unfold dim_of. cbn. intros E. injection E. intros. lra.
  - unfold dim_of. cbn. intros E. injection E. intros. lra.
Qed.
Theorem custom_noise_bare w uf f t x l i : i = "LISA"%string \/ i = "DECIGO"%string -> unit_for frequency_dim uf ->
  power_spectral_density_q w (map (in_unit uf) f) i None (Given t) Auto true (CFunQ (fun _ _ => Ok (Pl x :: l))) = Err AttributeError.
Proof.
  intros I U. eapply custom_noise_plain; [exact I|apply (list_isv frequency_dim uf f U)|]. intros fs. now exists x, l.
Qed.
