(** WorldSteps.v -- every event keeps the arrays of different collections apart as far as the code writes into them (C58, C81, C92). *)
From Coq Require Import String Reals ZArith List Bool Arith Lia.
From Verif Require Import Num NumFacts Np NpFacts Utils Strain Psd Snr Interp Evol Harmonics ScParams Source Index SourceSpec SourceFacts InitSpec InitFacts History World WorldSpec WorldFacts WorldThms WorldSim.
Import ListNotations.
Open Scope nat_scope.
Open Scope world_scope.
Open Scope m_scope.
Open Scope list_scope.

(** ** Placing the arrays of a new object *)
Definition grown (w w' : world) : Prop := (exists t, w_heap w' = w_heap w ++ t) /\ w_objs w' = w_objs w /\ w_params w' = w_params w.
Lemma grown_refl w : grown w w.
Proof. split; [exists []; now rewrite app_nil_r|auto]. Qed.
Lemma grown_trans w w1 w2 : grown w w1 -> grown w1 w2 -> grown w w2.
Proof. intros ([t T] & O & P) ([t' T'] & O' & P'). split; [exists (t ++ t'); now rewrite T', T, app_assoc|]. split; congruence. Qed.
Lemma grown_nth w w' a : grown w w' -> a < length (w_heap w) -> nth_error (w_heap w') a = nth_error (w_heap w) a.
Proof. intros ([t ->] & _) L. now apply nth_before. Qed.
Lemma grown_len w w' : grown w w' -> length (w_heap w) <= length (w_heap w').
Proof. intros ([t ->] & _). rewrite app_length. lia. Qed.
(** [rd] reads one cell. *)
Definition fits {L} (rd : option arr -> L) (w : world) (a : option addr) (l : L) : Prop := forall b, a = Some b -> b < length (w_heap w) /\ rd (nth_error (w_heap w) b) = l.
Definition placed {L} (rd : option arr -> L) (w w0 w1 : world) (a : option addr) (b : addr) (l : L) : Prop :=
  grown w w1 /\ grown w0 w1 /\ b < length (w_heap w1) /\ (a = Some b /\ b < length (w_heap w) \/ length (w_heap w0) <= b) /\ rd (nth_error (w_heap w1) b) = l.
Lemma place_spec {L} (rd : option arr -> L) (w w0 : world) a v l : grown w w0 -> rd (Some v) = l -> fits rd w a l -> exists w1 b, place a v w0 = (w1, Ok b) /\ placed rd w w0 w1 a b l.
Proof.
  intros G Hv F. unfold place. destruct a as [a|].
  - destruct (F a eq_refl) as [La Ra]. exists w0, a. split; [reflexivity|]. pose proof (grown_len _ _ G). split; [exact G|]. split; [apply grown_refl|]. split; [lia|]. split; [auto|]. now rewrite (grown_nth _ _ _ G La).
  - eexists _, _. split; [reflexivity|]. assert (G1 : grown w0 (mkWorld (w_heap w0 ++ [v]) (w_objs w0) (w_params w0))) by (split; [exists [v]; reflexivity|auto]).
    split; [exact (grown_trans _ _ _ G G1)|]. split; [exact G1|]. cbn [w_heap]. rewrite app_length. cbn. split; [lia|]. split; [right; lia|]. now rewrite nth_last.
Qed.
Definition placed_opt {L} (rd : option arr -> L) (w w0 w1 : world) (a : option addr) (r : option addr) (l : option L) : Prop :=
  grown w w1 /\ grown w0 w1 /\ (forall b, r = Some b -> b < length (w_heap w1) /\ (a = Some b /\ b < length (w_heap w) \/ length (w_heap w0) <= b)) /\
  option_map (fun b => rd (nth_error (w_heap w1) b)) r = l.
Lemma place_opt_spec {L} (rd : option arr -> L) (mk : L -> arr) (w w0 : world) a l : grown w w0 -> (forall l, rd (Some (mk l)) = l) ->
  (forall l', l = Some l' -> fits rd w a l') -> exists w1 r, place_opt a (option_map mk l) w0 = (w1, Ok r) /\ placed_opt rd w w0 w1 a r l.
Proof.
  intros G Hv F. unfold place_opt. destruct l as [l|]; cbn [option_map].
  - destruct (place_spec rd w w0 a (mk l) l G (Hv l) (F l eq_refl)) as (w1 & b & E & G1 & G2 & L1 & L2 & R). unfold wbind. rewrite E. eexists _, _. split; [reflexivity|].
    split; [exact G1|]. split; [exact G2|]. split; [|cbn; now rewrite R]. intros b' Eb. injection Eb as <-. auto.
  - exists w0, None. split; [reflexivity|]. split; [exact G|]. split; [apply grown_refl|]. split; [discriminate|reflexivity].
Qed.
Definition rd_num (v : option arr) : list num := match v with Some (ANum l) => l | Some (AInt l) => map nZ l | _ => [] end.
Definition rd_int (v : option arr) : list Z := match v with Some (AInt l) => l | _ => [] end.
Definition rd_bool (v : option arr) : list bool := match v with Some (ABool l) => l | _ => [] end.
Definition rd_sky (v : option arr) : list (num * num) := match v with Some (ASky l) => l | _ => [] end.
Lemma placed_later {L} (rd : option arr -> L) w w0 w1 w2 a b l : placed rd w w0 w1 a b l -> grown w1 w2 -> rd (nth_error (w_heap w2) b) = l.
Proof. intros (_ & _ & L1 & _ & R) G. now rewrite (grown_nth _ _ _ G L1). Qed.
Lemma placed_opt_later {L} (rd : option arr -> L) w w0 w1 w2 a r l : placed_opt rd w w0 w1 a r l -> grown w1 w2 -> option_map (fun b => rd (nth_error (w_heap w2) b)) r = l.
Proof. intros (_ & _ & L1 & R) G. rewrite <- R. apply omap_ext. intros b Eb. destruct (L1 b Eb) as [L2 _]. now rewrite (grown_nth _ _ _ G L2). Qed.

Definition given (h : shared) (a : addr) : Prop :=
  h_m_1 h = Some a \/ h_m_2 h = Some a \/ h_dist h = Some a \/ h_f_orb h = Some a \/ h_ecc h = Some a \/ h_weights h = Some a \/ h_inclination h = Some a \/ h_polarisation h = Some a.
Record shared_ok (w : world) (h : shared) (s : src) : Prop := {
  sh_1 : fits rd_num w (h_m_1 h) (s_m_1 s); sh_2 : fits rd_num w (h_m_2 h) (s_m_2 s); sh_3 : fits rd_num w (h_dist h) (s_dist s);
  sh_4 : fits rd_num w (h_f_orb h) (s_f_orb s); sh_5 : fits rd_num w (h_ecc h) (s_ecc s);
  sh_6 : forall l, s_weights s = Some l -> fits rd_num w (h_weights h) l;
  sh_7 : forall l, s_inclination s = Some l -> fits rd_num w (h_inclination h) l;
  sh_8 : forall l, s_polarisation s = Some l -> fits rd_num w (h_polarisation h) l }.
Record newstep (h : shared) (s : src) (w w' : world) (o : obj) : Prop := {
  ns_heap : exists t, w_heap w' = w_heap w ++ t;
  ns_objs : w_objs w' = w_objs w ++ [o];
  ns_params : w_params w' = w_params w ++ [mkHandle (s_params s) (Some (length (w_objs w)))];
  ns_own : o_params o = length (w_params w);
  ns_view : view w' o = s;
  ns_wf : wfo (length (w_heap w')) o;
  ns_muts : forall a, In a (muts o) -> length (w_heap w) <= a;
  ns_others : forall a, In a (others o) -> given h a /\ a < length (w_heap w) \/ length (w_heap w) <= a }.
Lemma grown_by w w' : grown w w' -> exists t, w_heap w' = w_heap w ++ t.
Proof. now intros [H _]. Qed.
Lemma mkSrc_eta s : s = mkSrc (s_class s) (s_m_1 s) (s_m_2 s) (s_dist s) (s_f_orb s) (s_ecc s) (s_weights s) (s_position s) (s_inclination s) (s_polarisation s) (s_t_merge s) (s_snr s)
  (s_max_snr_harmonic s) (s_merged s) (s_stat_tol s) (s_n_proc s) (s_harm s) (s_g s) (s_interpolate_sc s) (s_sc s) (s_params s).
Proof. destruct s. reflexivity. Qed.
Lemma build_spec h s w : shared_ok w h s -> exists w' o, build h s w = (w', Ok (length (w_objs w))) /\ newstep h s w w' o.
Proof.
  intros [F1 F2 F3 F4 F5 F6 F7 F8]. unfold build.
  assert (Fn : forall (L : Type) (rd : option arr -> L) l, fits rd w None l) by (intros L rd l b Hb; discriminate Hb).
  destruct (place_spec rd_num w w (h_m_1 h) (ANum (s_m_1 s)) (s_m_1 s) (grown_refl w) eq_refl F1) as (w1 & m1 & E & P1). unfold wbind at 1; rewrite E; clear E.
  destruct (place_spec rd_num w w1 (h_m_2 h) (ANum (s_m_2 s)) (s_m_2 s) (proj1 P1) eq_refl F2) as (w2 & m2 & E & P2). unfold wbind at 1; rewrite E; clear E.
  destruct (place_spec rd_num w w2 (h_dist h) (ANum (s_dist s)) (s_dist s) (proj1 P2) eq_refl F3) as (w3 & d & E & P3). unfold wbind at 1; rewrite E; clear E.
  destruct (place_spec rd_num w w3 (h_f_orb h) (ANum (s_f_orb s)) (s_f_orb s) (proj1 P3) eq_refl F4) as (w4 & f & E & P4). unfold wbind at 1; rewrite E; clear E.
  destruct (place_spec rd_num w w4 (h_ecc h) (ANum (s_ecc s)) (s_ecc s) (proj1 P4) eq_refl F5) as (w5 & e & E & P5). unfold wbind at 1; rewrite E; clear E.
  destruct (place_opt_spec rd_num ANum w w5 (h_weights h) (s_weights s) (proj1 P5) (fun _ => eq_refl) F6) as (w6 & wt & E & P6). unfold wbind at 1; rewrite E; clear E.
  destruct (place_opt_spec rd_sky ASky w w6 None (s_position s) (proj1 P6) (fun _ => eq_refl) (fun l _ => Fn _ rd_sky l)) as (w7 & pos & E & P7). unfold wbind at 1; rewrite E; clear E.
  destruct (place_opt_spec rd_num ANum w w7 (h_inclination h) (s_inclination s) (proj1 P7) (fun _ => eq_refl) F7) as (w8 & inc & E & P8). unfold wbind at 1; rewrite E; clear E.
  destruct (place_opt_spec rd_num ANum w w8 (h_polarisation h) (s_polarisation s) (proj1 P8) (fun _ => eq_refl) F8) as (w9 & pol & E & P9). unfold wbind at 1; rewrite E; clear E.
  destruct (place_opt_spec rd_num ANum w w9 None (s_t_merge s) (proj1 P9) (fun _ => eq_refl) (fun l _ => Fn _ rd_num l)) as (w10 & t & E & P10). unfold wbind at 1; rewrite E; clear E.
  destruct (place_opt_spec rd_num ANum w w10 None (s_snr s) (proj1 P10) (fun _ => eq_refl) (fun l _ => Fn _ rd_num l)) as (w11 & snr & E & P11). unfold wbind at 1; rewrite E; clear E.
  destruct (place_opt_spec rd_int AInt w w11 None (s_max_snr_harmonic s) (proj1 P11) (fun _ => eq_refl) (fun l _ => Fn _ rd_int l)) as (w12 & msh & E & P12). unfold wbind at 1; rewrite E; clear E.
  destruct (place_spec rd_bool w w12 None (ABool (s_merged s)) (s_merged s) (proj1 P12) eq_refl (Fn _ rd_bool _)) as (w13 & mg & E & P13). unfold wbind at 1; rewrite E; clear E.
  assert (G12 : grown w12 w13) by apply P13. assert (G11 : grown w11 w13) by exact (grown_trans _ _ _ (proj1 (proj2 P12)) G12).
  assert (G10 : grown w10 w13) by exact (grown_trans _ _ _ (proj1 (proj2 P11)) G11). assert (G9 : grown w9 w13) by exact (grown_trans _ _ _ (proj1 (proj2 P10)) G10).
  assert (G8 : grown w8 w13) by exact (grown_trans _ _ _ (proj1 (proj2 P9)) G9). assert (G7 : grown w7 w13) by exact (grown_trans _ _ _ (proj1 (proj2 P8)) G8).
  assert (G6 : grown w6 w13) by exact (grown_trans _ _ _ (proj1 (proj2 P7)) G7). assert (G5 : grown w5 w13) by exact (grown_trans _ _ _ (proj1 (proj2 P6)) G6).
  assert (G4 : grown w4 w13) by exact (grown_trans _ _ _ (proj1 (proj2 P5)) G5). assert (G3 : grown w3 w13) by exact (grown_trans _ _ _ (proj1 (proj2 P4)) G4).
  assert (G2 : grown w2 w13) by exact (grown_trans _ _ _ (proj1 (proj2 P3)) G3). assert (G1 : grown w1 w13) by exact (grown_trans _ _ _ (proj1 (proj2 P2)) G2).
  assert (G0 : grown w w13) by apply P13. destruct G0 as ([tl Hheap] & Hobjs & Hparams). rewrite Hobjs, Hparams.
  match goal with |- context [w_objs w ++ [?o']] => set (o := o') end. match goal with |- context [(?w', Ok (length (w_objs w)))] => set (wn := w') end.
  exists wn, o. split; [reflexivity|].
  pose proof (grown_len _ _ (proj1 (proj2 P1))). pose proof (grown_len _ _ (proj1 (proj2 P2))). pose proof (grown_len _ _ (proj1 (proj2 P3))). pose proof (grown_len _ _ (proj1 (proj2 P4))).
  pose proof (grown_len _ _ (proj1 (proj2 P5))). pose proof (grown_len _ _ (proj1 (proj2 P6))). pose proof (grown_len _ _ (proj1 (proj2 P7))). pose proof (grown_len _ _ (proj1 (proj2 P8))).
  pose proof (grown_len _ _ (proj1 (proj2 P9))). pose proof (grown_len _ _ (proj1 (proj2 P10))). pose proof (grown_len _ _ (proj1 (proj2 P11))). pose proof (grown_len _ _ (proj1 (proj2 P12))).
  pose proof (grown_len _ _ (proj1 (proj2 P13))).
  assert (S11 : forall b, snr = Some b -> b < length (w_heap w11) /\ length (w_heap w10) <= b) by (intros b Hb; destruct (proj1 (proj2 (proj2 P11)) b Hb) as [? [[? ?]|?]]; [discriminate|auto]).
  assert (S12 : forall b, msh = Some b -> b < length (w_heap w12) /\ length (w_heap w11) <= b) by (intros b Hb; destruct (proj1 (proj2 (proj2 P12)) b Hb) as [? [[? ?]|?]]; [discriminate|auto]).
  assert (Oth : forall a, In a (others o) -> (given h a /\ a < length (w_heap w)) \/ (length (w_heap w) <= a /\ (a < length (w_heap w10) \/ length (w_heap w12) <= a) /\ a < length (w_heap w13))).
  { intros a Ha. apply in_others in Ha. cbn [o o_m_1 o_m_2 o_dist o_f_orb o_ecc o_merged o_weights o_position o_inclination o_polarisation o_t_merge] in Ha. unfold given.
    destruct Ha as [Ha|[Ha|[Ha|[Ha|[Ha|[Ha|[Ha|[Ha|[Ha|[Ha|Ha]]]]]]]]]].
    - subst a. destruct (proj2 (proj2 P1)) as (? & [[? ?]|?] & _); [auto|right; lia].
    - subst a. destruct (proj2 (proj2 P2)) as (? & [[? ?]|?] & _); [auto|right; lia].
    - subst a. destruct (proj2 (proj2 P3)) as (? & [[? ?]|?] & _); [auto 6|right; lia].
    - subst a. destruct (proj2 (proj2 P4)) as (? & [[? ?]|?] & _); [auto 7|right; lia].
    - subst a. destruct (proj2 (proj2 P5)) as (? & [[? ?]|?] & _); [auto 8|right; lia].
    - subst a. destruct (proj2 (proj2 P13)) as (? & [[? ?]|?] & _); [discriminate|right; lia].
    - destruct (proj1 (proj2 (proj2 P6)) a Ha) as [? [[? ?]|?]]; [auto 9|right; lia].
    - destruct (proj1 (proj2 (proj2 P7)) a Ha) as [? [[? ?]|?]]; [discriminate|right; lia].
    - destruct (proj1 (proj2 (proj2 P8)) a Ha) as [? [[? ?]|?]]; [auto 10|right; lia].
    - destruct (proj1 (proj2 (proj2 P9)) a Ha) as [? [[? ?]|?]]; [auto 11|right; lia].
    - destruct (proj1 (proj2 (proj2 P10)) a Ha) as [? [[? ?]|?]]; [discriminate|right; lia]. }
  assert (Mut : forall a, In a (muts o) -> length (w_heap w10) <= a < length (w_heap w12)).
  { intros a Ha. apply in_muts in Ha. cbn [o o_snr o_max_snr_harmonic] in Ha. destruct Ha as [Ha|Ha]; [destruct (S11 a Ha)|destruct (S12 a Ha)]; lia. }
  split.
  - exists tl. exact Hheap.
  - reflexivity.
  - reflexivity.
  - reflexivity.
  - rewrite (mkSrc_eta s). unfold view. cbn [wn o w_heap o_class o_m_1 o_m_2 o_dist o_f_orb o_ecc o_merged o_weights o_position o_inclination o_polarisation o_t_merge o_snr o_max_snr_harmonic o_stat_tol o_n_proc o_harm o_g o_interpolate_sc o_sc o_params].
    replace (dict_at wn (length (w_params w))) with (s_params s) by (unfold dict_at; cbn [wn w_params]; now rewrite nth_last).
    apply mkSrc_eq.
    + exact (placed_later _ _ _ _ _ _ _ _ P1 G1).
    + exact (placed_later _ _ _ _ _ _ _ _ P2 G2).
    + exact (placed_later _ _ _ _ _ _ _ _ P3 G3).
    + exact (placed_later _ _ _ _ _ _ _ _ P4 G4).
    + exact (placed_later _ _ _ _ _ _ _ _ P5 G5).
    + exact (placed_opt_later _ _ _ _ _ _ _ _ P6 G6).
    + exact (placed_opt_later _ _ _ _ _ _ _ _ P7 G7).
    + exact (placed_opt_later _ _ _ _ _ _ _ _ P8 G8).
    + exact (placed_opt_later _ _ _ _ _ _ _ _ P9 G9).
    + exact (placed_opt_later _ _ _ _ _ _ _ _ P10 G10).
    + exact (placed_opt_later _ _ _ _ _ _ _ _ P11 G11).
    + exact (placed_opt_later _ _ _ _ _ _ _ _ P12 G12).
    + exact (placed_later _ _ _ _ _ _ _ _ P13 (grown_refl _)).
  - cbn [wn w_heap]. split.
    + intros a Ha. apply in_every in Ha. destruct Ha as [Ha|Ha]; [destruct (Oth a Ha) as [[_ ?]|?]|pose proof (Mut a Ha)]; lia.
    + intros a Ha Hb. pose proof (Mut a Ha). destruct (Oth a Hb) as [[_ ?]|?]; lia.
    + intros a Ha Hb. cbn [o o_snr o_max_snr_harmonic] in Ha, Hb. destruct (S11 a Ha), (S12 a Hb). lia.
  - intros a Ha. pose proof (Mut a Ha). lia.
  - intros a Ha. destruct (Oth a Ha) as [?|?]; [auto|right; lia].
Qed.
(** ** New objects *)
Lemma users_muts w a : users_own w a <-> a < length (w_heap w) /\ forall i o, nth_error (w_objs w) i = Some o -> ~ In a (muts o).
Proof.
  unfold users_own, snr_array. split; intros [L H]; split; auto.
  - intros i o O M. apply (H i). exists o. split; auto. now apply in_muts.
  - intros i (o & O & M). apply (H i o O). now apply in_muts.
Qed.
Lemma app_nth {A} (l : list A) v i o : nth_error (l ++ [v]) i = Some o -> nth_error l i = Some o \/ i = length l /\ o = v.
Proof.
  intros H. destruct (Nat.lt_ge_cases i (length l)) as [L|L]; [left; now rewrite nth_error_app1 in H|]. right. rewrite nth_error_app2 in H by lia.
  destruct (i - length l) as [|k] eqn:E; [cbn in H; injection H as <-; split; [lia|auto]|]. cbn in H. now destruct k.
Qed.
Lemma new_inv h s w w' o : inv w -> newstep h s w w' o -> (forall a, given h a -> users_own w a) -> inv w'.
Proof.
  intros I N U. pose proof (ns_heap _ _ _ _ _ N) as [t T]. assert (L : length (w_heap w) <= length (w_heap w')) by (rewrite T, app_length; lia).
  assert (Sep : forall j oj a, nth_error (w_objs w) j = Some oj -> (In a (muts o) -> ~ In a (every oj)) /\ (In a (muts oj) -> ~ In a (every o))).
  { intros j oj a Oj. pose proof (inv_wf _ I _ _ Oj) as W. split.
    - intros M E. pose proof (ns_muts _ _ _ _ _ N a M). pose proof (wf_valid _ _ W a E). lia.
    - intros M E. assert (La := wf_valid _ _ W a (proj2 (in_every _ _) (or_intror M))). apply in_every in E. destruct E as [E|E].
      + destruct (ns_others _ _ _ _ _ N a E) as [[G _]|G]; [|lia]. apply U, users_muts in G. exact (proj2 G j oj Oj M).
      + pose proof (ns_muts _ _ _ _ _ N a E). lia. }
  split.
  - intros i oi Oi. rewrite (ns_objs _ _ _ _ _ N) in Oi. apply app_nth in Oi. destruct Oi as [Oi|[_ ->]]; [|exact (ns_wf _ _ _ _ _ N)].
    destruct (inv_wf _ I _ _ Oi) as [V1 V2 V3]. split; auto. intros a Ha. specialize (V1 a Ha). lia.
  - intros i j oi oj a Nij Oi Oj. rewrite (ns_objs _ _ _ _ _ N) in Oi, Oj. apply app_nth in Oi. apply app_nth in Oj. destruct Oi as [Oi|[Ei ->]], Oj as [Oj|[Ej ->]].
    + exact (inv_sep _ I i j oi oj a Nij Oi Oj).
    + apply (Sep i oi a Oi).
    + apply (Sep j oj a Oj).
    + lia.
  - intros i oi Oi. rewrite (ns_params _ _ _ _ _ N). rewrite (ns_objs _ _ _ _ _ N) in Oi. apply app_nth in Oi. destruct Oi as [Oi|[-> ->]].
    + destruct (inv_own _ I _ _ Oi) as (q & Q & S). exists q. split; auto. now rewrite (nth_before _ _ _ (nth_some_lt _ _ _ Q)).
    + rewrite (ns_own _ _ _ _ _ N), nth_last. eexists. split; reflexivity.
Qed.
Lemma new_contents h s w w' o : newstep h s w w' o -> contents w' (length (w_objs w)) = Some s.
Proof. intros N. unfold contents. rewrite (ns_objs _ _ _ _ _ N), nth_last. cbn. now rewrite (ns_view _ _ _ _ _ N). Qed.
Lemma new_frame h s w w' o j : inv w -> newstep h s w w' o -> j < length (w_objs w) -> contents w' j = contents w j.
Proof.
  intros I N J. unfold contents. rewrite (ns_objs _ _ _ _ _ N), nth_before by exact J. destruct (nth_error (w_objs w) j) as [oj|] eqn:O; [|reflexivity]. cbn. f_equal. pose proof (ns_heap _ _ _ _ _ N) as [t T]. apply view_frame.
  - intros a Ha. rewrite T. apply nth_before. exact (wf_valid _ _ (inv_wf _ I _ _ O) a Ha).
  - destruct (inv_own _ I _ _ O) as (q & Q & _). rewrite (ns_params _ _ _ _ _ N). exact (nth_before _ _ _ (nth_some_lt _ _ _ Q)).
Qed.
Lemma new_users h s w w' o a : newstep h s w w' o -> users_own w a -> users_own w' a /\ nth_error (w_heap w') a = nth_error (w_heap w) a.
Proof.
  intros N U. apply users_muts in U. destruct U as [L U]. pose proof (ns_heap _ _ _ _ _ N) as [t T]. split.
  - apply users_muts. rewrite T, app_length. split; [lia|]. intros i oi Oi. rewrite (ns_objs _ _ _ _ _ N) in Oi. apply app_nth in Oi. destruct Oi as [Oi|[_ ->]]; [exact (U i oi Oi)|].
    intros M. pose proof (ns_muts _ _ _ _ _ N a M). lia.
  - rewrite T. now apply nth_before.
Qed.
(** Nothing shared: the new object has arrays of its own. *)
Lemma nothing_ok w s : shared_ok w nothing_shared s.
Proof. split; intros; intros b E; discriminate E. Qed.
Lemma getitem_spec ind i w : (exists w' o s new, contents w i = Some s /\ getitem ind s = Ok new /\ w_getitem ind i w = (w', Ok (length (w_objs w))) /\ newstep nothing_shared new w w' o) \/
  exists e, w_getitem ind i w = (w, Err e) /\ (contents w i = None \/ exists s, contents w i = Some s /\ getitem ind s = Err e).
Proof.
  destruct (contents w i) as [s|] eqn:C.
  - destruct (getitem ind s) as [new|e] eqn:G.
    + left. destruct (build_spec nothing_shared new w (nothing_ok w new)) as (w' & o & E & N). exists w', o, s, new. split; [auto|]. split; [exact G|]. split; [|exact N].
      unfold w_getitem, look, wlift. unfold wbind at 1. rewrite C. unfold wbind at 1. rewrite G. exact E.
    + right. exists e. split; [unfold w_getitem, look, wlift, wbind; rewrite C, G; reflexivity|]. right. eauto.
  - right. exists AttributeError. split; [unfold w_getitem, look, wbind; rewrite C; reflexivity|auto].
Qed.
Lemma entries_arg h g a : addr_of_arg g = Some a -> entries (value_of_arg h g) = nums h a.
Proof. destruct g as [u b|v]; cbn; [|discriminate]. intros E. injection E as ->. destruct u; reflexivity. Qed.
Lemma valid_fits w a l : (forall b, a = Some b -> b < length (w_heap w)) -> (forall b, a = Some b -> nums (w_heap w) b = l) -> fits rd_num w a l.
Proof. intros H K b E. split; [exact (H b E)|exact (K b E)]. Qed.
Definition kept_args (g : new_args) : shared := mkShared (addr_of_arg (n_m_1 g)) (addr_of_arg (n_m_2 g)) (addr_of_arg (n_dist g)) (addr_of_arg (n_f_orb g)) (addr_of_arg (n_ecc g))
                   (addr_of_arg (n_weights g)) (addr_of_angles (n_inclination g)) (addr_of_angles (n_polarisation g)).
Lemma arg_in g a : addr_of_arg g = Some a -> In a (match g with At _ a => [a] | Val _ => [] end).
Proof. destruct g; cbn; [|discriminate]. intros E. injection E. auto. Qed.
Lemma angles_in (g : option (addr + list num)) a : addr_of_angles g = Some a -> In a (match g with Some (inl a) => [a] | _ => [] end).
Proof. destruct g as [[b|]|]; cbn; try discriminate. intros E. injection E. auto. Qed.
Lemma kept_handed k g a : given (kept_args g) a -> In a (handed (New k g)).
Proof.
  unfold given, kept_args. cbn [h_m_1 h_m_2 h_dist h_f_orb h_ecc h_weights h_inclination h_polarisation handed]. rewrite !in_app_iff.
  intros [H|[H|[H|[H|[H|[H|[H|H]]]]]]]; [apply arg_in in H|apply arg_in in H|apply arg_in in H|apply arg_in in H|apply arg_in in H|apply arg_in in H|apply angles_in in H|apply angles_in in H]; auto 12.
Qed.
Lemma exists_arg h g a : addr_of_arg g = Some a -> py_exists (value_of_arg h g) = true.
Proof. destruct g as [u b|]; [destruct u; reflexivity|discriminate]. Qed.
Lemma angles_arg h (g : option (addr + list num)) a : addr_of_angles g = Some a -> angles_of_arg h g = Some (nums h a).
Proof. destruct g as [[b|]|]; cbn; try discriminate. intros E. injection E as ->. reflexivity. Qed.
Lemma new_shared x k g w s : (forall a, In a (handed (New k g)) -> a < length (w_heap w)) -> init x k (read_args (w_heap w) g) = Ok s -> shared_ok w (kept_args g) s.
Proof.
  intros U H. apply init_fwd in H. destruct H as (f & pos & inc & pol & [C1 C2 (fv & C3 & -> & C3') C4 C5 C6] & F).
  destruct (finish_arrays _ _ _ _ F) as (E1 & E2 & E3 & E4 & E5 & E6 & E7 & E8 & E9 & _).
  assert (V : forall a, given (kept_args g) a -> a < length (w_heap w)) by (intros a Ha; exact (U a (kept_handed k g a Ha))).
  unfold given, kept_args in V. cbn [h_m_1 h_m_2 h_dist h_f_orb h_ecc h_weights h_inclination h_polarisation] in V.
  split; cbn [kept_args h_m_1 h_m_2 h_dist h_f_orb h_ecc h_weights h_inclination h_polarisation].
  - apply valid_fits; [auto|]. intros b Hb. rewrite E1. symmetry. exact (entries_arg _ _ _ Hb).
  - apply valid_fits; [auto|]. intros b Hb. rewrite E2. symmetry. exact (entries_arg _ _ _ Hb).
  - apply valid_fits; [auto 6|]. intros b Hb. rewrite E3. symmetry. exact (entries_arg _ _ _ Hb).
  - apply valid_fits; [auto 7|]. intros b Hb. rewrite E4. cbn. cbn [read_args i_f_orb] in C3. rewrite (exists_arg _ _ _ Hb) in C3. injection C3 as <-. symmetry. exact (entries_arg _ _ _ Hb).
  - apply valid_fits; [auto 8|]. intros b Hb. rewrite E5. symmetry. exact (entries_arg _ _ _ Hb).
  - intros l Hl. apply valid_fits; [auto 9|]. intros b Hb. rewrite E6 in Hl. cbn in Hl. unfold InitFacts.weights_of in Hl. cbn [read_args i_weights] in Hl. rewrite (exists_arg _ _ _ Hb) in Hl. injection Hl as <-.
    symmetry. exact (entries_arg _ _ _ Hb).
  - intros l Hl. apply valid_fits; [auto 10|]. intros b Hb. rewrite E8 in Hl. cbn in Hl. cbn [read_args i_position i_inclination i_polarisation] in C2. rewrite (angles_arg _ _ _ Hb) in C2.
    destruct (n_position g) as [p|]; [|destruct C2; discriminate]. destruct C2 as (C2 & _). congruence.
  - intros l Hl. apply valid_fits; [auto 11|]. intros b Hb. rewrite E9 in Hl. cbn in Hl. cbn [read_args i_position i_inclination i_polarisation] in C2. rewrite (angles_arg _ _ _ Hb) in C2.
    destruct (n_position g) as [p|]; [|destruct C2 as (_ & C2 & _); discriminate]. destruct C2 as (_ & C2 & _). congruence.
Qed.
Lemma new_valid x k g w : (forall a, In a (handed (New k g)) -> a < length (w_heap w)) ->
  (exists w' o s, init x k (read_args (w_heap w) g) = Ok s /\ w_new x k g w = (w', Ok (length (w_objs w))) /\ newstep (kept_args g) s w w' o) \/
  (exists e, init x k (read_args (w_heap w) g) = Err e /\ w_new x k g w = (w, Err e)).
Proof.
  intros U. unfold w_new, wbind, wlift. destruct (init x k (read_args (w_heap w) g)) as [s|e] eqn:E; [left|right; eauto].
  destruct (build_spec (kept_args g) s w (new_shared x k g w s U E)) as (w' & o & B & N). exists w', o, s. auto.
Qed.
Lemma new_spec x k g w : (forall a, In a (handed (New k g)) -> users_own w a) ->
  (exists w' o s, init x k (read_args (w_heap w) g) = Ok s /\ w_new x k g w = (w', Ok (length (w_objs w))) /\ newstep (kept_args g) s w w' o) \/
  (exists e, init x k (read_args (w_heap w) g) = Err e /\ w_new x k g w = (w, Err e)).
Proof. intros U. apply new_valid. intros a Ha. exact (proj1 (U a Ha)). Qed.
(** A collection made by evolve_sources. *)
Definition kept_evolving (o : obj) : shared := mkShared (Some (o_m_1 o)) (Some (o_m_2 o)) (Some (o_dist o)) None None None (o_inclination o) (o_polarisation o).
Lemma ensure_again x s s1 t : ensure_t_merge x s = (s1, Ok t) -> ensure_t_merge x s1 = (s1, Ok t).
Proof.
  unfold ensure_t_merge, mbind, self. destruct (s_t_merge s) as [t0|] eqn:E.
  - unfold ret. intros H. injection H as <- <-. rewrite E. reflexivity.
  - destruct (get_merger_time x true None true s) as [s2 [v|e]]; [|discriminate]. destruct (s_t_merge s2) as [t0|] eqn:E2; [|discriminate]. unfold ret. intros H. injection H as <- <-. rewrite E2. reflexivity.
Qed.
Lemma evolve_new_again x t s s1 tm : ensure_t_merge x s = (s1, Ok tm) -> evolve_new x t s = (s1, snd (evolve_new x t s1)).
Proof.
  intros E. pose proof (ensure_again _ _ _ _ E) as E1. unfold evolve_new. unfold mbind at 1. rewrite E. unfold mbind at 6. rewrite E1.
  unfold mbind, self, lift. destruct (evolved x t tm s1) as [[[mg ecc] f]|e]; [|reflexivity]. destruct (h_gw_lum_tol (s_harm s1)) as [tol|]; [|reflexivity].
  destruct (init x KSource _) as [new|e]; [|reflexivity]. destruct (times_of t (n_sources s1)) as [ts|e]; [|reflexivity]. destruct (remaining tm ts); reflexivity.
Qed.
Lemma evolve_new_init x t s new : snd (evolve_new x t s) = Ok new -> exists tm s1 mg ecc f tol base, ensure_t_merge x s = (s1, Ok tm) /\ evolved x t tm s1 = Ok (mg, ecc, f) /\
  init x KSource (mkInit (PQArr (s_m_1 s1) tt) (PQArr (s_m_2 s1) tt) (PArr ecc) (PQArr (s_dist s1) tt) (s_n_proc s1)
                (PQArr f tt) PNone (s_position s1) (s_polarisation s1) (s_inclination s1) PNone tol (s_stat_tol s1) false false (s_params s1)) = Ok base /\
  s_m_1 new = s_m_1 base /\ s_m_2 new = s_m_2 base /\ s_dist new = s_dist base /\ s_inclination new = s_inclination base /\ s_polarisation new = s_polarisation base /\ s_snr new = s_snr base /\ s_weights new = s_weights base.
Proof.
  unfold evolve_new, mbind, self, lift. destruct (ensure_t_merge x s) as [s1 [tm|e]]; [|discriminate]. destruct (evolved x t tm s1) as [[[mg ecc] f]|e] eqn:Ev; [|discriminate].
  destruct (h_gw_lum_tol (s_harm s1)) as [tol|]; [|discriminate]. destruct (init x KSource _) as [base|e] eqn:In0; [|discriminate]. destruct (times_of t (n_sources s1)) as [ts|e]; [|discriminate].
  destruct (remaining tm ts); [|discriminate]. intros H. injection H as <-. exists tm, s1, mg, ecc, f, tol, base. auto 12.
Qed.
Lemma others_users w i o a : inv w -> nth_error (w_objs w) i = Some o -> In a (others o) -> users_own w a.
Proof.
  intros I O H. apply users_muts. pose proof (inv_wf _ I _ _ O) as W. split; [apply (wf_valid _ _ W), in_every; auto|]. intros j oj Oj M. destruct (Nat.eq_dec j i) as [->|N].
  - rewrite O in Oj. injection Oj as <-. exact (wf_apart _ _ W a M H).
  - apply (inv_sep _ I j i oj o a N Oj O M). apply in_every. auto.
Qed.
Lemma evolving_given o a : given (kept_evolving o) a -> In a (others o).
Proof. unfold given, kept_evolving. cbn [h_m_1 h_m_2 h_dist h_f_orb h_ecc h_weights h_inclination h_polarisation]. rewrite in_others. intros H. decompose [or] H; try discriminate; subst; auto 12; match goal with K : Some _ = Some _ |- _ => injection K as <- end; auto. Qed.
Lemma evolving_shared x t w i o new tm : inv w -> nth_error (w_objs w) i = Some o -> ensure_t_merge x (view w o) = (view w o, Ok tm) -> snd (evolve_new x t (view w o)) = Ok new -> shared_ok w (kept_evolving o) new.
Proof.
  intros I O E H. destruct (evolve_new_init _ _ _ _ H) as (tm' & s1 & mg & ecc & f & tol & base & H1 & H2 & H3 & D1 & D2 & D3 & D4 & D5 & _). rewrite E in H1. injection H1 as <- <-.
  apply init_fwd in H3. destruct H3 as (f' & pos & inc & pol & [C1 C2 _ C4 C5 C6] & F). destruct (finish_arrays _ _ _ _ F) as (E1 & E2 & E3 & E4 & E5 & E6 & E7 & E8 & E9 & _).
  assert (V : forall a, given (kept_evolving o) a -> a < length (w_heap w)) by (intros a Ha; exact (proj1 (others_users _ _ _ _ I O (evolving_given _ _ Ha)))).
  unfold given, kept_evolving in V. cbn [h_m_1 h_m_2 h_dist h_f_orb h_ecc h_weights h_inclination h_polarisation] in V.
  split; cbn [kept_evolving h_m_1 h_m_2 h_dist h_f_orb h_ecc h_weights h_inclination h_polarisation]; try (intros; intros b Hb; discriminate Hb).
  - apply valid_fits; [auto|]. intros b Hb. injection Hb as <-. rewrite D1, E1. reflexivity.
  - apply valid_fits; [auto|]. intros b Hb. injection Hb as <-. rewrite D2, E2. reflexivity.
  - apply valid_fits; [auto 6|]. intros b Hb. injection Hb as <-. rewrite D3, E3. reflexivity.
  - intros l Hl. apply valid_fits; [auto 10|]. intros b Hb. rewrite D4, E8 in Hl. cbn in Hl. cbn [i_position i_inclination i_polarisation] in C2.
    assert (Ei : s_inclination (view w o) = Some (nums (w_heap w) b)) by (cbn; now rewrite Hb). rewrite Ei in C2. destruct (s_position (view w o)) as [p|]; [|destruct C2; discriminate]. destruct C2 as (C2 & _). congruence.
  - intros l Hl. apply valid_fits; [auto 11|]. intros b Hb. rewrite D5, E9 in Hl. cbn in Hl. cbn [i_position i_inclination i_polarisation] in C2.
    assert (Ei : s_polarisation (view w o) = Some (nums (w_heap w) b)) by (cbn; now rewrite Hb). rewrite Ei in C2. destruct (s_position (view w o)) as [p|]; [|destruct C2 as (_ & C2 & _); discriminate]. destruct C2 as (_ & C2 & _). congruence.
Qed.
Lemma evolve_new_spec x t i w o : inv w -> nth_error (w_objs w) i = Some o -> exists w1 o1, okstep i w w1 /\ nth_error (w_objs w1) i = Some o1 /\
  ((exists w' on new, evolve_new x t (view w o) = (view w1 o1, Ok new) /\ w_evolve_new x t i w = (w', Ok (length (w_objs w))) /\ newstep (kept_evolving o1) new w1 w' on) \/
   (exists e, evolve_new x t (view w o) = (view w1 o1, Err e) /\ w_evolve_new x t i w = (w1, Err e))).
Proof.
  intros I O. destruct (good_ensure x i (fun _ => True) w o I O Logic.I) as (w1 & r & s1 & r' & E1 & E2 & K & C & X). pose proof (ok_inv _ _ _ I K) as I1.
  assert (exists o1, nth_error (w_objs w1) i = Some o1 /\ view w1 o1 = s1) as (o1 & O1 & V1).
  { unfold contents in C. destruct (nth_error (w_objs w1) i) as [o1|] eqn:O1; [|discriminate]. exists o1. split; auto. cbn in C. congruence. }
  exists w1, o1. split; [exact K|]. split; [exact O1|]. destruct r as [tm|e], r' as [tm'|e']; try contradiction.
  - unfold same in X. subst tm'. rewrite (evolve_new_again x t _ _ _ E2). rewrite V1. destruct (snd (evolve_new x t s1)) as [new|e] eqn:Ev; [left|right].
    + assert (S : shared_ok w1 (kept_evolving o1) new) by (apply (evolving_shared x t w1 i o1 new tm I1 O1); rewrite V1; [exact (ensure_again _ _ _ _ E2)|exact Ev]).
      destruct (build_spec (kept_evolving o1) new w1 S) as (w' & on & B & N). exists w', on, new. split; [reflexivity|]. rewrite (ok_count _ _ _ K) in B. split; [|exact N].
      unfold w_evolve_new, look, get_obj, wlift. unfold wbind at 1. rewrite E1. unfold wbind at 1. rewrite (contents_view _ _ _ O1). unfold wbind at 1. rewrite O1. unfold wbind at 1. rewrite V1, Ev. exact B.
    + exists e. split; [reflexivity|]. unfold w_evolve_new, look, get_obj, wlift, wbind. rewrite E1, (contents_view _ _ _ O1), O1, V1, Ev. reflexivity.
  - subst e'. right. exists e. split; [unfold evolve_new, mbind; rewrite E2; now rewrite V1|]. unfold w_evolve_new, wbind. now rewrite E1.
Qed.
