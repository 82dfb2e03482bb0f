(** ArrEvolFacts.v -- array-level facts about evol.py: merger times per source (C21), argument checking (C22),
    time steps (C23, C24), process pool (C25), aliasing (C26) and output variables (C27). *)
From Coq Require Import String Reals ZArith List Bool Lra Lia.
From Coquelicot Require Import Coquelicot.
From Verif Require Import Num NumFacts Np NpFacts Utils Spec UtilsFacts Evol EvolSpec EvolFacts MergeFacts.
Import ListNotations.
Open Scope R_scope.

(** ** C21 *)
Lemma map2_pair_map {X A B} (g : X -> A) (h : X -> B) l : map2 pair (map g l) (map h l) = map (fun x => (g x, h x)) l.
Proof. apply map2_map. Qed.
Lemma existsb_map {A B} (f : A -> B) p l : existsb p (map f l) = existsb (fun x => p (f x)) l.
Proof. induction l; simpl; auto. now rewrite IHl. Qed.
Lemma forallb_map {A B} (f : A -> B) p l : forallb p (map f l) = forallb (fun x => p (f x)) l.
Proof. induction l; simpl; auto. now rewrite IHl. Qed.

Lemma merge_core_map quad {X} (e a b : X -> num) xs small large exact :
  0 < small <= large -> (forall x, In x xs -> exists r, e x = Fin r /\ 0 <= r <= 1) ->
  get_t_merge_ecc_core quad (map e xs) (map a xs) (map b xs) (Fin small) (Fin large) exact
  = Ok (map (fun x => get_t_merge_ecc_sc_core quad (e x) (a x) (b x) (Fin small) (Fin large) exact) xs).
Proof.
  intros Ht He. unfold get_t_merge_ecc_core. rewrite forallb_map.
  destruct (forallb _ xs) eqn:ALL.
  - rewrite bzip_map. f_equal. apply map_ext_in. intros x Hx. rewrite forallb_forall in ALL.
    unfold get_t_merge_ecc_sc_core. now rewrite (ALL x Hx).
  - rewrite !map_length, !Nat.eqb_refl. cbn [andb negb].
    rewrite !map_map, !select_map, map2_map.
    rewrite (scatter_map (fun x => negb (neqb (e x) (Fin 0))) (fun x => c_0 (a x) (e x)) (fun _ => Fin 0)).
    rewrite !select_map, !map2_map.
    rewrite !scatter_map.
    destruct exact; f_equal; apply map_ext_in; intros x Hx;
      destruct (He x Hx) as [r [Er Hr]]; rewrite Er; unfold get_t_merge_ecc_sc_core, nge, ngt; cbn [fst snd];
      (destruct (Req_dec r 0) as [->|Hn];
       [ rewrite (neqb_t 0 0) by auto; rewrite (nle_f small 0) by lra; rewrite (nlt_f large 0) by lra;
         rewrite (nlt_f 0 0) by lra; reflexivity
       | rewrite (neqb_f r 0) by auto; cbn [negb]; rewrite (nlt_t 0 r) by lra;
         destruct (Rlt_le_dec r small) as [L|L];
         [ rewrite (nlt_t r small) by auto; rewrite (nle_f small r) by auto; rewrite (nlt_f large r) by lra; reflexivity
         | rewrite (nlt_f r small) by auto; rewrite (nle_t small r) by auto; cbn [andb];
           destruct (Rlt_le_dec large r) as [L2|L2];
           [ rewrite (nle_f r large), (nlt_t large r) by auto; reflexivity
           | rewrite (nle_t r large), (nlt_f large r) by auto; reflexivity ] ] ]).
Qed.


Lemma get_a_arr_map {X} (f m1 m2 : X -> num) xs :
  get_a_arr (map f xs) (map m1 xs) (map m2 xs) = Ok (map (fun x => get_a_from_f_orb (f x) (m1 x) (m2 x)) xs).
Proof. unfold get_a_arr. rewrite bzip_map. cbn [rbind]. now rewrite bzip_map. Qed.

(** array check = scalar check per source *)
Lemma check_arr_map {X} (xs : list X) beta m1 m2 a f :
  (exists b' a', check_arr (omap xs beta) (omap xs m1) (omap xs m2) (omap xs a) (omap xs f) = Ok (map b' xs, map a' xs)
     /\ forall x, check_sc (oget x beta) (oget x m1) (oget x m2) (oget x a) (oget x f) = Ok (b' x, a' x))
  \/ (check_arr (omap xs beta) (omap xs m1) (omap xs m2) (omap xs a) (omap xs f) = Err ValueError
     /\ forall x, check_sc (oget x beta) (oget x m1) (oget x m2) (oget x a) (oget x f) = Err ValueError).
Proof.
  unfold check_arr, check_sc, check_mass_freq_input, beta_arr, omap, oget.
  destruct beta as [b|], m1 as [u|], m2 as [v|], a as [a|], f as [f|]; cbn [option_map rbind];
    rewrite ?bzip_map, ?get_a_arr_map; cbn [rbind];
    first [ left; eexists; eexists; split; [reflexivity | intros; reflexivity] | right; split; [reflexivity | intros; reflexivity] ].
Qed.
Lemma mapM_err {A B} (f : A -> res B) ex l : l <> [] -> (forall x, f x = Err ex) -> mapM f l = Err ex.
Proof. destruct l; [congruence|]. intros _ H. simpl. now rewrite H. Qed.

Lemma merge_array_scalar quad {X} (e : X -> num) a f beta m1 m2 (xs : list X) small large exact :
  xs <> [] -> 0 < small <= large -> (forall x, In x xs -> exists r, e x = Fin r /\ 0 <= r <= 1) ->
  get_t_merge_ecc quad (map e xs) (omap xs a) (omap xs f) (omap xs beta) (omap xs m1) (omap xs m2)
                  (Fin small) (Fin large) exact
  = mapM (fun x => get_t_merge_ecc_sc quad (e x) (oget x a) (oget x f) (oget x beta) (oget x m1) (oget x m2)
                  (Fin small) (Fin large) exact) xs.
Proof.
  intros Hn Ht He. unfold get_t_merge_ecc, get_t_merge_ecc_sc.
  destruct (check_arr_map xs beta m1 m2 a f) as [[b' [a' [-> S]]]|[-> S]]; cbn [rbind fst snd].
  - rewrite merge_core_map by auto. erewrite mapM_ext.
    2:{ intros x Hx. rewrite S. cbn [rbind fst snd]. reflexivity. }
    now rewrite mapM_ok.
  - symmetry. apply mapM_err; auto. intros x. now rewrite S.
Qed.

(** ** C22 *)
Lemma check_sc_table beta m1 m2 a f :
  check_sc beta m1 m2 a f =
  if (isSome beta || (isSome m1 && isSome m2)) && (isSome a || (isSome f && (isSome m1 && isSome m2)))
  then Ok (match beta, m1, m2 with Some b, _, _ => b | None, Some x, Some y => Utils.beta x y | _, _, _ => NaN end,
           match a, f, m1, m2 with
           | Some a, _, _, _ => a | None, Some f, Some x, Some y => get_a_from_f_orb f x y | _, _, _, _ => NaN end)
  else Err ValueError.
Proof. destruct beta, m1, m2, a, f; reflexivity. Qed.

(** ** C23 *)
Lemma linspace0_first T n : (1 <= n)%nat -> nth_error (linspace0 (Fin T) n) 0 = Some (Fin 0).
Proof.
  intros Hn. destruct n as [|[|n]]; [lia|reflexivity|]. rewrite linspace0_nth by lia.
  simpl (INR 0). do 2 f_equal. unfold Rdiv. ring.
Qed.
Lemma INR_pred_pos n : (2 <= n)%nat -> 0 < INR (n - 1).
Proof. intros. apply lt_0_INR. lia. Qed.
Lemma linspace0_last T n : (2 <= n)%nat -> nth_error (linspace0 (Fin T) n) (n - 1) = Some (Fin T).
Proof.
  intros Hn. pose proof (INR_pred_pos n Hn). rewrite linspace0_nth by lia. do 2 f_equal. field. lra.
Qed.

(** ** C24 *)
Lemma fold_nmax_fin l x : fold_left nmax (map Fin l) (Fin x) = Fin (fold_left Rmax l x).
Proof. revert x. induction l as [|y l IH]; intros x; cbn [map fold_left]; auto. rewrite nmax_fin. apply IH. Qed.
Lemma fold_Rmax_ge l x : x <= fold_left Rmax l x /\ forall y, In y l -> y <= fold_left Rmax l x.
Proof.
  revert x. induction l as [|z l IH]; intros x; simpl; [split; [lra|tauto]|].
  destruct (IH (Rmax x z)) as [A B]. split.
  - eapply Rle_trans; [apply Rmax_l|exact A].
  - intros y [->|Hy]; [|now apply B]. eapply Rle_trans; [apply Rmax_r|exact A].
Qed.
Lemma fold_Rmax_in l x : fold_left Rmax l x = x \/ In (fold_left Rmax l x) l.
Proof.
  revert x. induction l as [|z l IH]; intros x; simpl; auto.
  destruct (IH (Rmax x z)) as [A|A]; auto. rewrite A. unfold Rmax. destruct (Rle_dec x z); auto.
Qed.

(** the corrected row, on reals: entries at or past [lim] (except the first) become the largest admissible one *)
Definition adm (lim : R) (t : R) : bool := if Rle_dec lim t then false else true.
Definition last_adm (lim : R) (r : list R) : R := fold_left Rmax (filter (adm lim) r) 0.
Definition clampR (lim : R) (r : list R) : list R :=
  0 :: map (fun t => if adm lim t then t else last_adm lim r) r.

Lemma fold_Rmax_filter lim r x : (forall t, In t r -> 0 <= t) -> 0 <= x ->
  fold_left Rmax (map (fun t => if adm lim t then t else - Gyr) r) x = fold_left Rmax (filter (adm lim) r) x.
Proof.
  revert x. induction r as [|t r IH]; intros x Hr Hx; simpl; auto.
  destruct (adm lim t); simpl.
  - apply IH; [intros; apply Hr; now right|]. eapply Rle_trans; [exact Hx|apply Rmax_l].
  - rewrite Rmax_left. 2:{ assert (0 < Gyr) by (unfold Gyr; pose proof yr_pos; lra). lra. } apply IH; auto. intros; apply Hr; now right.
Qed.
Lemma clamp_row_fin tm tb r : (forall t, In t r -> 0 <= t) ->
  clamp_row (too_close_row (Fin tm) (Fin tb) (map Fin (0 :: r))) (map Fin (0 :: r)) = map Fin (clampR (tm - tb) r).
Proof.
  intros Hr. unfold clamp_row, too_close_row. cbn [map map2].
  assert (M : map (fun t => nge t (nsub (Fin tm) (Fin tb))) (map Fin r) = map (fun t => negb (adm (tm - tb) t)) r).
  { rewrite map_map. apply map_ext. intros t. rewrite nsub_fin. unfold nge, adm.
    destruct (Rle_dec (tm - tb) t); [now rewrite nle_t|rewrite nle_f by lra; auto]. }
  rewrite M. rewrite (map2_map _ (fun t => negb (adm (tm - tb) t)) Fin r). cbn beta.
  assert (E : map (fun t => if negb (adm (tm - tb) t) then Fin (- Gyr) else Fin t) r
              = map Fin (map (fun t => if adm (tm - tb) t then t else - Gyr) r)).
  { rewrite map_map. apply map_ext. intros t. now destruct (adm (tm - tb) t). }
  rewrite E. unfold row_max. rewrite fold_nmax_fin, fold_Rmax_filter by (auto; lra).
  rewrite map_map, map2_map. unfold clampR. cbn [map]. f_equal. rewrite map_map. apply map_ext. intros t.
  unfold last_adm. now destruct (adm (tm - tb) t).
Qed.

Lemma nth_map_in {A B} (f : A -> B) l i d d' : (i < length l)%nat -> nth i (map f l) d' = f (nth i l d).
Proof. intros H. rewrite (nth_indep _ d' (f d)); [apply map_nth|now rewrite map_length]. Qed.

Lemma clampR_spec lim r : sorted (0 :: r) ->
  let r' := clampR lim r in
  length r' = S (length r) /\ nth 0 r' 0 = 0 /\ sorted r' /\
  (forall i, (i < S (length r))%nat -> nth i r' 0 <= nth i (0 :: r) 0) /\
  (forall i, (i < S (length r))%nat -> nth i (0 :: r) 0 < lim -> nth i r' 0 = nth i (0 :: r) 0) /\
  (forall i, (0 < i < S (length r))%nat -> lim <= nth i (0 :: r) 0 ->
     exists k, (k < i)%nat /\ (k = 0%nat \/ nth k (0 :: r) 0 < lim) /\ nth i r' 0 = nth k (0 :: r) 0 /\
               forall j, (j < S (length r))%nat -> nth j (0 :: r) 0 < lim -> nth j (0 :: r) 0 <= nth i r' 0).
Proof.
  intros HS.
  assert (NN : forall t, In t r -> 0 <= t).
  { intros t Ht. destruct (In_nth _ _ 0 Ht) as [i [Hi E]]. rewrite <- E.
    apply (HS 0%nat (S i)); simpl; lia. }
  assert (LA : forall i, (i < length r)%nat -> lim <= nth i r 0 ->
      exists k, (k <= i)%nat /\ (k = 0%nat \/ nth k (0 :: r) 0 < lim) /\ last_adm lim r = nth k (0 :: r) 0).
  { intros i Hi Hlim. unfold last_adm.
    destruct (fold_Rmax_in (filter (adm lim) r) 0) as [E|E].
    - exists 0%nat. rewrite E. repeat split; auto. lia.
    - apply filter_In in E. destruct E as [E1 E2]. destruct (In_nth _ _ 0 E1) as [k [Hk Ek]].
      rewrite <- Ek in E2. unfold adm in E2. destruct (Rle_dec lim (nth k r 0)) as [|NL]; [discriminate|].
      exists (S k). simpl nth. rewrite Ek. repeat split.
      + destruct (Nat.lt_ge_cases k i) as [L|L]; [lia|]. exfalso.
        assert (nth i r 0 <= nth k r 0) by (apply (HS (S i) (S k)); simpl; lia). lra.
      + right. rewrite <- Ek. lra. }
  assert (LU : forall t, In t (0 :: r) -> t < lim -> t <= last_adm lim r).
  { intros t [<-|Ht] H.
    - unfold last_adm. exact (proj1 (fold_Rmax_ge (filter (adm lim) r) 0)).
    - unfold last_adm. apply (proj2 (fold_Rmax_ge (filter (adm lim) r) 0)). apply filter_In. split; auto.
      unfold adm. destruct (Rle_dec lim t); auto; lra. }
  assert (NTH : forall i, (i < length r)%nat ->
      nth (S i) (clampR lim r) 0 = if adm lim (nth i r 0) then nth i r 0 else last_adm lim r).
  { intros i Hi. unfold clampR. cbn [nth]. now rewrite nth_map_in with (d := 0). }
  assert (L0 : 0 <= last_adm lim r) by exact (proj1 (fold_Rmax_ge (filter (adm lim) r) 0)).
  cbv zeta. repeat split.
  - unfold clampR. simpl. now rewrite map_length.
  - intros [|i] [|j] Hij Hj.
    + lra.
    + assert (Hj' : (j < length r)%nat) by (unfold clampR in Hj; simpl in Hj; rewrite map_length in Hj; lia).
      rewrite NTH by auto. cbn [clampR nth]. destruct (adm lim (nth j r 0)); auto. apply NN. now apply nth_In.
    + lia.
    + assert (Hj' : (j < length r)%nat) by (unfold clampR in Hj; simpl in Hj; rewrite map_length in Hj; lia).
      rewrite !NTH by lia.
      assert (O : nth i r 0 <= nth j r 0) by (apply (HS (S i) (S j)); simpl; lia).
      unfold adm. destruct (Rle_dec lim (nth i r 0)), (Rle_dec lim (nth j r 0)); try lra.
      apply LU; [right; apply nth_In; lia|lra].
  - intros [|i] Hi; [simpl; lra|]. assert (Hi' : (i < length r)%nat) by lia. rewrite NTH by auto. simpl nth.
    unfold adm. destruct (Rle_dec lim (nth i r 0)) as [L|L]; [|lra].
    destruct (LA i Hi' L) as [k [Hk [_ ->]]]. apply (HS k (S i)); simpl; lia.
  - intros [|i] Hi Hl; [reflexivity|]. rewrite NTH by lia. simpl nth in *. unfold adm.
    destruct (Rle_dec lim (nth i r 0)); auto; lra.
  - intros [|i] Hi Hl; [lia|]. assert (Hi' : (i < length r)%nat) by lia. simpl nth in Hl.
    destruct (LA i Hi' Hl) as [k [Hk [Hk2 E]]]. exists k. rewrite NTH by auto. unfold adm.
    destruct (Rle_dec lim (nth i r 0)) as [_|]; [|lra]. repeat split; auto; [lia|].
    intros j Hj Hlt. apply LU; auto. apply nth_In. simpl. lia.
Qed.

(** when no entry is too close the row is untouched, which is what clampR says too *)
Lemma too_close_none tm tb r :
  existsb (fun b => b) (too_close_row (Fin tm) (Fin tb) (map Fin (0 :: r))) = false -> clampR (tm - tb) r = 0 :: r.
Proof.
  cbn [map too_close_row existsb orb]. rewrite existsb_map. rewrite existsb_map. intros H. unfold clampR. f_equal.
  rewrite <- map_id. apply map_ext_in. intros t Ht. unfold adm. destruct (Rle_dec (tm - tb) t) as [L|L]; auto.
  exfalso. assert (existsb (fun x => nge (Fin x) (nsub (Fin tm) (Fin tb))) r = true).
  { apply existsb_exists. exists t. split; auto. rewrite nsub_fin. unfold nge. now apply nle_fin. }
  congruence.
Qed.
Lemma avoid_clamp_map {X} (tm : X -> R) tb (r : X -> list R) xs :
  (forall x t, In x xs -> In t (r x) -> 0 <= t) ->
  avoid_merger_clamp (map (fun x => Fin (tm x)) xs) (Fin tb) (map (fun x => map Fin (0 :: r x)) xs)
  = Ok (map (fun x => map Fin (clampR (tm x - tb) (r x))) xs).
Proof.
  intros Hr. unfold avoid_merger_clamp. rewrite bzip_map. cbn [rbind].
  rewrite existsb_map. replace (existsb _ xs) with false.
  2:{ symmetry. clear. induction xs; simpl; auto. }
  rewrite existsb_map. destruct (existsb _ xs) eqn:E.
  - rewrite !map_length, Nat.eqb_refl. rewrite map2_map. f_equal. apply map_ext_in. intros x Hx. apply clamp_row_fin. intros t Ht. eapply Hr; eauto.
  - f_equal. apply map_ext_in. intros x Hx. rewrite (too_close_none (tm x) tb (r x)); auto.
    destruct (existsb (fun b => b) (too_close_row (Fin (tm x)) (Fin tb) (map Fin (0 :: r x)))) eqn:E2; auto.
    assert (existsb (fun x => existsb (fun b => b) (too_close_row (Fin (tm x)) (Fin tb) (map Fin (0 :: r x)))) xs = true).
    { apply existsb_exists. eauto. }
    congruence.
Qed.

(** ** C25 *)
Lemma set_nth_length {A} i (x : A) l : length (set_nth i x l) = length l.
Proof. revert i. induction l; intros [|i]; simpl; auto. Qed.
Lemma set_nth_nth {A} i (x : A) l j : (i < length l)%nat ->
  nth_error (set_nth i x l) j = if (j =? i)%nat then Some x else nth_error l j.
Proof.
  revert i j. induction l as [|y l IH]; intros [|i] [|j] H; simpl in *; auto; try lia.
  rewrite IH by lia. reflexivity.
Qed.
Lemma pool_fold {A B} (f : A -> B) tasks sched slots : length slots = length tasks ->
  (forall i b, nth_error slots i = Some (Some b) -> exists a, nth_error tasks i = Some a /\ b = f a) ->
  let slots' := fold_left (fun slots i => match nth_error tasks i with
                            | Some a => set_nth i (Some (f a)) slots | None => slots end) sched slots in
  length slots' = length tasks /\
  forall i a, nth_error tasks i = Some a -> (In i sched \/ nth_error slots i = Some (Some (f a))) ->
    nth_error slots' i = Some (Some (f a)).
Proof.
  revert slots. induction sched as [|k sched IH]; intros slots HL HI; simpl.
  - split; auto. intros i a Ha [[]|H]; auto.
  - destruct (nth_error tasks k) as [a0|] eqn:Ek.
    + assert (Hk : (k < length slots)%nat) by (rewrite HL; apply nth_error_Some; congruence).
      destruct (IH (set_nth k (Some (f a0)) slots)) as [A1 A2].
      * now rewrite set_nth_length.
      * intros i b. rewrite set_nth_nth by auto. destruct (i =? k)%nat eqn:E; [|apply HI].
        apply Nat.eqb_eq in E. subst. intros H. inversion H. exists a0. auto.
      * split; auto. intros i a Ha H. apply A2; auto. rewrite set_nth_nth by auto.
        destruct (i =? k)%nat eqn:E.
        -- apply Nat.eqb_eq in E. subst. right. congruence.
        -- apply Nat.eqb_neq in E. destruct H as [[H|H]|H]; auto. congruence.
    + destruct (IH slots HL HI) as [A1 A2]. split; auto. intros i a Ha H. apply A2; auto.
      destruct H as [[H|H]|H]; auto. subst. congruence.
Qed.
Lemma all_done_map {B} (l : list B) : all_done (map Some l) = Some l.
Proof. induction l; simpl; auto. now rewrite IHl. Qed.
Lemma pool_map_complete {A B} (f : A -> B) tasks sched : complete_schedule (length tasks) sched ->
  all_done (pool_map f tasks sched) = Some (map f tasks).
Proof.
  intros HC. unfold pool_map.
  destruct (pool_fold f tasks sched (map (fun _ => None) tasks)) as [A1 A2].
  - apply map_length.
  - intros i b H. rewrite nth_error_map in H. destruct (nth_error tasks i); discriminate.
  - rewrite <- all_done_map. f_equal. rewrite map_map. apply nth_error_ext. intros i.
    rewrite nth_error_map. destruct (nth_error tasks i) as [a|] eqn:E.
    + rewrite (A2 i a E); auto. left. apply HC. apply nth_error_Some. congruence.
    + apply nth_error_None. rewrite A1. now apply nth_error_None.
Qed.
Lemma zip4_length e ts b c : length (zip4 e ts b c) = Nat.min (length e) (Nat.min (length ts) (Nat.min (length b) (length c))).
Proof. revert ts b c; induction e as [|x e IH]; intros [|t ts] [|y b] [|z c]; simpl; auto; lia. Qed.
Lemma integrate_serial odeint tasks :
  map (integrate_de_dt odeint) tasks = map (fun q => let '(e, t, b, c) := q in odeint (de_dt b c) e t) tasks.
Proof. apply map_ext. intros [[[e t] b] c]. reflexivity. Qed.

(** Any number of processes and any complete schedule reproduce a successful single-process run. *)
Lemma evol_ecc_pool quad odeint sched sched1 ecc_i t_evol n ts b m1 m2 a f vars n_proc am ex tb tm r :
  evol_ecc quad odeint sched1 ecc_i t_evol n ts b m1 m2 a f vars 1 am ex tb tm = Ok r ->
  (forall k, arr_of (fst (ensure_array_one ecc_i)) = Some k -> complete_schedule (length k) sched) ->
  evol_ecc quad odeint sched ecc_i t_evol n ts b m1 m2 a f vars n_proc am ex tb tm = Ok r.
Proof.
  intros H HS. unfold evol_ecc in *. rewrite ensure_array_map in *. cbn [map] in *.
  destruct (check_arr _ _ _ _ _) as [ba|]; cbn [rbind] in *; [|exact H].
  destruct (any_in _ vars && _); [exact H|].
  destruct (arr_of (fst (ensure_array_one ecc_i))) as [ecc|] eqn:EE; [|exact H].
  destruct (bzip c_0 (snd ba) ecc) as [c0|]; cbn [rbind] in *; [|exact H].
  destruct (create_timesteps_array _ _ _ _ _ _ _) as [ts0|]; cbn [rbind] in *; [|exact H].
  destruct (if am then _ else Ok ts0) as [tsx|]; cbn [rbind] in *; [|exact H].
  change (1 <? 1)%nat with false in H. cbv iota in H.
  destruct (negb _) eqn:EL; [discriminate|].
  destruct (1 <? n_proc)%nat.
  - rewrite pool_map_complete.
    + rewrite integrate_serial. exact H.
    + intros i Hi. apply (HS ecc eq_refl). rewrite zip4_length in Hi. lia.
  - exact H.
Qed.
