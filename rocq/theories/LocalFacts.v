(** LocalFacts.v -- evol_circ and evol_ecc treat every source independently (C74). *)
From Coq Require Import String Reals ZArith List Bool Lra Lia.
From Verif Require Import Num NumFacts Np NpFacts Utils UtilsFacts Evol EvolSpec EvolFacts ArrEvolFacts EccEvolFacts.
Import ListNotations.
Open Scope R_scope.

Lemma steps_local quad t_evol n ts : shared_steps t_evol ts ->
  exists fr : num -> num -> num -> list num,
  (forall e a b, match ts with S1 l => fr e a b = l | _ => length (fr e a b) = n end) /\
  forall (X : Type) (e a b : X -> num) (xs : list X),
    (forall x, In x xs -> exists r, e x = Fin r /\ 0 <= r <= 1) ->
    create_timesteps_array quad (map a xs) (map b xs) (map e xs) t_evol n ts = Ok (map (fun x => fr (e x) (a x) (b x)) xs).
Proof.
  intros [H1 H2]. destruct ts as [|l|l]; [|exists (fun _ _ _ => l)|exfalso; eapply H2; eauto].
  - destruct t_evol as [|t|l].
    + exists (fun e a b => linspace0 (get_t_merge_ecc_sc_core quad e a b small_e_tol_default large_e_tol_default true) n).
      split; [intros; apply linspace0_length|].
      intros X e a b xs He. unfold create_timesteps_array, get_t_merge_ecc, check_arr, check_mass_freq_input.
      cbn [rbind fst snd]. unfold small_e_tol_default, large_e_tol_default. rewrite merge_core_map by (auto; lra).
      cbn [rbind]. now rewrite map_map.
    + exists (fun _ _ _ => linspace0 t n). split; [intros; apply linspace0_length|].
      intros X e a b xs He. unfold create_timesteps_array. cbn [rbind].
      rewrite map_length, np_repeat_map. now rewrite map_map.
    + exfalso. eapply H1; eauto.
  - split; [reflexivity|]. intros X e a b xs He. unfold create_timesteps_array. now rewrite map_length, np_repeat_map.
Qed.

(** *** evol_circ *)
Lemma circ_local quad t_evol n ts (X : Type) (m1 m2 a : X -> num) (xs : list X) var : shared_steps t_evol ts ->
  In var ["timesteps"; "a"; "f_orb"; "f_GW"]%string ->
  exists row : X -> list num,
    evol_circ quad t_evol n ts PNone (PQArr (map m1 xs) tt) (PQArr (map m2 xs) tt) (PQArr (map a xs) tt) PNone [var]
    = Ok (Single (E2 (map row xs))) /\
    forall x, evol_circ quad t_evol n ts PNone (PQScalar (m1 x) tt) (PQScalar (m2 x) tt) (PQScalar (a x) tt) PNone [var]
              = Ok (Single (E1 (row x))).
Proof.
  intros HS HV. destruct (steps_local quad t_evol n ts HS) as [fr [_ HF]].
  set (fb := fun x => beta (m1 x) (m2 x)). set (rr := fun x => fr (Fin 0) (a x) (fb x)).
  assert (Z : forall xs : list X, create_timesteps_array quad (map a xs) (map fb xs) (map (fun _ => Fin 0) (map a xs)) t_evol n ts
              = Ok (map rr xs)).
  { intros l. rewrite map_map. apply (HF X (fun _ => Fin 0) a fb l). intros x _. exists 0. split; auto; lra. }
  assert (ARR : forall vars, evol_circ quad t_evol n ts PNone (PQArr (map m1 xs) tt) (PQArr (map m2 xs) tt) (PQArr (map a xs) tt) PNone vars
    = _) by (intros vars; eapply (evol_circ_eval quad t_evol n ts _ _ _ _ _ _ _ _ _ _ _ vars X xs fb a m1 m2 rr);
             [reflexivity| |reflexivity|reflexivity|apply Z];
             unfold check_arr, check_mass_freq_input; cbn; unfold beta_arr; now rewrite bzip_map).
  assert (SC : forall x vars, evol_circ quad t_evol n ts PNone (PQScalar (m1 x) tt) (PQScalar (m2 x) tt) (PQScalar (a x) tt) PNone vars
    = _) by (intros x vars; eapply (evol_circ_eval quad t_evol n ts _ _ _ _ _ _ _ _ _ _ _ vars X [x] fb a m1 m2 rr);
             [reflexivity|reflexivity|reflexivity|reflexivity|apply (Z [x])]).
  destruct HV as [<-|[<-|[<-|[<-|[]]]]].
  - exists rr. split; [rewrite ARR; reflexivity|]. intros x. rewrite SC. cbn. now rewrite app_nil_r.
  - exists (fun x => map (circ_a_elem (a x) (fb x)) (rr x)). split; [rewrite ARR; reflexivity|].
    intros x. rewrite SC. cbn. now rewrite app_nil_r.
  - exists (fun x => map (fun t => freq_of_a (m1 x) (m2 x) (circ_a_elem (a x) (fb x) t)) (rr x)).
    split; [rewrite ARR; reflexivity|]. intros x. rewrite SC. cbn. now rewrite app_nil_r.
  - exists (fun x => map (nmul (Fin 2)) (map (fun t => freq_of_a (m1 x) (m2 x) (circ_a_elem (a x) (fb x) t)) (rr x))).
    split; [rewrite ARR; cbn; now rewrite map_map|]. intros x. rewrite SC. cbn. now rewrite app_nil_r.
Qed.

(** *** evol_ecc *)
Lemma clamp_row_id tm tb row : existsb (fun b => b) (too_close_row tm tb row) = false ->
  clamp_row (too_close_row tm tb row) row = row.
Proof.
  unfold clamp_row. intros H.
  assert (L : length (too_close_row tm tb row) = length row).
  { destruct row; simpl; auto. now rewrite map_length. }
  generalize dependent (too_close_row tm tb row). intros mask H L.
  assert (M : forall p, map2 (fun (b : bool) t => if b then p else t) mask row = row).
  { intros p. revert row L H. induction mask as [|b mask IH]; intros [|t row] L H; simpl in *; try discriminate; auto.
    destruct b; [discriminate|]. f_equal. apply IH; auto. }
  rewrite M. apply M.
Qed.
Lemma avoid_clamp_local {X} (tm : X -> num) tb (r : X -> list num) xs : (forall x, In x xs -> r x <> []) ->
  avoid_merger_clamp (map tm xs) tb (map r xs)
  = Ok (map (fun x => clamp_row (too_close_row (tm x) tb (r x)) (r x)) xs).
Proof.
  intros Hn. unfold avoid_merger_clamp. rewrite bzip_map. cbn [rbind]. rewrite existsb_map.
  replace (existsb _ xs) with false.
  2:{ symmetry. clear - Hn. induction xs as [|x xs IH]; simpl; auto. destruct (r x) eqn:E.
      - exfalso. apply (Hn x); simpl; auto.
      - apply IH. intros; apply Hn; simpl; auto. }
  rewrite existsb_map. destruct (existsb _ xs) eqn:E.
  - rewrite !map_length, Nat.eqb_refl. now rewrite map2_map.
  - f_equal. apply map_ext_in. intros x Hx. symmetry. apply clamp_row_id.
    destruct (existsb (fun b => b) (too_close_row (tm x) tb (r x))) eqn:E2; auto.
    assert (existsb (fun x => existsb (fun b => b) (too_close_row (tm x) tb (r x))) xs = true) by (apply existsb_exists; eauto).
    congruence.
Qed.
Lemma ecc_local quad odeint sched sched1 t_evol n ts n_proc am ex tb (X : Type) (ec m1 m2 a : X -> num) (xs : list X) var :
  shared_steps t_evol ts -> (1 <= n)%nat -> ts <> S1 [] ->
  (forall x, exists r, ec x = Fin r /\ 0 <= r <= 1) ->
  complete_schedule (length xs) sched -> complete_schedule 1 sched1 ->
  In var ["timesteps"; "ecc"; "a"; "f_orb"; "f_GW"]%string ->
  exists row : X -> list num,
    evol_ecc quad odeint sched (PArr (map ec xs)) t_evol n ts PNone (PQArr (map m1 xs) tt) (PQArr (map m2 xs) tt)
             (PQArr (map a xs) tt) PNone [var] n_proc am ex tb None
    = Ok (Single (E2 (map row xs)), ts) /\
    forall x, evol_ecc quad odeint sched1 (POther (ec x)) t_evol n ts PNone (PQScalar (m1 x) tt) (PQScalar (m2 x) tt)
             (PQScalar (a x) tt) PNone [var] n_proc am ex tb None
              = Ok (Single (E1 (row x)), ts).
Proof.
  intros HS Hn Hts He HC HC1 HV. destruct (steps_local quad t_evol n ts HS) as [fr [FL HF]].
  set (fb := fun x => beta (m1 x) (m2 x)). set (rr := fun x => fr (ec x) (a x) (fb x)).
  set (tmx := fun x => get_t_merge_ecc_sc_core quad (ec x) (a x) (fb x) small_e_tol_default large_e_tol_default ex).
  set (gr := fun x => if am then clamp_row (too_close_row (tmx x) tb (rr x)) (rr x) else rr x).
  assert (NE : forall x, rr x <> []).
  { intros x E. specialize (FL (ec x) (a x) (fb x)). fold (rr x) in FL. rewrite E in FL.
    destruct ts; simpl in FL; try lia. congruence. }
  assert (FS : forall l : list X, final_steps quad (map ec l) (map a l) (map fb l) am ex tb None (map rr l) = Ok (map gr l)).
  { intros l. unfold final_steps, gr. destruct am; auto.
    unfold get_t_merge_ecc, check_arr, check_mass_freq_input. cbn [rbind fst snd].
    unfold small_e_tol_default, large_e_tol_default. rewrite merge_core_map; [|lra|intros; apply He].
    cbn [rbind]. apply avoid_clamp_local. intros x _. apply NE. }
  assert (TE : match ts with S2 _ => S2 (map gr xs) | x => x end = ts).
  { destruct ts; auto. destruct HS as [_ HS]. exfalso. eapply HS; eauto. }
  assert (TE1 : forall x, match ts with S2 _ => S2 (map gr [x]) | x => x end = ts).
  { intros x. destruct ts; auto. destruct HS as [_ HS]. exfalso. eapply HS; eauto. }
  assert (ARR : forall vars, evol_ecc quad odeint sched (PArr (map ec xs)) t_evol n ts PNone (PQArr (map m1 xs) tt) (PQArr (map m2 xs) tt)
             (PQArr (map a xs) tt) PNone vars n_proc am ex tb None = _)
   by (intros vars; eapply (evol_ecc_eval quad odeint sched n_proc t_evol n ts _ _ _ _ _ _ _ _ _ _ _ _ _ vars am ex tb None
        X xs ec fb a (Some m1) (Some m2) _ gr);
        [reflexivity| unfold check_arr, check_mass_freq_input; cbn; unfold beta_arr; now rewrite bzip_map
        |reflexivity|reflexivity|reflexivity|apply HF; intros; apply He|apply FS|intros; assumption]).
  assert (SC : forall x vars, evol_ecc quad odeint sched1 (POther (ec x)) t_evol n ts PNone (PQScalar (m1 x) tt) (PQScalar (m2 x) tt)
             (PQScalar (a x) tt) PNone vars n_proc am ex tb None = _)
   by (intros x vars; eapply (evol_ecc_eval quad odeint sched1 n_proc t_evol n ts _ _ _ _ _ _ _ _ _ _ _ _ _ vars am ex tb None
        X [x] ec fb a (Some m1) (Some m2) _ gr);
        [reflexivity|reflexivity|reflexivity|reflexivity|reflexivity|apply HF; intros; apply He|apply (FS [x])|intros; assumption]).
  destruct HV as [<-|[<-|[<-|[<-|[<-|[]]]]]].
  - exists gr. split; [rewrite ARR; cbn; now rewrite TE|]. intros x. rewrite SC, TE1. cbn. now rewrite app_nil_r.
  - exists (fun x => ecc_row odeint (ec x) (a x) (fb x) (gr x)).
    split; [rewrite ARR; cbn; now rewrite TE|]. intros x. rewrite SC, TE1. cbn. now rewrite app_nil_r.
  - exists (fun x => sep_row odeint (ec x) (a x) (fb x) (gr x)).
    split; [rewrite ARR; cbn; now rewrite TE|]. intros x. rewrite SC, TE1. cbn. now rewrite app_nil_r.
  - exists (fun x => freq_row odeint (m1 x) (m2 x) (ec x) (a x) (fb x) (gr x)).
    split; [rewrite ARR; cbn; now rewrite TE|]. intros x. rewrite SC, TE1. cbn. now rewrite app_nil_r.
  - exists (fun x => map (nmul (Fin 2)) (freq_row odeint (m1 x) (m2 x) (ec x) (a x) (fb x) (gr x))).
    split; [rewrite ARR; cbn; now rewrite map_map, TE|]. intros x. rewrite SC, TE1. cbn. now rewrite app_nil_r.
Qed.
