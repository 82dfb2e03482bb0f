(** EccEvolFacts.v -- evaluation of evol_ecc on arrays, aliasing and output variables. *)
From Coq Require Import String Reals ZArith List Bool Lra Lia.
From Coquelicot Require Import Coquelicot.
From Verif Require Import Num NumFacts Np NpFacts Utils Spec UtilsFacts Evol EvolSpec EvolFacts MergeFacts ArrEvolFacts.
Import ListNotations.
Open Scope R_scope.

Definition ecc_var (single : bool) (ts e_evol a_evol f_evol : list (list num)) (var : string) : list evo :=
  if String.eqb var "timesteps" then [shape single ts]
  else if String.eqb var "ecc" then [shape single e_evol]
  else if String.eqb var "a" then [shape single a_evol]
  else if String.eqb var "f_orb" then [shape single f_evol]
  else if String.eqb var "f_GW" then [shape single (map (map (nmul (Fin 2))) f_evol)]
  else [].
(** the trajectory of one source *)
Definition ecc_row (odeint : odeint_t) (e a b : num) (ts : list num) : list num :=
  map nan_to_num (odeint (de_dt b (c_0 a e)) e ts).
Definition sep_row odeint e a b ts : list num := map (fun x => get_a_from_ecc x (c_0 a e)) (ecc_row odeint e a b ts).
Definition freq_row odeint m1 m2 e a b ts : list num := map (freq_of_a m1 m2) (sep_row odeint e a b ts).

Lemma zip4_map {X} (e : X -> num) (t : X -> list num) (b c : X -> num) xs :
  zip4 (map e xs) (map t xs) (map b xs) (map c xs) = map (fun x => (e x, t x, b x, c x)) xs.
Proof. induction xs; simpl; congruence. Qed.

Definition final_steps quad ecc a_i beta (am ex : bool) (tb : num) (tm : option (list num)) (ts0 : list (list num)) :=
  if am then
    (tm <- match tm with
           | None => get_t_merge_ecc quad ecc (Some a_i) None (Some beta) None None small_e_tol_default large_e_tol_default ex
           | Some tm => Ok tm
           end ;;
     avoid_merger_clamp tm tb ts0)%res
  else Ok ts0.

Lemma evol_ecc_eval quad odeint sched n_proc t_evol n ts (b m1 m2 a f ec b' m1' m2' a' f' ec' : pyval num unit) single vars
      am ex tb tm (X : Type) (xs : list X) (fe fb fa : X -> num) (om1 om2 : option (X -> num)) (ts0 : list (list num))
      (gr : X -> list num) :
  ensure_array [m1; m2; b; a; f; ec] = ([m1'; m2'; b'; a'; f'; ec'], single) ->
  check_arr (arr_of b') (arr_of m1') (arr_of m2') (arr_of a') (arr_of f') = Ok (map fb xs, map fa xs) ->
  arr_of m1' = omap xs om1 -> arr_of m2' = omap xs om2 -> arr_of ec' = Some (map fe xs) ->
  create_timesteps_array quad (map fa xs) (map fb xs) (map fe xs) t_evol n ts = Ok ts0 ->
  final_steps quad (map fe xs) (map fa xs) (map fb xs) am ex tb tm ts0 = Ok (map gr xs) ->
  ((1 < n_proc)%nat -> complete_schedule (length xs) sched) ->
  evol_ecc quad odeint sched ec t_evol n ts b m1 m2 a f vars n_proc am ex tb tm =
  if any_in ["f_orb"; "f_GW"]%string vars && negb (isSome om1 && isSome om2) then Err ValueError
  else
    (out <- pack (flat_map (ecc_var single (map gr xs)
       (map (fun x => ecc_row odeint (fe x) (fa x) (fb x) (gr x)) xs)
       (if any_in ["a"; "f_orb"; "f_GW"]%string vars
        then map (fun x => sep_row odeint (fe x) (fa x) (fb x) (gr x)) xs else [])
       (if any_in ["f_orb"; "f_GW"]%string vars
        then match om1, om2 with
             | Some u, Some v => map (fun x => freq_row odeint (u x) (v x) (fe x) (fa x) (fb x) (gr x)) xs
             | _, _ => [] end
        else [])) vars) ;;
     Ok (out, match ts with S2 _ => S2 (map gr xs) | x => x end))%res.
Proof.
  intros HE HC H1 H2 Hec HT HF HS. unfold evol_ecc. rewrite HE, HC. cbn [rbind fst snd]. rewrite H1, H2, Hec.
  assert (EM : match omap xs om1 with Some _ => match omap xs om2 with Some _ => true | None => false end | None => false end
               = isSome om1 && isSome om2) by (destruct om1, om2; reflexivity).
  rewrite EM. destruct (any_in ["f_orb"; "f_GW"]%string vars) eqn:WF; cbn [andb].
  - destruct (isSome om1 && isSome om2) eqn:EI; cbn [negb]; [|reflexivity].
    rewrite bzip_map. cbn [rbind]. rewrite HT. cbn [rbind].
    unfold final_steps in HF. rewrite HF. cbn [rbind].
    assert (WA : any_in ["a"; "f_orb"; "f_GW"]%string vars = true).
    { unfold any_in in *. rewrite existsb_exists in *. destruct WF as [v [Hv Hx]]. exists v. split; auto.
      cbn [existsb] in *. rewrite Hx. apply orb_true_r. }
    rewrite WA. rewrite zip4_map.
    replace (if (1 <? n_proc)%nat then _ else _) with
      (Ok (map (fun x => odeint (de_dt (fb x) (c_0 (fa x) (fe x))) (fe x) (gr x)) xs) : res (list (list num))).
    2:{ destruct (1 <? n_proc)%nat eqn:E1.
        - rewrite pool_map_complete; [|rewrite map_length; apply HS; now apply Nat.ltb_lt]. now rewrite map_map.
        - rewrite !map_length, !Nat.leb_refl. cbn [andb negb]. now rewrite map_map. }
    cbn [rbind]. rewrite map_map. rewrite bzip2_rows_col. cbn [rbind].
    destruct om1 as [u|], om2 as [v|]; try discriminate. cbn [omap option_map].
    rewrite freq_rows_map. cbn [rbind]. reflexivity.
  - rewrite bzip_map. cbn [rbind]. rewrite HT. cbn [rbind].
    unfold final_steps in HF. rewrite HF. cbn [rbind]. rewrite zip4_map.
    replace (if (1 <? n_proc)%nat then _ else _) with
      (Ok (map (fun x => odeint (de_dt (fb x) (c_0 (fa x) (fe x))) (fe x) (gr x)) xs) : res (list (list num))).
    2:{ destruct (1 <? n_proc)%nat eqn:E1.
        - rewrite pool_map_complete; [|rewrite map_length; apply HS; now apply Nat.ltb_lt]. now rewrite map_map.
        - rewrite !map_length, !Nat.leb_refl. cbn [andb negb]. now rewrite map_map. }
    cbn [rbind]. rewrite map_map.
    destruct (any_in ["a"; "f_orb"; "f_GW"]%string vars).
    + rewrite bzip2_rows_col. cbn [rbind]. reflexivity.
    + reflexivity.
Qed.

(** ** C26 *)
(** time steps other than a 2-D array are never written to *)
Lemma evol_ecc_frame quad odeint sched ec t_evol n ts b m1 m2 a f vars n_proc am ex tb tm out ts' :
  (forall l, ts <> S2 l) ->
  evol_ecc quad odeint sched ec t_evol n ts b m1 m2 a f vars n_proc am ex tb tm = Ok (out, ts') -> ts' = ts.
Proof.
  intros Hts. unfold evol_ecc. rewrite ensure_array_map. cbn [map].
  destruct (check_arr _ _ _ _ _) as [ba|]; cbn [rbind]; [|discriminate].
  destruct (any_in _ vars && _); [discriminate|].
  destruct (arr_of (fst (ensure_array_one ec))); [|discriminate].
  destruct (bzip c_0 _ _); cbn [rbind]; [|discriminate].
  destruct (create_timesteps_array _ _ _ _ _ _ _); cbn [rbind]; [|discriminate].
  destruct (if am then _ else _); cbn [rbind]; [|discriminate].
  destruct (if (1 <? n_proc)%nat then _ else _); cbn [rbind]; [|discriminate].
  destruct (if any_in _ vars then bzip2 _ _ _ else _); cbn [rbind]; [|discriminate].
  destruct (if any_in _ vars then _ else Ok []); cbn [rbind]; [|discriminate].
  destruct (pack _); cbn [rbind]; [|discriminate].
  intros H. inversion H. destruct ts; auto. exfalso. eapply Hts; eauto.
Qed.
(** without avoid_merger nothing is written either *)
Lemma evol_ecc_frame_no_avoid quad odeint sched ec t_evol n ts b m1 m2 a f vars n_proc ex tb tm out ts' :
  evol_ecc quad odeint sched ec t_evol n ts b m1 m2 a f vars n_proc false ex tb tm = Ok (out, ts') -> ts' = ts.
Proof.
  unfold evol_ecc. rewrite ensure_array_map. cbn [map].
  destruct (check_arr _ _ _ _ _) as [ba|]; cbn [rbind]; [|discriminate].
  destruct (any_in _ vars && _); [discriminate|].
  destruct (arr_of (fst (ensure_array_one ec))); [|discriminate].
  destruct (bzip c_0 _ _); cbn [rbind]; [|discriminate].
  destruct (create_timesteps_array _ _ _ _ _ _ _) as [ts0|] eqn:ET; cbn [rbind]; [|discriminate].
  destruct (if (1 <? n_proc)%nat then _ else _); cbn [rbind]; [|discriminate].
  destruct (if any_in _ vars then bzip2 _ _ _ else _); cbn [rbind]; [|discriminate].
  destruct (if any_in _ vars then _ else Ok []); cbn [rbind]; [|discriminate].
  destruct (pack _); cbn [rbind]; [|discriminate].
  intros H. inversion H. destruct ts; auto. simpl in ET. inversion ET. reflexivity.
Qed.

(** a call that overwrites its 2-D argument: one source, steps 0, 1 s, 2 s, merger at 1 s *)
Lemma evol_ecc_overwrites quad odeint :
  exists out, evol_ecc quad odeint [] (PArr [Fin (1/2)]) TNone 3 (S2 [map Fin (0 :: [1; 2])])
      (PQArr [Fin 1] tt) PNone PNone (PQArr [Fin 1] tt) PNone ["timesteps"%string] 1 true true (Fin 0) (Some [Fin 1])
    = Ok (out, S2 [map Fin [0; 0; 0]]).
Proof.
  eexists. erewrite (evol_ecc_eval quad odeint [] 1 TNone 3 (S2 [map Fin (0 :: [1; 2])]) _ _ _ _ _ _ _ _ _ _ _ _ _
    ["timesteps"%string] true true (Fin 0) (Some [Fin 1]) unit [tt] (fun _ => Fin (1/2)) (fun _ => Fin 1) (fun _ => Fin 1)
    None None _ (fun _ => map Fin (clampR (1 - 0) [1; 2]))); try reflexivity.
  - cbn [any_in existsb String.eqb Ascii.eqb Bool.eqb orb andb flat_map]. cbn -[clampR].
    assert (E : clampR (1 - 0) [1; 2] = [0; 0; 0]).
    { unfold clampR, last_adm, adm. cbn [map filter]. 
      destruct (Rle_dec (1 - 0) 1); [|lra]. destruct (Rle_dec (1 - 0) 2); [|lra]. reflexivity. }
    rewrite E. reflexivity.
  - unfold final_steps. cbn [rbind].
    exact (avoid_clamp_map (fun _ : unit => 1) 0 (fun _ => [1; 2]) [tt]
             ltac:(intros x t _ [<-|[<-|[]]]; lra)).
  - intros H. lia.
Qed.

(** ** C25: broadcasting inputs are where the two paths differ *)
Lemma evol_ecc_pool_truncates quad odeint :
  evol_ecc quad odeint [0%nat] (PArr [Fin (1/2); Fin (1/4)]) TNone 3 (S1 [Fin 0; Fin 1])
      (PQArr [Fin 1] tt) PNone PNone (PQArr [Fin 1] tt) PNone ["ecc"%string] 1 false true (Fin 0) None
    = Err IndexError /\
  evol_ecc quad odeint [0%nat] (PArr [Fin (1/2); Fin (1/4)]) TNone 3 (S1 [Fin 0; Fin 1])
      (PQArr [Fin 1] tt) PNone PNone (PQArr [Fin 1] tt) PNone ["ecc"%string] 2 false true (Fin 0) None
    = Ok (Single (E2 [ecc_row odeint (Fin (1/2)) (Fin 1) (Fin 1) [Fin 0; Fin 1]]), S1 [Fin 0; Fin 1]).
Proof. split; reflexivity. Qed.

(** ** C27 *)
Lemma shape_double single x : shape single (map (map (nmul (Fin 2))) x) = double_evo (shape single x).
Proof. unfold shape. destruct single; simpl; auto. now rewrite concat_map. Qed.
Lemma flat_map_ext_in {A B} (f g : A -> list B) l : (forall x, In x l -> f x = g x) -> flat_map f l = flat_map g l.
Proof. induction l; simpl; auto. intros H. rewrite H by auto. f_equal. auto. Qed.
Lemma any_in_true names vars v : In v vars -> In v names -> any_in names vars = true.
Proof.
  intros Hv Hn. unfold any_in. apply existsb_exists. exists v. split; auto. apply existsb_exists. exists v. split; auto.
  apply String.eqb_refl.
Qed.

Lemma circ_outputs quad t_evol n ts (b m1 m2 a f b' m1' m2' a' f' : pyval num unit) single
      (X : Type) (xs : list X) (fb fa fm1 fm2 : X -> num) (fr : X -> list num) :
  ensure_array [m1; m2; b; a; f] = ([m1'; m2'; b'; a'; f'], single) ->
  check_arr (arr_of b') (arr_of m1') (arr_of m2') (arr_of a') (arr_of f') = Ok (map fb xs, map fa xs) ->
  arr_of m1' = Some (map fm1 xs) -> arr_of m2' = Some (map fm2 xs) ->
  create_timesteps_array quad (map fa xs) (map fb xs) (map (fun _ => Fin 0) (map fa xs)) t_evol n ts = Ok (map fr xs) ->
  exists value : string -> option evo,
    (forall vars, evol_circ quad t_evol n ts b m1 m2 a f vars = collect value vars) /\
    value "timesteps"%string = Some (shape single (map fr xs)) /\
    (exists rows, value "a"%string = Some (shape single rows)) /\
    (exists rows, value "f_orb"%string = Some (shape single rows) /\
                  value "f_GW"%string = Some (double_evo (shape single rows))) /\
    (forall v, ~ In v ["timesteps"; "a"; "f_orb"; "f_GW"]%string -> value v = None).
Proof.
  intros HE HC H1 H2 HT.
  set (A := map (fun x => map (circ_a_elem (fa x) (fb x)) (fr x)) xs).
  set (F := map (fun x => map (fun t => freq_of_a (fm1 x) (fm2 x) (circ_a_elem (fa x) (fb x) t)) (fr x)) xs).
  exists (fun v => match circ_var single (map fr xs) A F v with [x] => Some x | _ => None end).
  split; [|split; [|split; [|split]]].
  - intros vars. rewrite (evol_circ_eval _ _ _ _ _ _ _ _ _ _ _ _ _ _ _ vars X xs fb fa fm1 fm2 fr HE HC H1 H2 HT).
    unfold collect, pack. fold A. fold F.
    rewrite (flat_map_ext_in _ (fun v => match match circ_var single (map fr xs) A F v with [x] => Some x | _ => None end
                                         with Some x => [x] | None => [] end)); [destruct (flat_map _ vars) as [|x [|y l]]; reflexivity|].
    intros v Hv. unfold circ_var.
    destruct (String.eqb v "timesteps") eqn:E1; auto. destruct (String.eqb v "a") eqn:E2; auto.
    destruct (String.eqb v "f_orb") eqn:E3.
    { apply String.eqb_eq in E3. subst. rewrite (any_in_true _ _ _ Hv) by (simpl; auto). reflexivity. }
    destruct (String.eqb v "f_GW") eqn:E4; auto.
    apply String.eqb_eq in E4. subst. rewrite (any_in_true _ _ _ Hv) by (simpl; auto). reflexivity.
  - reflexivity.
  - eexists. reflexivity.
  - exists F. split; [reflexivity|]. cbn [circ_var String.eqb Ascii.eqb Bool.eqb]. now rewrite shape_double.
  - intros v Hv. unfold circ_var.
    destruct (String.eqb v "timesteps") eqn:E1; [apply String.eqb_eq in E1; subst; simpl in Hv; tauto|].
    destruct (String.eqb v "a") eqn:E2; [apply String.eqb_eq in E2; subst; simpl in Hv; tauto|].
    destruct (String.eqb v "f_orb") eqn:E3; [apply String.eqb_eq in E3; subst; simpl in Hv; tauto|].
    destruct (String.eqb v "f_GW") eqn:E4; [apply String.eqb_eq in E4; subst; simpl in Hv; tauto|]. reflexivity.
Qed.

Lemma ecc_outputs quad odeint sched n_proc t_evol n ts (b m1 m2 a f ec b' m1' m2' a' f' ec' : pyval num unit) single
      am ex tb tm (X : Type) (xs : list X) (fe fb fa fm1 fm2 : X -> num) (ts0 : list (list num)) (gr : X -> list num) :
  ensure_array [m1; m2; b; a; f; ec] = ([m1'; m2'; b'; a'; f'; ec'], single) ->
  check_arr (arr_of b') (arr_of m1') (arr_of m2') (arr_of a') (arr_of f') = Ok (map fb xs, map fa xs) ->
  arr_of m1' = Some (map fm1 xs) -> arr_of m2' = Some (map fm2 xs) -> arr_of ec' = Some (map fe xs) ->
  create_timesteps_array quad (map fa xs) (map fb xs) (map fe xs) t_evol n ts = Ok ts0 ->
  final_steps quad (map fe xs) (map fa xs) (map fb xs) am ex tb tm ts0 = Ok (map gr xs) ->
  ((1 < n_proc)%nat -> complete_schedule (length xs) sched) ->
  exists value : string -> option evo,
    (forall vars, (r <- evol_ecc quad odeint sched ec t_evol n ts b m1 m2 a f vars n_proc am ex tb tm ;; Ok (fst r))%res
                  = collect value vars) /\
    value "timesteps"%string = Some (shape single (map gr xs)) /\
    (exists rows, value "ecc"%string = Some (shape single rows)) /\
    (exists rows, value "a"%string = Some (shape single rows)) /\
    (exists rows, value "f_orb"%string = Some (shape single rows) /\
                  value "f_GW"%string = Some (double_evo (shape single rows))) /\
    (forall v, ~ In v ["timesteps"; "ecc"; "a"; "f_orb"; "f_GW"]%string -> value v = None).
Proof.
  intros HE HC H1 H2 Hec HT HF HS.
  set (E := map (fun x => ecc_row odeint (fe x) (fa x) (fb x) (gr x)) xs).
  set (A := map (fun x => sep_row odeint (fe x) (fa x) (fb x) (gr x)) xs).
  set (F := map (fun x => freq_row odeint (fm1 x) (fm2 x) (fe x) (fa x) (fb x) (gr x)) xs).
  exists (fun v => match ecc_var single (map gr xs) E A F v with [x] => Some x | _ => None end).
  split; [|split; [|split; [|split; [|split]]]].
  - intros vars. rewrite (evol_ecc_eval quad odeint sched n_proc t_evol n ts _ _ _ _ _ _ _ _ _ _ _ _ _ vars
      am ex tb tm X xs fe fb fa (Some fm1) (Some fm2) ts0 gr HE HC H1 H2 Hec HT HF HS).
    cbn [isSome andb negb]. rewrite andb_false_r. fold E. fold A. fold F.
    unfold collect.
    assert (EQ : flat_map (ecc_var single (map gr xs) E
       (if any_in ["a"; "f_orb"; "f_GW"]%string vars then A else [])
       (if any_in ["f_orb"; "f_GW"]%string vars then F else [])) vars
      = flat_map (fun v => match match ecc_var single (map gr xs) E A F v with [x] => Some x | _ => None end
                           with Some x => [x] | None => [] end) vars).
    { apply flat_map_ext_in. intros v Hv. unfold ecc_var.
      destruct (String.eqb v "timesteps") eqn:E1; auto. destruct (String.eqb v "ecc") eqn:E5; auto.
      destruct (String.eqb v "a") eqn:E2.
      { apply String.eqb_eq in E2. subst. rewrite (any_in_true _ _ _ Hv) by (simpl; auto). reflexivity. }
      destruct (String.eqb v "f_orb") eqn:E3.
      { apply String.eqb_eq in E3. subst. rewrite (any_in_true ["f_orb"; "f_GW"]%string _ _ Hv) by (simpl; auto). reflexivity. }
      destruct (String.eqb v "f_GW") eqn:E4; auto.
      apply String.eqb_eq in E4. subst. rewrite (any_in_true ["f_orb"; "f_GW"]%string _ _ Hv) by (simpl; auto). reflexivity. }
    rewrite EQ. clear EQ. unfold pack. destruct (flat_map _ vars) as [|x [|y l]]; reflexivity.
  - reflexivity.
  - eexists. reflexivity.
  - eexists. reflexivity.
  - exists F. split; [reflexivity|]. cbn [ecc_var String.eqb Ascii.eqb Bool.eqb]. now rewrite shape_double.
  - intros v Hv. unfold ecc_var.
    destruct (String.eqb v "timesteps") eqn:E1; [apply String.eqb_eq in E1; subst; simpl in Hv; tauto|].
    destruct (String.eqb v "ecc") eqn:E5; [apply String.eqb_eq in E5; subst; simpl in Hv; tauto|].
    destruct (String.eqb v "a") eqn:E2; [apply String.eqb_eq in E2; subst; simpl in Hv; tauto|].
    destruct (String.eqb v "f_orb") eqn:E3; [apply String.eqb_eq in E3; subst; simpl in Hv; tauto|].
    destruct (String.eqb v "f_GW") eqn:E4; [apply String.eqb_eq in E4; subst; simpl in Hv; tauto|]. reflexivity.
Qed.

(** frequencies need component masses *)
Lemma circ_no_masses quad t_evol n ts b m1 m2 a f vars :
  any_in ["f_orb"; "f_GW"]%string vars = true -> (m1 = PNone \/ m2 = PNone) ->
  evol_circ quad t_evol n ts b m1 m2 a f vars = Err ValueError \/
  exists er, check_arr (arr_of (fst (ensure_array_one b))) (arr_of (fst (ensure_array_one m1)))
               (arr_of (fst (ensure_array_one m2))) (arr_of (fst (ensure_array_one a))) (arr_of (fst (ensure_array_one f))) = Err er
             /\ evol_circ quad t_evol n ts b m1 m2 a f vars = Err er.
Proof.
  intros HV HM. unfold evol_circ. rewrite ensure_array_map. cbn [map].
  destruct (check_arr _ _ _ _ _) as [ba|er]; cbn [rbind]; [|right; eauto]. left. rewrite HV.
  destruct HM as [-> | ->]; [reflexivity|]. rewrite (ensure_array_one_spec PNone). cbn [fst arr_of].
  destruct (arr_of (fst (ensure_array_one m1))); reflexivity.
Qed.
Lemma check_arr_no_masses beta m1 m2 a f er : (m1 = None \/ m2 = None) -> check_arr beta m1 m2 a f = Err er -> er = ValueError.
Proof.
  intros [-> | ->]; unfold check_arr, check_mass_freq_input; destruct beta, a, f; try destruct m1; try destruct m2;
    cbn [rbind]; congruence.
Qed.
Lemma circ_no_masses' quad t_evol n ts b m1 m2 a f vars :
  (In "f_orb"%string vars \/ In "f_GW"%string vars) -> (m1 = PNone \/ m2 = PNone) ->
  evol_circ quad t_evol n ts b m1 m2 a f vars = Err ValueError.
Proof.
  intros HV HM. assert (W : any_in ["f_orb"; "f_GW"]%string vars = true).
  { destruct HV as [HV|HV]; eapply any_in_true; eauto; simpl; auto. }
  destruct (circ_no_masses quad t_evol n ts b m1 m2 a f vars W HM) as [H|[er [H1 H2]]]; auto.
  rewrite H2. f_equal. eapply check_arr_no_masses; [|exact H1].
  destruct HM as [-> | ->]; [left|right]; reflexivity.
Qed.
Lemma ecc_no_masses quad odeint sched ec t_evol n ts b m1 m2 a f vars n_proc am ex tb tm :
  (In "f_orb"%string vars \/ In "f_GW"%string vars) -> (m1 = PNone \/ m2 = PNone) ->
  evol_ecc quad odeint sched ec t_evol n ts b m1 m2 a f vars n_proc am ex tb tm = Err ValueError.
Proof.
  intros HV HM. assert (W : any_in ["f_orb"; "f_GW"]%string vars = true).
  { destruct HV as [HV|HV]; eapply any_in_true; eauto; simpl; auto. }
  unfold evol_ecc. rewrite ensure_array_map. cbn [map].
  destruct (check_arr _ _ _ _ _) as [ba|er] eqn:HC; cbn [rbind].
  - rewrite W. destruct HM as [-> | ->]; [reflexivity|]. rewrite (ensure_array_one_spec PNone). cbn [fst arr_of].
    destruct (arr_of (fst (ensure_array_one m1))); reflexivity.
  - f_equal. eapply check_arr_no_masses; [|exact HC]. destruct HM as [-> | ->]; [left|right]; reflexivity.
Qed.
