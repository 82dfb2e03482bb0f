(** TightThms.v -- further facts about strain.py and evol.py: the size of the modulation, incomplete sky arguments,
    failed integration steps. *)
From Coq Require Import String Reals ZArith List Bool Lra Lia.
From Coquelicot Require Import Coquelicot.
From Verif Require Import Num NumFacts Np NpFacts Utils Spec UtilsFacts Strain DetectorFacts StrainSpec StrainFacts OrbitSpec OrbitFacts
  Evol EvolSpec EvolFacts EccEvolFacts TightSpec.
Import ListNotations.
Open Scope R_scope.

Theorem modulated_strain jv gi m f e n d g a : 0 < m -> 0 < f -> 0 < d -> 0 <= e < 1 -> (1 <= n)%Z -> power_used jv gi n e g ->
  exists h c, h_0_single jv gi m f e n d None = Ok [[[Fin h]]] /\ h_c_single jv gi m f e n d None = Ok [[[Fin c]]] /\
    let A := sqrt (5/4 * orbit_average (detected_power (PI/2 - lat a) (lon a) (psi a) (inc a))) in
    h_0_single jv gi m f e n d (Some a) = Ok [[[Fin (A * h)]]] /\ h_c_single jv gi m f e n d (Some a) = Ok [[[Fin (A * c)]]].
Proof.
  intros Hm Hf Hd He Hn Hg. exists (h0R m f d g n), (hcR m f e d g n). cbv zeta.
  rewrite (avg_unique _ _ (avg_power (PI/2 - lat a) (lon a) (psi a) (inc a))).
  change (5/4 * _) with (ampR (Some a)).
  rewrite !(h_0_single_fin jv gi m f e n d g) by (auto; lra). rewrite !(h_c_single_fin jv gi m f e n d g) by (auto; lra).
  change (ampR None) with 1. rewrite sqrt_1, !Rmult_1_l. auto.
Qed.

(** Every value of a population with complete arguments is computed; with incomplete ones nothing is. *)
Lemma modulate_incomplete s h ex : incomplete s = Some ex -> modulate s h = Err ex.
Proof.
  unfold incomplete, modulate, sky_given, amplitude_modulation. destruct (position s) as [p|], (polarisation s) as [q|], (inclination s) as [i|];
    cbn; intros H; inversion H; reflexivity.
Qed.
Theorem incomplete_sky X jv gi (m d : X -> num) rows xs ns s ex : existsb (fun k => (k <? 1)%Z) ns = false -> incomplete s = Some ex ->
  h_0_n jv gi (map m xs) (f_rows rows xs) (e_rows rows xs) ns (map d xs) s = Err ex /\
  h_c_n jv gi (map m xs) (f_rows rows xs) (e_rows rows xs) ns (map d xs) s = Err ex.
Proof.
  intros Hn Hs.
  pose proof (h_0_n_map jv gi m d rows xs ns None Hn) as E0. pose proof (h_c_n_map jv gi m d rows xs ns None Hn) as Ec.
  unfold h_0_n in *. unfold h_c_n in *. rewrite Hn in *. 
  assert (G : forall (A : Type) (r : res A) (k : A -> res (list (list (list num)))) v,
             rbind r k = Ok v -> exists x, r = Ok x /\ k x = Ok v) by (intros A [x|x] k v H; [exists x; auto|discriminate]).
  apply G in E0. destruct E0 as [x1 [-> E0]]. cbn [rbind]. apply G in E0. destruct E0 as [x2 [-> E0]]. cbn [rbind].
  apply G in E0. destruct E0 as [x3 [-> E0]]. cbn [rbind].
  apply G in Ec. destruct Ec as [y1 [-> Ec]]. cbn [rbind]. apply G in Ec. destruct Ec as [y2 [-> Ec]]. cbn [rbind].
  apply G in Ec. destruct Ec as [y3 [-> Ec]]. cbn [rbind].
  apply G in Ec. destruct Ec as [y4 [-> Ec]]. cbn [rbind]. split; now apply modulate_incomplete.
Qed.

(** Eccentricities *)
Lemma nan_to_num_finite x : exists r, nan_to_num x = Fin r.
Proof. destruct x; eexists; reflexivity. Qed.
Theorem ecc_finite quad odeint sched ec t_evol n ts b m1 m2 a f np am ex tb tm v ts' :
  evol_ecc quad odeint sched ec t_evol n ts b m1 m2 a f ["ecc"%string] np am ex tb tm = Ok (Single v, ts') ->
  forall y, In y (entries v) -> exists r, y = Fin r.
Proof.
  assert (G : forall (A B : Type) (r : res A) (k : A -> res B) v,
             rbind r k = Ok v -> exists x, r = Ok x /\ k x = Ok v) by (intros A B [x|x] k w H; [exists x; auto|discriminate]).
  unfold evol_ecc. destruct (ensure_array _) as [l single]. 
  destruct l as [|p1 [|p2 [|p3 [|p4 [|p5 [|p6 [|]]]]]]]; try discriminate.
  intros H. apply G in H. destruct H as [ba [_ H]]. cbn [any_in existsb String.eqb Ascii.eqb Bool.eqb orb andb] in H.
  destruct (arr_of p6) as [ecc|]; [|discriminate]. apply G in H. destruct H as [c0 [_ H]]. apply G in H. destruct H as [ts0 [_ H]].
  apply G in H. destruct H as [ts1 [_ H]]. apply G in H. destruct H as [ev [_ H]]. cbn [rbind] in H.
  apply G in H. destruct H as [out [P H]]. cbn in P. inversion P; subst out. inversion H; subst v.
  intros y Hy. unfold shape in Hy. 
  assert (IN : In y (concat (map (map nan_to_num) ev))) by (destruct single; exact Hy).
  apply in_concat in IN. destruct IN as [l [IL IY]]. apply in_map_iff in IL. destruct IL as [l' [<- _]].
  apply in_map_iff in IY. destruct IY as [x [<- _]]. apply nan_to_num_finite.
Qed.
Theorem ecc_failed quad odeint sched e a b t_evol n ts ex tb tm : exists out,
  evol_ecc quad odeint sched (PArr [e]) t_evol n (S1 ts) (PQArr [b] tt) PNone PNone (PQArr [a] tt) PNone ["ecc"%string] 1 false ex tb tm
    = Ok (Single (E2 [out]), S1 ts) /\ length out = length (odeint (de_dt b (c_0 a e)) e ts) /\
  forall k x, nth_error (odeint (de_dt b (c_0 a e)) e ts) k = Some x ->
    match x with NaN => nth_error out k = Some (Fin 0) | Fin r => nth_error out k = Some (Fin r) | _ => True end.
Proof.
  exists (map nan_to_num (odeint (de_dt b (c_0 a e)) e ts)). split; [reflexivity|]. split; [apply map_length|].
  intros k x H. assert (N : nth_error (map nan_to_num (odeint (de_dt b (c_0 a e)) e ts)) k = Some (nan_to_num x)) by now apply map_nth_error.
  destruct x; auto.
Qed.
