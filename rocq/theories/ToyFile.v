(** ToyFile.v -- a file system and collections to save, for the examples beside the theorems. *)
From Coq Require Import String Reals ZArith List Lra Lia Bool Permutation.
From Verif Require Import Num NumFacts Np Utils Strain Psd Snr Evol Harmonics HarmThms ScParams Source Index SourceSpec IndexSpec History CurveSpec InitSpec MethodSpec
  FileIO FileSpec FileFacts ReachFacts FileThms Toy.
Import ListNotations.
Open Scope R_scope.

(** Every array is in units of 2 SI units; attributes are listed backwards. *)
Definition io_toy : io := mkIo "0.5.0" (fun _ => "double"%string) (fun _ => Some 2) (@rev _).
Lemma io_toy_units : units_parse io_toy.
Proof. intros k. exists 2. split; [reflexivity|lra]. Qed.
Lemma io_toy_order : lists_attributes io_toy.
Proof. intros l. cbn. apply Permutation_sym, Permutation_rev. Qed.
Definition no_files : disk := fun _ => Missing.
(** Two sources, one of them eccentric. *)
Definition two (k : klass) (isc : bool) (sc : option (num -> num)) (d : dict) : src :=
  toy_src k [Fin 2e30; Fin 3e30] [Fin 1e30; Fin 1e30] [Fin 0; Fin (1/2)] [Fin 1e20; Fin 2e20] [Fin 1e-3; Fin 1e-4] isc sc d.
Lemma two_reachable strict k (isc : bool) sc d dd : make_params d = Ok dd -> (if isc then exists c, curve_of x_toy dd = Ok c /\ sc = Some c else sc = None) ->
  reachable strict x_toy (two k isc sc dd) 2.
Proof.
  intros M C. apply (reach_new strict x_toy k _ _ (toy_init k [Fin 2e30; Fin 3e30] [Fin 1e30; Fin 1e30] [Fin 0; Fin (1/2)] [Fin 1e20; Fin 2e20] [Fin 1e-3; Fin 1e-4] isc d dd sc
    eq_refl eq_refl eq_refl eq_refl M C)).
  split; [intros H; now elim H|intros p H; discriminate H].
Qed.
Lemma default_ordinary : ordinary default_params.
Proof. intros k H. cbn in H. intuition congruence. Qed.
Lemma default_no_function : no_function default_params.
Proof. intros k i H. cbn in H. intuition congruence. Qed.
Lemma custom_ordinary i : ordinary (custom_params i).
Proof. intros k H. cbn in H. intuition congruence. Qed.
Lemma step_tolerance x tol s h r : set_gw_lum_tol (x_jv x) (x_lum x) tol (s_harm s) = (h, r) -> step x (Tolerance tol) s = (set_harm h s, r).
Proof. intros H. cbn [step]. unfold assign_gw_lum_tol. now rewrite H. Qed.
Lemma assign_first jv lum a b h h' r1 r2 : assign_all jv lum [a; b] h = (h', [r1; r2]) -> exists h1, set_gw_lum_tol jv lum a h = (h1, r1).
Proof.
  unfold assign_all. cbn [fold_left]. destruct (set_gw_lum_tol jv lum a h) as [h1 q1]. destruct (set_gw_lum_tol jv lum b h1) as [h2 q2].
  cbn. intros E. injection E as _ -> _. eauto.
Qed.
Lemma assign_only jv lum a h0 h1 h2 r1 r2 : assign_all jv lum [a] h0 = (h1, [r1]) -> set_gw_lum_tol jv lum a h0 = (h2, r2) -> h1 = h2.
Proof. unfold assign_all. cbn [fold_left]. intros H E. rewrite E in H. cbn in H. now injection H. Qed.
Lemma one_20 : 1/20 <> 1. Proof. lra. Qed.
Lemma toy_refuses : exists h, set_gw_lum_tol jv_toy lum_ex (Fin 1) toy_h = (h, Err IndexError).
Proof.
  destruct toy_assign as (h & H). pose proof (assign_only _ _ _ _ _ _ _ _ H toy_h_ok) as E. rewrite E in H.
  destruct (stale_thm jv_toy J_toy lum_ex tbl_ex (1/20) toy_h jv_toy_fin lum_ex_ok one_20 H) as (h' & E' & _). exact (assign_first _ _ _ _ _ _ _ _ E').
Qed.
Lemma toy_refused k : snd (step x_toy (Tolerance (Fin 1)) (two k false None default_params)) = Err IndexError.
Proof. destruct toy_refuses as (h & H). now rewrite (step_tolerance x_toy (Fin 1) (two k false None default_params) h _ H). Qed.
Lemma toy_left k : exists h, fst (step x_toy (Tolerance (Fin 1)) (two k false None default_params)) = set_harm h (two k false None default_params).
Proof. destruct toy_refuses as (h & H). exists h. now rewrite (step_tolerance x_toy (Fin 1) (two k false None default_params) h _ H). Qed.
