(** GeomSnr.v -- stationary SNRs when masses, lengths and times are multiplied by k and the noise curve is rescaled. *)
From Coq Require Import Reals ZArith List Lra Lia.
From Verif Require Import Num NumFacts Np Utils Spec UtilsFacts EvolSpec Evol Strain StrainSpec StrainFacts Psd PsdSpec Snr SnrSpec SnrFacts SnrThms SnrThms2
  HarmonicSums SnrThms3 SnrThms4 GeomFacts ZeroFacts.
Import ListNotations.
Open Scope R_scope.

Section Snr.
  Context (k : R) (Hk : 0 < k).
  Lemma sns_scale h t P v v' : signal_to_noise_squared h t P v -> signal_to_noise_squared h (k * t) (nmul (Fin k) P) v' ->
    (P = PInf \/ exists s, P = Fin s /\ 0 < s) -> v' = v.
  Proof.
    intros A B [->|(s & -> & Hs)].
    - rewrite (ScaleFacts.nmul_pinf k Hk) in B. inversion A; inversion B; subst; auto.
    - rewrite nmul_fin in B. rewrite (sns_value _ _ _ _ A), (sns_value _ _ _ _ B). field. lra.
  Qed.
  Lemma snr_scale_ecc w w' jv gi X (m f e d : X -> R) xs t hr sc sc' kw kw' p p' :
    noise_curve w kw sc t p -> noise_curve w' kw' sc' (k * t) p' -> proper_noise p -> proper_noise p' -> 0 <= t ->
    (forall x, 0 < x -> p' (Fin (x / k)) = nmul (Fin k) (p (Fin x))) ->
    (forall x, In x xs -> good_source jv gi (m x) (f x) (e x) (d x)) ->
    exists s : X -> R,
      snr_ecc_stationary w jv gi (map (fun x => Fin (m x)) xs) (map (fun x => Fin (f x)) xs) (map (fun x => Fin (e x)) xs)
        (map (fun x => Fin (d x)) xs) (Fin t) hr sc false false kw = Ok (Snr (map (fun x => Fin (s x)) xs)) /\
      snr_ecc_stationary w' jv gi (map (fun x => Fin (k * m x)) xs) (map (fun x => Fin (f x / k)) xs) (map (fun x => Fin (e x)) xs)
        (map (fun x => Fin (k * d x)) xs) (Fin (k * t)) hr sc' false false kw' = Ok (Snr (map (fun x => Fin (s x)) xs)).
  Proof.
    intros Hp Hp' Hq Hq' Ht HS G.
    assert (Ki : 0 < / k) by now apply Rinv_0_lt_compat.
    assert (G' : forall x, In x xs -> good_source jv gi (k * m x) (f x / k) (e x) (k * d x)).
    { intros x Hx. destruct (G x Hx) as (A & B & C & D & E). repeat split; auto; unfold Rdiv; try nra; apply D. }
    assert (Ht' : 0 <= k * t) by nra.
    destruct (stationary_formula w jv gi X m f e d xs t hr sc kw p Hp Hq Ht G) as (v & _ & V & T).
    destruct (stationary_formula w' jv gi X (fun x => k * m x) (fun x => f x / k) e (fun x => k * d x) xs (k * t) hr sc' kw' p' Hp' Hq' Ht' G') as (v' & _ & V' & T').
    exists (fun x => sqrt (Rsum (map (v x) (map Z.of_nat (seq 1 hr))))). split; [exact V|]. rewrite V'. do 2 f_equal.
    apply map_ext_in. intros x Hx. f_equal. f_equal. f_equal.
    apply map_ext_in. intros n I. apply in_map_iff in I. destruct I as (j & <- & I). apply in_seq in I.
    assert (Hn : (1 <= Z.of_nat j <= Z.of_nat hr)%Z) by lia. destruct (G x Hx) as (A & B & C & D & E). destruct (E (Z.of_nat j) ltac:(lia)) as (g & U).
    destruct (G' x Hx) as (A' & B' & C' & _).
    destruct (T x _ Hx Hn) as (_ & h & H & S). destruct (T' x _ Hx Hn) as (_ & h' & H' & S').
    rewrite (h_0_single_fin jv gi (m x) (f x) (e x) (Z.of_nat j) (d x) g None A B C ltac:(lra) ltac:(lia) U) in H.
    rewrite (h_0_single_fin jv gi (k * m x) (f x / k) (e x) (Z.of_nat j) (k * d x) g None A' B' C' ltac:(lra) ltac:(lia) U) in H'.
    assert (E1 : h = sqrt (ampR None) * h0R (m x) (f x) (d x) g (Z.of_nat j)) by congruence.
    assert (E2 : h' = sqrt (ampR None) * h0R (k * m x) (f x / k) (k * d x) g (Z.of_nat j)) by congruence.
    rewrite h0_scale in E2 by auto. rewrite <- E1 in E2. subst h'.
    assert (N : 0 < IZR (Z.of_nat j) * f x) by (apply Rmult_lt_0_compat; [apply IZR_lt; lia|auto]).
    replace (IZR (Z.of_nat j) * (f x / k)) with (IZR (Z.of_nat j) * f x / k) in S' by (field; lra).
    rewrite HS in S' by exact N. exact (sns_scale _ _ _ _ _ S S' (Hq _ N)).
  Qed.
  Lemma snr_scale_circ w w' jv gi X (m f d : X -> R) (o : option (X -> angles)) xs t sc sc' kw kw' p p' :
    noise_curve w kw sc t p -> noise_curve w' kw' sc' (k * t) p' -> proper_noise p -> proper_noise p' -> 0 <= t ->
    (forall x, 0 < x -> p' (Fin (x / k)) = nmul (Fin k) (p (Fin x))) ->
    (exists g, power_used jv gi 2 0 g) -> (forall x, In x xs -> 0 < m x /\ 0 < f x /\ 0 < d x) ->
    exists s : X -> R,
      snr_circ_stationary w jv gi (map (fun x => Fin (m x)) xs) (map (fun x => Fin (f x)) xs) (map (fun x => Fin (d x)) xs) (Fin t)
        (pop_sky xs o) sc kw = Ok (map (fun x => Fin (s x)) xs) /\
      snr_circ_stationary w' jv gi (map (fun x => Fin (k * m x)) xs) (map (fun x => Fin (f x / k)) xs) (map (fun x => Fin (k * d x)) xs)
        (Fin (k * t)) (pop_sky xs o) sc' kw' = Ok (map (fun x => Fin (s x)) xs).
  Proof.
    intros Hp Hp' Hq Hq' Ht HS [g Hg] HX.
    assert (Ki : 0 < / k) by now apply Rinv_0_lt_compat.
    assert (Ht' : 0 <= k * t) by nra.
    assert (V : forall w kw sc p t M F D, noise_curve w kw sc t p -> proper_noise p -> 0 <= t -> (forall x, In x xs -> 0 < M x /\ 0 < F x /\ 0 < D x) ->
      exists S : X -> R, snr_circ_stationary w jv gi (map (fun x => Fin (M x)) xs) (map (fun x => Fin (F x)) xs) (map (fun x => Fin (D x)) xs) (Fin t)
        (pop_sky xs o) sc kw = Ok (map (fun x => Fin (sqrt (S x))) xs) /\
        forall x, In x xs -> signal_to_noise_squared (sqrt (ampR (option_map (fun g => g x) o)) * h0R (M x) (F x) (D x) g 2) t (p (Fin (IZR 2 * F x))) (S x)).
    { clear - Hg. intros w kw sc p t M F D Hp Hq Ht HX.
      set (S x := match st_elem jv gi (Fin t) p (Fin (M x)) (Fin (F x)) (Fin 0) (Fin (D x)) (pop_amp o x) 2 with Fin r => r | _ => 0 end).
      assert (V : forall x, In x xs -> st_elem jv gi (Fin t) p (Fin (M x)) (Fin (F x)) (Fin 0) (Fin (D x)) (pop_amp o x) 2 = Fin (S x) /\ 0 <= S x /\
         signal_to_noise_squared (sqrt (ampR (option_map (fun g => g x) o)) * h0R (M x) (F x) (D x) g 2) t (p (Fin (IZR 2 * F x))) (S x)).
      { intros x Hx. destruct (HX x Hx) as [A [B C]].
        destruct (st_elem_fin jv gi t p (M x) (F x) 0 (D x) 2 g (option_map (fun g => g x) o) A B C ltac:(lra) ltac:(lia) Hg Ht Hq) as [v [E [P Q]]].
        assert (E' : st_elem jv gi (Fin t) p (Fin (M x)) (Fin (F x)) (Fin 0) (Fin (D x)) (pop_amp o x) 2 = Fin v).
        { rewrite <- E. destruct o; reflexivity. }
        unfold S. rewrite E'. auto. }
      exists S. split; [|intros x Hx; apply (V x Hx)].
      rewrite (circ_stationary_map _ _ _ _ _ _ _ _ _ _ _ p) by auto. f_equal. apply map_ext_in. intros x Hx.
      destruct (V x Hx) as [-> [P _]]. now apply nsqrt_fin. }
    destruct (V w kw sc p t m f d Hp Hq Ht HX) as (S & E & Q).
    destruct (V w' kw' sc' p' (k * t) (fun x => k * m x) (fun x => f x / k) (fun x => k * d x) Hp' Hq' Ht') as (S' & E' & Q').
    { intros x Hx. destruct (HX x Hx) as [A [B C]]. repeat split; unfold Rdiv; nra. }
    exists (fun x => sqrt (S x)). split; [exact E|]. rewrite E'. f_equal. apply map_ext_in. intros x Hx. f_equal. f_equal.
    specialize (Q x Hx). specialize (Q' x Hx). cbv beta in Q'. destruct (HX x Hx) as [A [B C]]. rewrite h0_scale in Q' by auto.
    assert (N : 0 < IZR 2 * f x) by lra.
    replace (IZR 2 * (f x / k)) with (IZR 2 * f x / k) in Q' by (field; lra).
    rewrite HS in Q' by exact N. exact (sns_scale _ _ _ _ _ Q Q' (Hq _ N)).
  Qed.
End Snr.
