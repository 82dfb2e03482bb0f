(** PropStrain.v -- properties C28-C33 and the strain part of C12. *)
From Coq Require Import Reals ZArith List Bool Lra Lia.
From Verif Require Import Num NumFacts Np Utils Spec UtilsFacts Strain DetectorFacts StrainSpec StrainFacts.
Import ListNotations.
Open Scope R_scope.

(** A Bessel routine with the exact values at 0 (it need not be right anywhere else). *)
Definition jv_at_0 (k : Z) (x : num) : num :=
  match x with Fin r => Fin (if (k =? 0)%Z then 1 else 0) | _ => NaN end.

(** ** C12 (strain): a sky position never increases a strain *)
Theorem C12_located_strain_is_smaller : forall jv gi m f e n d g a,
  0 < m -> 0 < f -> 0 < d -> 0 <= e < 1 -> (1 <= n)%Z -> power_used jv gi n e g ->
  exists h h' c c',
    h_0_single jv gi m f e n d None = Ok [[[Fin h]]] /\ h_0_single jv gi m f e n d (Some a) = Ok [[[Fin h']]] /\
    h_c_single jv gi m f e n d None = Ok [[[Fin c]]] /\ h_c_single jv gi m f e n d (Some a) = Ok [[[Fin c']]] /\
    0 <= h' <= h /\ 0 <= c' <= c /\ (0 < g -> h' < h /\ c' < c).
Proof. exact located_strain. Qed.
Print Assumptions C12_located_strain_is_smaller.

(** ** C28: h_c^2 fdot_n = f_n^2 h_0^2 *)
Theorem C28_strain_relation : forall jv gi m f e d g n o,
  0 < m -> 0 < f -> 0 < d -> 0 <= e < 1 -> (1 <= n)%Z -> power_used jv gi n e g ->
  exists h0 hc fd, h_0_single jv gi m f e n d o = Ok [[[Fin h0]]] /\ h_c_single jv gi m f e n d o = Ok [[[Fin hc]]] /\
    fn_dot (Fin m) (Fin f) (Fin e) [n] = Ok [Fin fd] /\ hc ^ 2 * fd = (IZR n * f) ^ 2 * h0 ^ 2.
Proof. exact strain_relation. Qed.
Print Assumptions C28_strain_relation.
(** With and without an interpolation routine: the power used exists whenever the routine returns finite numbers. *)
Example C28_power_used_interpolated : power_used (fun _ _ => NaN) (Some (fun n x => Fin (IZR n))) 3 (1/2) 3.
Proof. exists 3. split; auto. rewrite Rmax_left; lra. Qed.
Example C28_power_used_direct : exists g, power_used jv_at_0 None 3 (1/2) g.
Proof.
  exists (gR (fun k _ => if (k =? 0)%Z then 1 else 0) 3 (1/2)). simpl.
  apply (peters_g_fin jv_at_0 (fun k _ => if (k =? 0)%Z then 1 else 0) 3 (1/2)); [|lia]. intros k x. reflexivity.
Qed.

(** ** C29: scaling laws and agreement with the quadrupole formula *)
Theorem C29_carries_the_luminosity : forall jv gi m f e d g n,
  0 < m -> 0 < f -> 0 < d -> 0 <= e <= 1 -> (1 <= n)%Z -> power_used jv gi n e g ->
  exists h, h_0_single jv gi m f e n d None = Ok [[[Fin h]]] /\ 0 <= h /\
    wave_power (IZR n * f) h d = harmonic_luminosity m f g.
Proof. exact strain_luminosity. Qed.
Print Assumptions C29_carries_the_luminosity.
Theorem C29_scaling : forall jv gi m f e d g n o k,
  0 < m -> 0 < f -> 0 < d -> 0 <= e <= 1 -> (1 <= n)%Z -> 0 < k -> power_used jv gi n e g ->
  exists h, h_0_single jv gi m f e n d o = Ok [[[Fin h]]] /\
    h_0_single jv gi m f e n (k * d) o = Ok [[[Fin (h / k)]]] /\
    h_0_single jv gi (k * m) f e n d o = Ok [[[Fin (Rpower k (5/3) * h)]]] /\
    h_0_single jv gi m (k * f) e n d o = Ok [[[Fin (Rpower k (2/3) * h)]]].
Proof. exact strain_scaling. Qed.
Print Assumptions C29_scaling.
Theorem C29_circular_amplitude : forall jv J m f d, (forall k x, jv k (Fin x) = Fin (J k x)) ->
  (forall k, J k 0 = if (k =? 0)%Z then 1 else 0) -> 0 < m -> 0 < f -> 0 < d ->
  h_0_single jv None m f 0 2 d None =
    Ok [[[Fin (sqrt (Rpower 2 (28/3) / 5) / 2 * Rpower (G_SI * m) (5/3) * Rpower (PI * f) (2/3) / (c_SI ^ 4 * d))]]].
Proof. exact circular_amplitude. Qed.
Print Assumptions C29_circular_amplitude.

(** ** C30: circular sources emit at n = 2 only *)
Theorem C30_circular_sources : forall jv J m f d n o, (forall k x, jv k (Fin x) = Fin (J k x)) ->
  (forall k, J k 0 = if (k =? 0)%Z then 1 else 0) -> 0 < m -> 0 < f -> 0 < d -> (1 <= n)%Z ->
  exists h0 hc, h_0_single jv None m f 0 n d o = Ok [[[Fin h0]]] /\ h_c_single jv None m f 0 n d o = Ok [[[Fin hc]]] /\
    (n <> 2%Z -> h0 = 0 /\ hc = 0) /\ (n = 2%Z -> o = None -> 0 < h0 /\ 0 < hc).
Proof. exact circular_harmonics. Qed.
Print Assumptions C30_circular_sources.
Example C30_satisfiable : exists J : Z -> R -> R, (forall k x, jv_at_0 k (Fin x) = Fin (J k x)) /\
  (forall k, J k 0 = if (k =? 0)%Z then 1 else 0).
Proof. exists (fun k _ => if (k =? 0)%Z then 1 else 0). auto. Qed.

(** ** C31: negative interpolated powers are treated as zero *)
Theorem C31_negative_power_is_zero_strain : forall jv gi m f e n d o v,
  0 < m -> 0 < f -> 0 < d -> 0 <= e < 1 -> (1 <= n)%Z -> gi n (Fin e) = Fin v -> v < 0 ->
  h_0_single jv (Some gi) m f e n d o = Ok [[[Fin 0]]] /\ h_c_single jv (Some gi) m f e n d o = Ok [[[Fin 0]]].
Proof. exact negative_power. Qed.
Print Assumptions C31_negative_power_is_zero_strain.
(** Whole arrays: the strains are those of the routine clipped at 0, so all other entries are unaffected. *)
Theorem C31_same_as_clipped : forall jv gi m f e ns d s,
  let clip n x := nmax (gi n x) (Fin 0) in (forall n x, gi n x <> NaN) ->
  h_0_n jv (Some gi) m f e ns d s = h_0_n jv (Some clip) m f e ns d s /\
  h_c_n jv (Some gi) m f e ns d s = h_c_n jv (Some clip) m f e ns d s.
Proof. exact clipped_interpolation. Qed.
Print Assumptions C31_same_as_clipped.
Example C31_satisfiable : exists (gi : Z -> num -> num) v, gi 3%Z (Fin (1/2)) = Fin v /\ v < 0 /\ (forall n x, gi n x <> NaN).
Proof. exists (fun n x => Fin (-1)), (-1). repeat split; try lra. intros; discriminate. Qed.

(** ** C32: invalid harmonics are rejected, wherever they are in the list, and only they are *)
Theorem C32_rejected : forall jv gi m f e ns d s, Exists (fun k => (k < 1)%Z) ns ->
  h_0_n jv gi m f e ns d s = Err ValueError /\ h_c_n jv gi m f e ns d s = Err ValueError.
Proof. exact harmonics_rejected. Qed.
Print Assumptions C32_rejected.
Theorem C32_accepted : forall X jv gi (m d : X -> num) rows xs ns o, List.Forall (fun k => (1 <= k)%Z) ns ->
  (exists h, h_0_n jv gi (map m xs) (f_rows rows xs) (e_rows rows xs) ns (map d xs) (pop_sky xs o) = Ok h) /\
  (exists h, h_c_n jv gi (map m xs) (f_rows rows xs) (e_rows rows xs) ns (map d xs) (pop_sky xs o) = Ok h).
Proof. exact @harmonics_accepted. Qed.
Print Assumptions C32_accepted.
Theorem C32_fn_dot : forall m f e ns, fn_dot m f e ns = Err ValueError <-> Exists (fun n => (n < 1)%Z) ns.
Proof. exact fn_dot_error_iff. Qed.
Print Assumptions C32_fn_dot.
Example C32_satisfiable : Exists (fun k => (k < 1)%Z) [1; 2; 0; 4]%Z /\ List.Forall (fun k => (1 <= k)%Z) [1; 2; 4]%Z.
Proof. split; [right; right; left; lia|repeat constructor; lia]. Qed.

(** ** C33: entry (i,j,k) is the single-source, single-time, single-harmonic computation *)
Theorem C33_strain_is_local : forall X jv gi (m d : X -> num) rows xs ns (o : option (X -> angles)),
  List.Forall (fun k => (1 <= k)%Z) ns ->
  exists v w : X -> num * num -> Z -> num,
    h_0_n jv gi (map m xs) (f_rows rows xs) (e_rows rows xs) ns (map d xs) (pop_sky xs o)
      = Ok (map (fun x => map (fun p => map (v x p) ns) (rows x)) xs) /\
    h_c_n jv gi (map m xs) (f_rows rows xs) (e_rows rows xs) ns (map d xs) (pop_sky xs o)
      = Ok (map (fun x => map (fun p => map (w x p) ns) (rows x)) xs) /\
    forall x p k, (1 <= k)%Z ->
      h_0_n jv gi [m x] [[fst p]] [[snd p]] [k] [d x] (pop_sky [x] o) = Ok [[[v x p k]]] /\
      h_c_n jv gi [m x] [[fst p]] [[snd p]] [k] [d x] (pop_sky [x] o) = Ok [[[w x p k]]].
Proof. exact strain_local. Qed.
Print Assumptions C33_strain_is_local.
Example C33_satisfiable : List.Forall (fun k => (1 <= k)%Z) [2; 3]%Z.
Proof. repeat constructor; lia. Qed.
