(** FileNames.v -- which file a name stands for. *)
From Coq Require Import String List Bool Lia.
From Verif Require Import Num Np Source ScParams FileIO.
Open Scope string_scope.

(** The documented file: the name itself if it has an HDF5 extension, otherwise the name with .h5 appended. *)
Definition has_extension (name : string) : Prop := exists stem, name = stem ++ ".h5" \/ name = stem ++ ".hdf5".
Definition file_of (name path : string) : Prop := has_extension name /\ path = name \/ ~ has_extension name /\ path = name ++ ".h5".

Lemma ends_with_iff suffix s : ends_with suffix s = true <-> exists stem, s = stem ++ suffix.
Proof.
  split.
  - induction s as [|c s IH]; cbn [ends_with]; intros H; apply orb_true_iff in H; destruct H as [H|H].
    + apply String.eqb_eq in H. exists "". now subst.
    + discriminate.
    + apply String.eqb_eq in H. exists "". now subst.
    + destruct (IH H) as (t & ->). now exists (String c t).
  - intros (t & ->). induction t as [|c t IH]; cbn [append ends_with].
    + destruct suffix; cbn [ends_with]; now rewrite String.eqb_refl.
    + now rewrite IH, orb_true_r.
Qed.
Lemma has_extension_iff name : ends_with ".h5" name || ends_with ".hdf5" name = true <-> has_extension name.
Proof.
  rewrite orb_true_iff, !ends_with_iff. unfold has_extension. split.
  - intros [(t & H)|(t & H)]; exists t; auto.
  - intros (t & [H|H]); [left|right]; eauto.
Qed.
Lemma file_of_iff name path : file_of name path <-> path = with_extension name.
Proof.
  unfold file_of, with_extension. pose proof (has_extension_iff name) as H. destruct (_ || _).
  - assert (has_extension name) by now apply H. tauto.
  - assert (~ has_extension name) by (rewrite <- H; discriminate). tauto.
Qed.

Lemma save_path w name path ow stop s d d2 r : file_of name path -> save w name ow stop s d = (d2, r) ->
  (forall q, q <> path -> d2 q = d q) /\ (forall ws, r = Ok ws -> isfile path d2 = true).
Proof.
  rewrite file_of_iff. intros ->. unfold save. cbv zeta. destruct (isfile _ d && negb ow).
  { intros E. injection E as <- <-. split; [reflexivity|discriminate]. }
  destruct (d (with_extension name)) eqn:ED.
  all: try (destruct stop as [k|]); intros E; injection E as <- <-; split; try reflexivity; try discriminate.
  all: try (intros q N; unfold write_to; apply String.eqb_neq in N; now rewrite N).
  all: intros ws _; unfold isfile, write_to; rewrite String.eqb_refl; reflexivity.
Qed.
Lemma load_path w x cls name path ig isc np d d' : file_of name path -> d path = d' path ->
  from_file w x cls name ig isc np d = from_file w x cls name ig isc np d'.
Proof. rewrite file_of_iff. intros -> E. unfold from_file, isfile. now rewrite E. Qed.
(** Loading reports what it finds: nothing or a folder, a file that is not HDF5, or the contents. *)
Lemma load_outcome w x cls name path ig isc np d : file_of name path ->
  match d path with
  | Missing | Directory => from_file w x cls name ig isc np d = Err FileNotFoundErr
  | Damaged => from_file w x cls name ig isc np d = Err OSErr
  | File f => from_file w x cls name ig isc np d = load w x cls f ig isc np
  end.
Proof. rewrite file_of_iff. intros ->. unfold from_file, isfile. destruct (d _); reflexivity. Qed.
(** Saving where a folder is, or where a file is and overwrite is off, changes nothing. *)
Lemma save_outcome w name path ow stop s d : file_of name path ->
  match d path with
  | Directory => save w name ow stop s d = (d, Err OSErr)
  | File _ | Damaged => ow = false -> save w name ow stop s d = (d, Err FileExistsErr)
  | Missing => stop = None -> exists d2 ws, save w name ow stop s d = (d2, Ok ws)
  end.
Proof.
  rewrite file_of_iff. intros ->. unfold save, isfile. destruct (d _) eqn:E; cbn [andb].
  - intros ->. eauto.
  - reflexivity.
  - intros ->. reflexivity.
  - intros ->. reflexivity.
Qed.
Lemma file_outcomes w name path d : file_of name path ->
  (d path = Missing -> (forall x cls ig isc np, from_file w x cls name ig isc np d = Err FileNotFoundErr) /\
     forall ow s, exists d2 ws, save w name ow None s d = (d2, Ok ws)) /\
  (d path = Directory -> (forall x cls ig isc np, from_file w x cls name ig isc np d = Err FileNotFoundErr) /\
     forall ow stop s, save w name ow stop s d = (d, Err OSErr)) /\
  (d path = Damaged -> (forall x cls ig isc np, from_file w x cls name ig isc np d = Err OSErr) /\
     forall stop s, save w name false stop s d = (d, Err FileExistsErr)) /\
  (forall f, d path = File f -> forall stop s, save w name false stop s d = (d, Err FileExistsErr)).
Proof.
  intros F. pose proof (fun x cls ig isc np => load_outcome w x cls name path ig isc np d F) as L.
  pose proof (fun ow stop s => save_outcome w name path ow stop s d F) as S.
  split; [|split; [|split]]; [intros E; rewrite E in *; split..|intros f E; rewrite E in *]; intros; try apply L; try now apply S.
Qed.
Lemma names : file_of "binaries" "binaries.h5" /\ file_of "run.h5" "run.h5" /\ file_of "run.hdf5" "run.hdf5" /\ file_of "h5" "h5.h5".
Proof. rewrite !file_of_iff. repeat split. Qed.
