(** NpFacts.v -- proofs about Np.v. *)
From Coq Require Import Reals ZArith List Bool Lra Lia.
From Verif Require Import Num NumFacts Np.
Import ListNotations.

Lemma mapM_ok {A B} (f : A -> B) l : mapM (fun x => Ok (f x)) l = Ok (map f l).
Proof. induction l; simpl; auto. now rewrite IHl. Qed.
Lemma mapM_ext {A B} (f g : A -> res B) l : (forall x, In x l -> f x = g x) -> mapM f l = mapM g l.
Proof.
  induction l; simpl; auto. intros H. rewrite H by auto. rewrite IHl; auto.
Qed.
Lemma map2M_ok {A B C} (f : A -> B -> C) l1 l2 : map2M (fun x y => Ok (f x y)) l1 l2 = Ok (map2 f l1 l2).
Proof. revert l2; induction l1 as [|x t IH]; destruct l2; simpl; auto. now rewrite IH. Qed.
Lemma map2_length {A B C} (f : A -> B -> C) l1 l2 : length (map2 f l1 l2) = Nat.min (length l1) (length l2).
Proof. revert l2; induction l1 as [|x t IH]; destruct l2; simpl; auto. Qed.
Lemma map2_map {X A B C} (f : A -> B -> C) (g : X -> A) (h : X -> B) l :
  map2 f (map g l) (map h l) = map (fun x => f (g x) (h x)) l.
Proof. induction l; simpl; congruence. Qed.
Lemma map2_map_l {X A B C} (f : A -> B -> C) (g : X -> A) l1 l2 :
  map2 f (map g l1) l2 = map2 (fun x => f (g x)) l1 l2.
Proof. revert l2; induction l1; destruct l2; simpl; congruence. Qed.
Lemma map2_map_r {X A B C} (f : A -> B -> C) (g : X -> B) l1 l2 :
  map2 f l1 (map g l2) = map2 (fun x y => f x (g y)) l1 l2.
Proof. revert l2; induction l1; destruct l2; simpl; congruence. Qed.
Lemma map_map2 {A B C D} (g : C -> D) (f : A -> B -> C) l1 l2 :
  map g (map2 f l1 l2) = map2 (fun x y => g (f x y)) l1 l2.
Proof. revert l2; induction l1; destruct l2; simpl; congruence. Qed.

Lemma map2_nth {A B C} (f : A -> B -> C) l1 l2 i :
  nth_error (map2 f l1 l2) i =
  match nth_error l1 i, nth_error l2 i with Some x, Some y => Some (f x y) | _, _ => None end.
Proof.
  revert l2 i. induction l1 as [|x t IH]; intros [|y s] [|i]; simpl; auto.
  - now destruct (nth_error t i).
Qed.

Lemma bzip_eq {A B C} (f : A -> B -> C) l1 l2 : length l1 = length l2 -> bzip f l1 l2 = Ok (map2 f l1 l2).
Proof. intros H. unfold bzip, bzipM. rewrite H, Nat.eqb_refl. apply map2M_ok. Qed.
Lemma bzipM_eq {A B C} (f : A -> B -> res C) l1 l2 : length l1 = length l2 -> bzipM f l1 l2 = map2M f l1 l2.
Proof. intros H. unfold bzipM. now rewrite H, Nat.eqb_refl. Qed.
Lemma bzip_map {X A B C} (f : A -> B -> C) (g : X -> A) (h : X -> B) l :
  bzip f (map g l) (map h l) = Ok (map (fun x => f (g x) (h x)) l).
Proof. rewrite bzip_eq by now rewrite !map_length. now rewrite map2_map. Qed.
Lemma bzip_single_l {A B C} (f : A -> B -> C) x l : bzip f [x] l = Ok (map (f x) l).
Proof.
  unfold bzip, bzipM. destruct l as [|y [|z t]]; simpl; auto.
  change (mapM (fun y0 => Ok (f x y0)) (y :: z :: t) = Ok (map (f x) (y :: z :: t))). apply mapM_ok.
Qed.
Lemma bzip_single_r {A B C} (f : A -> B -> C) l y : bzip f l [y] = Ok (map (fun x => f x y) l).
Proof.
  unfold bzip, bzipM. destruct l as [|a [|b t]]; simpl; auto.
  change (mapM (fun x => Ok (f x y)) (a :: b :: t) = Ok (map (fun x => f x y) (a :: b :: t))). apply mapM_ok.
Qed.
Lemma bzipM_single_l {A B C} (f : A -> B -> res C) x l : bzipM f [x] l = mapM (f x) l.
Proof.
  unfold bzipM. destruct l as [|y [|z t]]; simpl; auto. 
Qed.
Lemma bzipM_single_r {A B C} (f : A -> B -> res C) l y : bzipM f l [y] = mapM (fun x => f x y) l.
Proof.
  unfold bzipM. destruct l as [|a [|b t]]; simpl; auto.
Qed.

Lemma map2M_mapM {X A B C} (f : A -> B -> res C) (g : X -> A) (h : X -> B) l :
  map2M f (map g l) (map h l) = mapM (fun x => f (g x) (h x)) l.
Proof. induction l; simpl; auto. destruct (f (g a) (h a)); simpl; auto. now rewrite IHl. Qed.
Lemma bzipM_map {X A B C} (f : A -> B -> res C) (g : X -> A) (h : X -> B) l :
  bzipM f (map g l) (map h l) = mapM (fun x => f (g x) (h x)) l.
Proof. rewrite bzipM_eq by now rewrite !map_length. apply map2M_mapM. Qed.

(** select / scatter *)
Lemma select_map {X A} (p : X -> bool) (g : X -> A) l :
  select (map p l) (map g l) = map g (filter p l).
Proof. induction l; simpl; auto. destruct (p a); simpl; congruence. Qed.
Lemma select_filter {A} (p : A -> bool) l : select (map p l) l = filter p l.
Proof. induction l; simpl; auto. destruct (p a); simpl; congruence. Qed.
Lemma select_length {A} m (l : list A) : length m = length l ->
  length (select m l) = length (filter (fun b => b) m).
Proof.
  revert l. induction m as [|b m IH]; intros [|x l] H; simpl in *; auto; try discriminate.
  destruct b; simpl; rewrite IH; auto.
Qed.
Lemma scatter_length {A} m v (l : list A) : length (scatter m v l) = length l.
Proof.
  revert v l. induction m as [|b m IH]; intros v [|x l]; simpl; auto.
  - destruct b; auto.
  - destruct b; [destruct v|]; simpl; rewrite IH; auto.
Qed.
Lemma scatter_map {X B} (p : X -> bool) (f g : X -> B) l :
  scatter (map p l) (map f (filter p l)) (map g l) = map (fun x => if p x then f x else g x) l.
Proof.
  induction l as [|x l IH]; simpl; auto. destruct (p x); simpl; now rewrite IH.
Qed.

Lemma combine_fst {A B} (l : list A) (l' : list B) : length l = length l' -> map fst (combine l l') = l.
Proof. revert l'; induction l; destruct l'; simpl; intros; auto; try discriminate. f_equal; auto. Qed.
Lemma combine_snd {A B} (l : list A) (l' : list B) : length l = length l' -> map snd (combine l l') = l'.
Proof. revert l'; induction l; destruct l'; simpl; intros; auto; try discriminate. f_equal; auto. Qed.

Lemma filter_all {A} (p : A -> bool) l : (forall x, In x l -> p x = true) -> filter p l = l.
Proof. induction l; simpl; auto. intros H. rewrite H by auto. f_equal. auto. Qed.

(** linspace *)
Lemma linspace0_length s n : length (linspace0 s n) = n.
Proof. destruct n as [|[|n]]; auto. unfold linspace0. now rewrite map_length, seq_length. Qed.
Lemma linspace0_nth (T : R) n i : (2 <= n)%nat -> (i < n)%nat ->
  nth_error (linspace0 (Fin T) n) i = Some (Fin (INR i / INR (n - 1) * T)).
Proof.
  intros Hn Hi. destruct n as [|[|n]]; try lia.
  replace (S (S n) - 1)%nat with (S n) by lia. unfold linspace0.
  rewrite nth_error_map, (nth_error_nth' _ 0%nat) by (rewrite seq_length; lia).
  rewrite seq_nth by lia. reflexivity.
Qed.

(** nth_error of set_nth-style loops and misc *)
Lemma nth_error_ext {A} (l l' : list A) : (forall i, nth_error l i = nth_error l' i) -> l = l'.
Proof.
  revert l'. induction l as [|x l IH]; intros [|y l'] H; auto.
  - specialize (H 0%nat). discriminate.
  - specialize (H 0%nat). discriminate.
  - f_equal; [specialize (H 0%nat); now inversion H|]. apply IH. intros i. apply (H (S i)).
Qed.

(** Broadcasting a column against rows. *)
Lemma bzip2_col_rows {X A B C} (f : A -> B -> C) (g : X -> A) (r : X -> list B) xs :
  bzip2 f (newaxis (map g xs)) (map r xs) = Ok (map (fun x => map (f (g x)) (r x)) xs).
Proof.
  unfold bzip2, newaxis. rewrite map_map, bzipM_map. erewrite mapM_ext.
  2:{ intros x _. apply bzip_single_l. }
  apply mapM_ok.
Qed.
Lemma bzip2_rows_col {X A B C} (f : A -> B -> C) (r : X -> list A) (g : X -> B) xs :
  bzip2 f (map r xs) (newaxis (map g xs)) = Ok (map (fun x => map (fun y => f y (g x)) (r x)) xs).
Proof.
  unfold bzip2, newaxis. rewrite map_map, bzipM_map. erewrite mapM_ext.
  2:{ intros x _. apply bzip_single_r. }
  apply mapM_ok.
Qed.
Lemma np_repeat_map {X A} (v : A) (xs : list X) : np_repeat v (length xs) = map (fun _ => v) xs.
Proof. unfold np_repeat. induction xs; simpl; congruence. Qed.
