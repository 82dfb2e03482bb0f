(** Np.v -- the numpy list/array operations LEGWORK uses, on lists.  A 1-D array is a list, a 2-D array a list of
    rows and so on; broadcasting is numpy's rule (equal lengths, or length 1 on one side), errors are values. *)
From Coq Require Import Reals ZArith List Bool.
From Verif Require Import Num.
Import ListNotations.
Open Scope res_scope.

(** Sequence a list of results: the first error wins. *)
Fixpoint mapM {A B} (f : A -> res B) (l : list A) : res (list B) :=
  match l with
  | [] => Ok []
  | x :: t => y <- f x ;; ys <- mapM f t ;; Ok (y :: ys)
  end.

(** Point-wise combination of two lists of the same length. *)
Fixpoint map2 {A B C} (f : A -> B -> C) (l1 : list A) (l2 : list B) : list C :=
  match l1, l2 with
  | x :: t1, y :: t2 => f x y :: map2 f t1 t2
  | _, _ => []
  end.
Fixpoint map2M {A B C} (f : A -> B -> res C) (l1 : list A) (l2 : list B) : res (list C) :=
  match l1, l2 with
  | x :: t1, y :: t2 => z <- f x y ;; zs <- map2M f t1 t2 ;; Ok (z :: zs)
  | _, _ => Ok []
  end.

(** numpy broadcasting along one axis: equal lengths, or one of the lengths is 1, else ValueError
    ("operands could not be broadcast together"). *)
Definition bzipM {A B C} (f : A -> B -> res C) (l1 : list A) (l2 : list B) : res (list C) :=
  if (length l1 =? length l2)%nat then map2M f l1 l2
  else match l1, l2 with
       | [x], _ => mapM (f x) l2
       | _, [y] => mapM (fun x => f x y) l1
       | _, _ => Err ValueError
       end.
Definition bzip {A B C} (f : A -> B -> C) (l1 : list A) (l2 : list B) : res (list C) :=
  bzipM (fun x y => Ok (f x y)) l1 l2.
(** Broadcasting of two 2-D arrays. *)
Definition bzip2 {A B C} (f : A -> B -> C) (a1 : list (list A)) (a2 : list (list B)) : res (list (list C)) :=
  bzipM (bzip f) a1 a2.
(** Broadcasting of two 3-D arrays. *)
Definition bzip3 {A B C} (f : A -> B -> C) (a1 : list (list (list A))) (a2 : list (list (list B)))
  : res (list (list (list C))) :=
  bzipM (bzip2 f) a1 a2.

(** [x[:, np.newaxis]] for a 1-D array, and [x[..., np.newaxis]] for a 2-D one. *)
Definition newaxis {A} (l : list A) : list (list A) := map (fun x => [x]) l.
Definition newaxis2 {A} (l : list (list A)) : list (list (list A)) := map (fun r => map (fun x => [x]) r) l.

(** np.repeat(x, n). *)
Definition np_repeat {A} (x : A) (n : nat) : list A := repeat x n.

(** Boolean-mask read [x[mask]] and write [x[mask] = vals] (same length mask; [vals] consumed in order). *)
Fixpoint select {A} (mask : list bool) (l : list A) : list A :=
  match mask, l with
  | b :: m, x :: t => if b then x :: select m t else select m t
  | _, _ => []
  end.
Fixpoint scatter {A} (mask : list bool) (vals : list A) (l : list A) : list A :=
  match mask, l with
  | true :: m, x :: t => match vals with v :: vs => v :: scatter m vs t | [] => x :: scatter m [] t end
  | false :: m, x :: t => x :: scatter m vals t
  | _, _ => l
  end.

(** Sum of a list (np.sum along an axis), from left to right. *)
Definition nsum (l : list num) : num := fold_left nadd l (Fin 0).

(** np.linspace(0, stop, n) along one row (default endpoint=True): n points 0, stop/(n-1), ..., stop;
    [n = 1] gives the single point 0. *)
Definition linspace0 (stop : num) (n : nat) : list num :=
  match n with
  | O => []
  | 1%nat => [Fin 0]
  | S m => map (fun i => nmul (Fin (INR i / INR m)) stop) (seq 0 n)
  end.

(** np.trapezoid(y, x): sum of (x_{i+1} - x_i) (y_{i+1} + y_i) / 2. *)
Fixpoint trapz (y x : list num) : num :=
  match y, x with
  | y0 :: ((y1 :: _) as ys), x0 :: ((x1 :: _) as xs) =>
      nadd (nmul (nsub x1 x0) (ndiv (nadd y1 y0) (Fin 2))) (trapz ys xs)
  | _, _ => Fin 0
  end.

(** np.argmax on one axis: the first index with the largest value; nan counts as largest (numpy returns the
    first nan).  [best] is the running maximum at index [bi]. *)
Fixpoint argmax_from (best : num) (bi i : nat) (l : list num) : nat :=
  match l with
  | [] => bi
  | x :: t =>
      if is_nan best then bi
      else if is_nan x || nlt best x then argmax_from x i (S i) t
      else argmax_from best bi (S i) t
  end.
Definition argmax (l : list num) : nat :=
  match l with [] => O | x :: t => argmax_from x 0 1 t end.
(** np.argmin: first index with the smallest value (nan counts as smallest). *)
Fixpoint argmin_from (best : num) (bi i : nat) (l : list num) : nat :=
  match l with
  | [] => bi
  | x :: t =>
      if is_nan best then bi
      else if is_nan x || nlt x best then argmin_from x i (S i) t
      else argmin_from best bi (S i) t
  end.
Definition argmin (l : list num) : nat :=
  match l with [] => O | x :: t => argmin_from x 0 1 t end.

(** x.max() of a non-empty row (nan propagates). *)
Definition row_max (l : list num) : num :=
  match l with [] => NaN | x :: t => fold_left nmax t x end.

(** np.arange(1, k + 1). *)
Definition arange1 (k : nat) : list Z := map Z.of_nat (seq 1 k).
