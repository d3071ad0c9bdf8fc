(** Specification vocabulary of the numeric algorithms.  Independent of the models. *)
From Coq Require Import List Arith.
Import ListNotations.

(** All left folds of the non-empty prefixes of [xs], starting from [a]:
    [op a x0; op (op a x0) x1; ...]. *)
Fixpoint prefix_folds {A B} (op : B -> A -> B) (a : B) (xs : list A) : list B :=
  match xs with
  | [] => []
  | x :: t => op a x :: prefix_folds op (op a x) t
  end.

(** The inclusive scan without an initial value. *)
Definition inclusive {A} (op : A -> A -> A) (xs : list A) : list A :=
  match xs with
  | [] => []
  | x :: t => x :: prefix_folds op x t
  end.

(** The exclusive scan: for each element the fold of what stands before it. *)
Fixpoint exclusive {A B} (op : B -> A -> B) (a : B) (xs : list A) : list B :=
  match xs with
  | [] => []
  | x :: t => a :: exclusive op (op a x) t
  end.

(** Each element combined with its predecessor [a]. *)
Fixpoint differences {A} (op : A -> A -> A) (a : A) (xs : list A) : list A :=
  match xs with
  | [] => []
  | x :: t => op x a :: differences op x t
  end.

Definition adjacent {A} (op : A -> A -> A) (xs : list A) : list A :=
  match xs with
  | [] => []
  | x :: t => x :: differences op x t
  end.

(** [v; succ v; succ (succ v); ...], [n] of them. *)
Fixpoint counting {A} (succ : A -> A) (v : A) (n : nat) : list A :=
  match n with
  | 0 => []
  | S n' => v :: counting succ (succ v) n'
  end.
