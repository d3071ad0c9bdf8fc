(** What stable sorting and the permutation generators compute.  Independent of the models. *)
From Coq Require Import List Arith Bool Permutation.
From Verif Require Import SearchSpec OrderSpec SetSpec.
Import ListNotations.

(** [out] has the elements of [xs] in sorted order, equivalent ones in their old order. *)
Definition stable_sort_of {A} (comp : A -> A -> bool) (xs out : list A) : Prop :=
  sorted_list comp out /\ forall z, class comp z out = class comp z xs.

(** [a] precedes [b] in the lexicographic order induced by [comp]: there is a first position
    where they are not equivalent, and there [a] has the lesser element (lists of equal
    length). *)
Fixpoint before {A} (comp : A -> A -> bool) (a b : list A) : Prop :=
  match a, b with
  | x :: a, y :: b => comp x y = true \/ (equivalent comp x y /\ before comp a b)
  | _, _ => False
  end.

(** Elementwise equivalence. *)
Definition alike {A} (comp : A -> A -> bool) (a b : list A) : Prop := Forall2 (equivalent comp) a b.

(** [ys] is the rearrangement of [xs] that comes next. *)
Definition next_of {A} (comp : A -> A -> bool) (xs ys : list A) : Prop :=
  Permutation xs ys /\ before comp xs ys /\
  forall zs, Permutation xs zs -> before comp xs zs -> before comp zs ys -> False.

(** No rearrangement of [xs] comes after (before) it. *)
Definition is_last_perm {A} (comp : A -> A -> bool) (xs : list A) : Prop :=
  forall zs, Permutation xs zs -> ~ before comp xs zs.
Definition is_first_perm {A} (comp : A -> A -> bool) (xs : list A) : Prop :=
  forall zs, Permutation xs zs -> ~ before comp zs xs.

(** The contents of the range after calling [step] n times, each call returning true. *)
Fixpoint reaches {A} (step : list A -> list A -> Prop) (n : nat) (xs ys : list A) : Prop :=
  match n with
  | 0 => xs = ys
  | S n => exists zs, step xs zs /\ reaches step n zs ys
  end.
