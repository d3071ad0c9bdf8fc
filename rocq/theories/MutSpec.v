(** Specification vocabulary of the mutating algorithms.  Independent of the models. *)
From Coq Require Import List Arith Bool Permutation.
From Verif Require Import SearchSpec OrderSpec.
Import ListNotations.

(** The memory [m] with the elements [xs] stored from position [i] on and everything
    else unchanged. *)
Definition paste {A} (m : list A) (i : nat) (xs : list A) : list A :=
  firstn i m ++ xs ++ skipn (i + length xs) m.

(** [m'] is [m] with the elements of [first, last) rearranged and nothing else changed. *)
Definition rearranged {A} (m : list A) (first last : nat) (m' : list A) : Prop :=
  exists xs, Permutation (slice m first last) xs /\ m' = paste m first xs.

(** A destination that a front-to-back pass over [first, last) may write to from
    [result] on. *)
Definition forward_safe (first last result : nat) : Prop :=
  result <= first \/ last <= result.

(** A destination ending at [result] that a back-to-front pass may write to. *)
Definition backward_safe (first last result : nat) : Prop :=
  last <= result \/ result <= first.

(** The elements of [xs] that are not related to the last element kept before them,
    [v] being the one kept last. *)
Fixpoint keep_from {A} (pred : A -> A -> bool) (v : A) (xs : list A) : list A :=
  match xs with
  | [] => []
  | x :: t => if pred v x then keep_from pred v t else x :: keep_from pred x t
  end.

Definition keep_distinct {A} (pred : A -> A -> bool) (xs : list A) : list A :=
  match xs with
  | [] => []
  | x :: t => x :: keep_from pred x t
  end.

(** The longest prefix of elements satisfying [p]. *)
Fixpoint prefix_while {A} (p : A -> bool) (xs : list A) : list A :=
  match xs with
  | [] => []
  | x :: t => if p x then x :: prefix_while p t else []
  end.

(** The first [n] values of a generator and its state afterwards. *)
Fixpoint draws {A G} (gen : G -> A * G) (n : nat) (g : G) : list A * G :=
  match n with
  | 0 => ([], g)
  | S n' => let '(x, g1) := gen g in let '(xs, g2) := draws gen n' g1 in (x :: xs, g2)
  end.

(** A function with a state applied to the elements of a list from left to right: the
    elements it leaves and its state afterwards. *)
Fixpoint map_state {A F} (f : F -> A -> F * A) (st : F) (xs : list A) : list A * F :=
  match xs with
  | [] => ([], st)
  | x :: t => let '(st1, y) := f st x in let '(ys, st2) := map_state f st1 t in (y :: ys, st2)
  end.

(** Elementwise combination of two lists. *)
Fixpoint map2 {A} (op : A -> A -> A) (xs ys : list A) : list A :=
  match xs, ys with
  | x :: xt, y :: yt => op x y :: map2 op xt yt
  | _, _ => []
  end.
