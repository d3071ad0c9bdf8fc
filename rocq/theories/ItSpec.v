(** What iterator adaptors are supposed to do.  Independent of the models: an iterator
    type is any type with its operations, given as relations or functions. *)
From Coq Require Import List Arith Bool ZArith.
Import ListNotations.

(** [i] increments of [b] lead to [s]. *)
Inductive after {S} (next : S -> S -> Prop) (b : S) : nat -> S -> Prop :=
| after_0 : after next b 0 b
| after_S i s t : after next b i s -> next s t -> after next b (Datatypes.S i) t.

(** Incrementing [b] again and again visits exactly the elements of [xs] and then arrives
    at [e]; two iterators on the way are equal exactly if they are equally far. *)
Definition traverses {S A} (next : S -> S -> Prop) (deref : S -> A -> Prop) (eq : S -> S -> bool)
    (b e : S) (xs : list A) : Prop :=
  after next b (length xs) e /\
  (forall i x, nth_error xs i = Some x -> exists s, after next b i s /\ deref s x) /\
  (forall i j s t, i <= length xs -> j <= length xs -> after next b i s -> after next b j t ->
     eq s t = (i =? j)) /\
  (forall i s t, after next b i s -> after next b i t -> i <= length xs -> s = t).

(** Decrementing undoes incrementing. *)
Definition retreats {S A} (next prev : S -> S -> Prop) (b : S) (xs : list A) : Prop :=
  forall i s t, i < length xs -> after next b i s -> next s t -> prev t s.

(** [it + n], [it - n] and [it[n]] for all the [n] that stay in the range. *)
Definition offsets {S A} (next : S -> S -> Prop) (plus minus : S -> Z -> S -> Prop) (sub : S -> Z -> A -> Prop)
    (b : S) (xs : list A) : Prop :=
  forall i j s t, i <= length xs -> j <= length xs -> after next b i s -> after next b j t ->
    plus s (Z.of_nat j - Z.of_nat i)%Z t /\ minus t (Z.of_nat j - Z.of_nat i)%Z s /\
    (forall x, nth_error xs j = Some x -> sub s (Z.of_nat j - Z.of_nat i)%Z x).

(** [t - s] *)
Definition measures {S A} (next : S -> S -> Prop) (diff : S -> S -> Z -> Prop) (b : S) (xs : list A) : Prop :=
  forall i j s t, i <= length xs -> j <= length xs -> after next b i s -> after next b j t ->
    diff t s (Z.of_nat j - Z.of_nat i)%Z.

(** [s < t], [s > t], [s <= t], [s >= t] *)
Definition ordered {S A} (next : S -> S -> Prop) (lt gt le ge : S -> S -> bool) (b : S) (xs : list A) : Prop :=
  forall i j s t, i <= length xs -> j <= length xs -> after next b i s -> after next b j t ->
    lt s t = (i <? j) /\ gt s t = (j <? i) /\ le s t = (i <=? j) /\ ge s t = (j <=? i).

(** x1 y1 x2 y2 ... as long as both sequences last *)
Fixpoint interleave {A} (xs ys : list A) : list A :=
  match xs, ys with
  | x :: xs', y :: ys' => x :: y :: interleave xs' ys'
  | _, _ => []
  end.

(** [out] is the elements 0, w, 2w, ... of [xs]. *)
Definition every_nth {A} (w : nat) (xs out : list A) : Prop :=
  forall i, nth_error out i = nth_error xs (i * w).

(** the elements of [xs] that differ from the one before them, which is [x] for the first *)
Fixpoint changes {A} (eq : A -> A -> bool) (x : A) (xs : list A) : list A :=
  match xs with
  | [] => []
  | y :: t => if eq x y then changes eq y t else y :: changes eq y t
  end.

(** [xs] with every run of equal neighbours reduced to its first element *)
Definition run_heads {A} (eq : A -> A -> bool) (xs : list A) : list A :=
  match xs with
  | [] => []
  | x :: t => x :: changes eq x t
  end.

(** [x] limited to [lo, hi] *)
Definition saturated (lo hi x : Z) : Z := Z.max lo (Z.min hi x).
