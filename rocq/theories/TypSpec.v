(** Vocabulary of the statements about the algorithms over lists of types. *)
From Coq Require Import List Arith Bool ZArith.
Import ListNotations.

(** A depth logarithmic in the number of types. *)
Definition deep {A} (l : list A) (d : nat) : Prop := exists k, length l <= 2 ^ k /\ k < d.

(** How many elements satisfy [p]. *)
Fixpoint howmany {A} (p : A -> bool) (l : list A) : nat :=
  match l with
  | [] => 0
  | x :: t => (if p x then 1 else 0) + howmany p t
  end.

(** [k] is the position of the first element with [p], the length if there is none. *)
Definition first_with {A} (p : A -> bool) (l : list A) (k : nat) : Prop :=
  k <= length l /\ (forall i x, i < k -> nth_error l i = Some x -> p x = false)
  /\ (forall x, nth_error l k = Some x -> p x = true).

(** [x] is the first of the elements with the greatest / least key. *)
Definition first_max {A} (key : A -> Z) (l : list A) (x : A) : Prop :=
  exists i, nth_error l i = Some x /\ (forall j y, nth_error l j = Some y -> (key y <= key x)%Z)
    /\ (forall j y, j < i -> nth_error l j = Some y -> (key y < key x)%Z).
Definition first_min {A} (key : A -> Z) (l : list A) (x : A) : Prop :=
  exists i, nth_error l i = Some x /\ (forall j y, nth_error l j = Some y -> (key x <= key y)%Z)
    /\ (forall j y, j < i -> nth_error l j = Some y -> (key x < key y)%Z).
