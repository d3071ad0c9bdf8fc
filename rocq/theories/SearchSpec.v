(** What the non-modifying algorithms are supposed to return.  Independent of the
    models: only lists, positions and the user's predicate occur here. *)
From Coq Require Import List Arith Bool.
Import ListNotations.

(** [first, last) is a valid range of the sequence [l]. *)
Definition valid {A} (l : list A) (first last : nat) : Prop :=
  first <= last /\ last <= length l.

(** The element at position [i] satisfies [p]. *)
Definition sat {A} (p : A -> bool) (l : list A) (i : nat) : Prop :=
  exists x, nth_error l i = Some x /\ p x = true.

(** The elements at positions [i] of [l1] and [j] of [l2] are related by [p]. *)
Definition rel {A B} (p : A -> B -> bool) (l1 : list A) (i : nat) (l2 : list B) (j : nat) : Prop :=
  exists x y, nth_error l1 i = Some x /\ nth_error l2 j = Some y /\ p x y = true.

(** [r] is the first position of [first, last) with property [P], or [last]. *)
Definition is_first (P : nat -> Prop) (first last r : nat) : Prop :=
  first <= r <= last /\ (forall j, first <= j < r -> ~ P j) /\ (r < last -> P r).

(** [r] is the last position of [first, last) with property [P], or [last]. *)
Definition is_last (P : nat -> Prop) (first last r : nat) : Prop :=
  (first <= r < last /\ P r /\ forall j, r < j < last -> ~ P j)
  \/ (r = last /\ forall j, first <= j < last -> ~ P j).

(** [n] positions of [first, last) have property [P]: they are the elements of a
    duplicate-free list. *)
Definition has_count (P : nat -> Prop) (first last n : nat) : Prop :=
  exists is, NoDup is /\ length is = n /\ forall i, In i is <-> first <= i < last /\ P i.

(** The range [first2, last2) of [l2] occurs in [l1] at position [i], entirely
    before [last1]. *)
Definition occurs_at {A B} (p : A -> B -> bool) (l1 : list A) (last1 : nat)
    (l2 : list B) (first2 last2 : nat) (i : nat) : Prop :=
  i + (last2 - first2) <= last1 /\
  forall k, k < last2 - first2 -> rel p l1 (i + k) l2 (first2 + k).

(** [n] consecutive elements from position [i] on, all before [last], are related
    to [v]. *)
Definition run_at {A B} (p : A -> B -> bool) (l : list A) (last n : nat) (v : B) (i : nat) : Prop :=
  i + n <= last /\ forall k, k < n -> sat (fun x => p x v) l (i + k).

(** The call-depth budget of one algorithm on [n] elements. *)
Definition depth_bound (n : nat) : nat := 2 * Nat.log2 n + 4.
