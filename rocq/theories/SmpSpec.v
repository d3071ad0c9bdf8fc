(** Specification vocabulary of folds, monotonicity and sampling.  Independent of the models. *)
From Coq Require Import List Arith Bool ZArith Sorted.
From Verif Require Import SearchSpec OrderSpec.
Import ListNotations.

(** [r] is the fold of the shortest prefix of [xs] whose fold does not satisfy [go], or of
    all of [xs]. *)
Definition folded_while {A T} (op : T -> A -> T) (go : T -> bool) (xs : list A) (init r : T) : Prop :=
  exists k, k <= length xs /\ r = fold_left op (firstn k xs) init /\
    (forall j, j < k -> go (fold_left op (firstn j xs) init) = true) /\
    (k < length xs -> go r = false).

(** Any two elements of the range, in the order of their positions, are related. *)
Definition monotone (R : Z -> Z -> Prop) (l : list Z) (first last : nat) : Prop :=
  forall i j x y, first <= i -> i < j -> j < last ->
    nth_error l i = Some x -> nth_error l j = Some y -> R x y.

(** [s] consists of elements of [xs] at the positions [ps]. *)
Definition taken {A} (xs : list A) (ps : list nat) (s : list A) : Prop :=
  Forall2 (fun p x => nth_error xs p = Some x) ps s.

(** No element of the population is drawn twice. *)
Definition sample_of {A} (xs s : list A) : Prop :=
  exists ps, NoDup ps /\ taken xs ps s.

(** ... and the order of the population is kept. *)
Definition ordered_sample_of {A} (xs s : list A) : Prop :=
  exists ps, StronglySorted lt ps /\ taken xs ps s.

(** All sequences of draws, the i-th out of [0, nth i ws). *)
Fixpoint all_draws (ws : list nat) : list (list nat) :=
  match ws with
  | [] => [[]]
  | w :: ws => flat_map (fun r => map (cons r) (all_draws ws)) (seq 0 w)
  end.

(** How many members of [ss] satisfy [p]. *)
Definition count {A} (p : A -> bool) (ss : list A) : nat := length (filter p ss).
