(** Specification vocabulary of the algorithms that return fixed containers. *)
From Coq Require Import List Arith Bool Permutation.
From Verif Require Import SearchSpec OrderSpec MutSpec FixModel.
Import ListNotations.

(** The elements of the container lie within its internal array. *)
Definition wf {A} (c : cont A) : Prop := coff c + csize c <= length (cbase c).

(** The elements of the container. *)
Definition elems {A} (c : cont A) : list A := slice (cbase c) (coff c) (coff c + csize c).

(** The container with [out] stored at its front: as many elements of [out] as fit; the elements
    behind them and the internal array outside of the container are unchanged. *)
Definition with_front {A} (c : cont A) (out : list A) : cont A :=
  Cont (paste (cbase c) (coff c) (firstn (csize c) out)) (coff c) (csize c).

(** The container with [out] stored at its back: as many of the last elements of [out] as fit. *)
Definition with_back {A} (c : cont A) (out : list A) : cont A :=
  let n := Nat.min (csize c) (length out) in
  Cont (paste (cbase c) (coff c + (csize c - n)) (skipn (length out - n) out)) (coff c) (csize c).

(** [c'] has the elements of [c] in another order, and is otherwise the same. *)
Definition reordered {A} (c c' : cont A) : Prop :=
  coff c' = coff c /\ csize c' = csize c /\
  rearranged (cbase c) (coff c) (coff c + csize c) (cbase c').

(** [out] starts with [inits], and each further element is [gen] of the elements directly before
    it, as many as there are [inits]. *)
Definition follows {A} (gen : list A -> A) (inits out : list A) : Prop :=
  forall i x, nth_error out i = Some x ->
    (i < length inits -> nth_error inits i = Some x) /\
    (length inits <= i -> x = gen (slice out (i - length inits) i)).

(** The element at position [i] of [xs] exchanged with the one at [j]. *)
Definition exchanged {A} (xs : list A) (i j : nat) (ys : list A) : Prop :=
  length ys = length xs /\ nth_error ys i = nth_error xs j /\ nth_error ys j = nth_error xs i /\
  forall n, n <> i -> n <> j -> nth_error ys n = nth_error xs n.

(** A draw stays in the interval. *)
Definition in_interval {G} (dist : G -> nat -> nat -> nat * G) : Prop :=
  forall g a b, a <= b -> a <= fst (dist g a b) <= b.

(** Pairs of positions exchanged one after the other. *)
Inductive exchanges {A} : list A -> list (nat * nat) -> list A -> Prop :=
| ex_nil xs : exchanges xs [] xs
| ex_cons xs i j ys ps zs : exchanged xs i j ys -> exchanges ys ps zs -> exchanges xs ((i, j) :: ps) zs.

(** A source of draws that replays a script: the values of the script modulo the width. *)
Definition scripted (g : list nat) (a b : nat) : nat * list nat :=
  match g with
  | [] => (a, [])
  | r :: g => (a + r mod (b - a + 1), g)
  end.

(** All scripts of [n] draws out of [0, k). *)
Fixpoint scripts (n k : nat) : list (list nat) :=
  match n with
  | 0 => [[]]
  | S n => flat_map (fun r => map (cons r) (scripts n k)) (seq 0 k)
  end.
