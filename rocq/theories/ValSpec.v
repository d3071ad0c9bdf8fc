(** Specification vocabulary of the valarrays. *)
From Coq Require Import List Arith ZArith Bool.
From Verif Require Import Base OrderSpec FixModel ValModel.
Import ListNotations.
Open Scope nat_scope.

(** The valarray [c] with room for [N] elements has the elements [xs]. *)
Definition holds {A} (N : nat) (c : cont A) (xs : list A) : Prop :=
  coff c = 0 /\ length (cbase c) = N /\ csize c = length xs /\ length xs <= N /\ firstn (length xs) (cbase c) = xs.

(** The valarray with the elements [xs], in which the room behind them holds [z]. *)
Definition varray {A} (z : A) (N : nat) (xs : list A) : cont A :=
  Cont (xs ++ repeat z (N - length xs)) 0 (length xs).

(** As many elements as fit, or the exception. *)
Definition if_fits {A} (N : nat) (xs : list A) (r : thrown (cont A)) (z : A) : Prop :=
  (length xs <= N -> r = Returns (varray z N xs)) /\ (N < length xs -> r = Throws BstrModel.Length_error).

(** The element [i] places to the right of each element, [z] where there is none. *)
Definition shifted {A} (z : A) (xs : list A) (i : Z) : list A :=
  map (fun k => let j := (Z.of_nat k + i)%Z in
                if ((0 <=? j) && (j <? Z.of_nat (length xs)))%Z then nth (Z.to_nat j) xs z else z)
      (seq 0 (length xs)).
(** The same, the elements being arranged in a circle. *)
Definition circled {A} (z : A) (xs : list A) (i : Z) : list A :=
  map (fun k => nth (Z.to_nat ((Z.of_nat k + i) mod Z.of_nat (length xs))) xs z) (seq 0 (length xs)).

(** [f] reads the elements [xs]. *)
Definition reads {A} (f : nat -> res A) (xs : list A) : Prop :=
  forall i x, nth_error xs i = Some x -> f i = Ok x.

(** The view shows the positions [ps] of the array, in this order. *)
Definition picks (v : view) (ps : list nat) : Prop := vlen v = length ps /\ reads (vidx v) ps.

(** The positions of the true elements. *)
Definition trues (bs : list bool) : list nat := filter (fun i => nth i bs false) (seq 0 (length bs)).

(** The positions of the points of a grid: [start] plus a multiple of each stride, less than the size
    in this direction; the last index varies fastest. *)
Fixpoint grid (start : nat) (sizes strides : list nat) : list nat :=
  match sizes, strides with
  | n :: sizes, s :: strides => flat_map (fun j => grid (start + s * j) sizes strides) (seq 0 n)
  | _, _ => [start]
  end.

(** [xs'] is [xs] with the element at the i-th of [ps] combined with the i-th of [ys], as far as [ys] goes. *)
Definition spread {A} (op : A -> A -> A) (ps : list nat) (ys xs xs' : list A) : Prop :=
  length xs' = length xs /\
  (forall i p x y, nth_error ps i = Some p -> nth_error ys i = Some y -> nth_error xs p = Some x ->
     nth_error xs' p = Some (op x y)) /\
  (forall p, ~ In p (firstn (length ys) ps) -> nth_error xs' p = nth_error xs p).
