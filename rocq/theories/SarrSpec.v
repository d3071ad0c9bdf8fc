(** Specification vocabulary of sub_array and the operations on containers. *)
From Coq Require Import List ZArith Lia.
From Verif Require Import Base SarrModel.
Import ListNotations.
Open Scope Z_scope.

(** The sub_array [s] shows the elements [xs], with [a] before and [b] behind them in its array. *)
Definition shows {A} (s : sub A) (a xs b : list A) : Prop :=
  sbase s = a ++ xs ++ b /\ sfirst s = len a /\ slast s = len a + len xs.

(** The sub_array showing [xs] between [a] and [b]. *)
Definition view_of {A} (a xs b : list A) : sub A := Sub (a ++ xs ++ b) (len a) (len a + len xs).

(** The container of the kind of an operand: a sub_array keeps what surrounds its elements, an array
    consists of elements only. *)
Definition kind_of {A} (isub : bool) (a xs b : list A) : sub A :=
  if isub then view_of a xs b else view_of [] (a ++ xs ++ b) [].

(** An operand: a sub_array, or an array, which has nothing around its elements. *)
Definition operand {A} (isub : bool) (s : sub A) (a xs b : list A) : Prop :=
  shows s a xs b /\ (isub = false -> a = [] /\ b = []).

(** The sequence [xs] precedes [ys] in the lexicographical order of [lt]. *)
Definition precedes {A} (lt : A -> A -> bool) (xs ys : list A) : Prop :=
  exists p q r s, xs = p ++ r /\ ys = q ++ s /\
    Forall2 (fun x y => lt x y = false /\ lt y x = false) p q /\
    (r = [] /\ s <> [] \/ exists x y r' s', r = x :: r' /\ s = y :: s' /\ lt x y = true).

(** [values] n times. *)
Definition times {A} (n : nat) (values : list A) : list A := concat (repeat values n).
