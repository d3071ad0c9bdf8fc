(** Common vocabulary of every model: outcomes, checked reads, and the two
    recursion shapes that almost all of Sprout's C++11 constexpr algorithms are
    instances of.  Nothing is proved in this file. *)
From Coq Require Import List Arith Bool ZArith.
Import ListNotations.

(** Outcome of a C++ evaluation.
    - [Ok a]: a value;
    - [UB]: the evaluation dereferenced an iterator outside its sequence (or did
      something else C++ leaves undefined);
    - [Fuel]: the evaluation needed more nested calls (or loop turns) than it was
      given.  Every recursive model takes a depth [d]; it is decremented on each
      nested call and shared by sibling calls, so it is the constexpr call depth
      (-fconstexpr-depth). *)
Inductive res (A : Type) : Type :=
| Ok (a : A)
| UB
| Fuel.
Arguments Ok {A} a.
Arguments UB {A}.
Arguments Fuel {A}.

Definition bind {A B : Type} (m : res A) (f : A -> res B) : res B :=
  match m with
  | Ok a => f a
  | UB => UB
  | Fuel => Fuel
  end.

Declare Scope res_scope.
Delimit Scope res_scope with res.
Notation "x <- m ;; k" := (bind m (fun x => k))
  (at level 61, m at next level, right associativity) : res_scope.
Notation "' p <- m ;; k" := (bind m (fun p => k))
  (at level 61, p pattern, m at next level, right associativity) : res_scope.
Open Scope res_scope.

(** [*it] where [it] is position [i] of the sequence [l]; one past the end (or
    further) is undefined. *)
Definition rd {A : Type} (l : list A) (i : nat) : res A :=
  match nth_error l i with
  | Some x => Ok x
  | None => UB
  end.

(** [*it = x] where [it] is position [i] of the sequence [l]. *)
Fixpoint upd {A : Type} (l : list A) (i : nat) (x : A) : list A :=
  match l, i with
  | [], _ => []
  | _ :: t, 0 => x :: t
  | y :: t, S i' => y :: upd t i' x
  end.

Definition wr {A : Type} (l : list A) (i : nat) (x : A) : res (list A) :=
  if i <? length l then Ok (upd l i x) else UB.

(** The C++11 "doubling" recursion shared by every input/forward-iterator
    version in sprout/algorithm: a pair of functions
<<
    X_impl_1(current, ..., n) =
      STOP(current) ? current'
      : n == 1 ? STEP(current)
      : X_impl_1(X_impl_1(current, ..., n / 2), ..., n - n / 2);
    X_impl(current, ..., n) =
      STOP(current) ? current'
      : X_impl(X_impl_1(current, ..., n), ..., n * 2);
>>
    (e.g. find.hpp 56-90).  [halt s = Some s'] is "STOP(s) holds, return s'"
    (s' = s except in search_one, where the stop branch normalises the state).
    The template is written once here; each algorithm of the models gives its own
    [halt] and [step] with the lines they come from. *)
Section Doubling.
  Context {S : Type}.
  Variable halt : S -> res (option S).
  Variable step : S -> res S.

  Fixpoint dbl_1 (d : nat) (s : S) (n : nat) : res S :=
    match d with
    | 0 => Fuel
    | Datatypes.S d' =>
        h <- halt s ;;
        match h with
        | Some s' => Ok s'
        | None =>
            if n =? 1 then step s
            else s1 <- dbl_1 d' s (n / 2) ;; dbl_1 d' s1 (n - n / 2)
        end
    end.

  Fixpoint dbl (d : nat) (s : S) (n : nat) : res S :=
    match d with
    | 0 => Fuel
    | Datatypes.S d' =>
        h <- halt s ;;
        match h with
        | Some s' => Ok s'
        | None => s1 <- dbl_1 d' s n ;; dbl d' s1 (n * 2)
        end
    end.
End Doubling.

(** STOP branch that returns the state unchanged. *)
Definition stop {S : Type} (b : S -> bool) (s : S) : res (option S) :=
  Ok (if b s then Some s else None).

(** The random-access search recursion (e.g. find.hpp 21-39):
<<
    X_impl_ra(first, last, ..., pivot, found) =
      found != first ? found
      : pivot == 0 ? (TEST(first, last) ? first : last)
      : X_impl_ra(next(first, pivot), last, ..., (distance(first, last) - pivot) / 2,
          X_impl_ra(first, next(first, pivot), ..., pivot / 2, first));
>>
    [test] receives the iterators of the one-element leaf. *)
Fixpoint ra_search (d : nat) (test : nat -> nat -> res bool)
    (first last pivot found : nat) : res nat :=
  match d with
  | 0 => Fuel
  | S d' =>
      if negb (found =? first) then Ok found
      else if pivot =? 0 then
        b <- test first last ;; Ok (if b then first else last)
      else
        f1 <- ra_search d' test first (first + pivot) (pivot / 2) first ;;
        ra_search d' test (first + pivot) last ((last - first - pivot) / 2) f1
  end.

(** Random-access conjunction (e.g. all_of.hpp 21-38):
<<
    X_impl_ra(first, last, ..., pivot) =
      pivot == 0 ? TEST(first)
      : X_impl_ra(first, next(first, pivot), ..., pivot / 2)
        && X_impl_ra(next(first, pivot), last, ..., (distance(first, last) - pivot) / 2);
>> *)
Fixpoint ra_and (d : nat) (test : nat -> nat -> res bool)
    (first last pivot : nat) : res bool :=
  match d with
  | 0 => Fuel
  | S d' =>
      if pivot =? 0 then test first last
      else
        b <- ra_and d' test first (first + pivot) (pivot / 2) ;;
        if b then ra_and d' test (first + pivot) last ((last - first - pivot) / 2)
        else Ok false
  end.

(** The same with [||] (any_of.hpp 21-38). *)
Fixpoint ra_or (d : nat) (test : nat -> nat -> res bool)
    (first last pivot : nat) : res bool :=
  match d with
  | 0 => Fuel
  | S d' =>
      if pivot =? 0 then test first last
      else
        b <- ra_or d' test first (first + pivot) (pivot / 2) ;;
        if b then Ok true
        else ra_or d' test (first + pivot) last ((last - first - pivot) / 2)
  end.
