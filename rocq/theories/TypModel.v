(** Model of the algorithms over lists of types: sprout/type/algorithm and sprout/tpp/algorithm.
    A tuple of types is a list; types::apply<Predicate, T>::type::value is a bool, std::is_same an equality
    test.  An index outside of the tuple makes the instantiation ill-formed: UB.  [d] is the instantiation
    depth. *)
From Coq Require Import List Arith Bool ZArith.
From Verif Require Import Base FixModel.
Import ListNotations.

Section Tuple.
  Context {A : Type}.
  Variable l : list A.
  Variable p : A -> bool.

  (** ** types::all_of (type/algorithm/all_of.hpp 21-66), types::all_of_same (all_of_same.hpp 20-65) *)
  Fixpoint ty_all_of_impl (d first last pivot : nat) : res bool :=
    match d with
    | 0 => Fuel
    | S d =>
        if pivot =? 0 then x <- rd l first ;; Ok (p x)
        else
          a <- ty_all_of_impl d first (first + pivot) (pivot / 2) ;;
          b <- ty_all_of_impl d (first + pivot) last ((last - first - pivot) / 2) ;;
          Ok (a && b)
    end.
  Definition ty_all_of (d : nat) : res bool :=
    if length l =? 0 then Ok true else ty_all_of_impl d 0 (length l) (length l / 2).

  (** ** types::any_of (any_of.hpp 21-66), any_of_same (any_of_same.hpp 20-65), and with them contains_if
      and contains *)
  Fixpoint ty_any_of_impl (d first last pivot : nat) : res bool :=
    match d with
    | 0 => Fuel
    | S d =>
        if pivot =? 0 then x <- rd l first ;; Ok (p x)
        else
          a <- ty_any_of_impl d first (first + pivot) (pivot / 2) ;;
          b <- ty_any_of_impl d (first + pivot) last ((last - first - pivot) / 2) ;;
          Ok (a || b)
    end.
  Definition ty_any_of (d : nat) : res bool :=
    if length l =? 0 then Ok false else ty_any_of_impl d 0 (length l) (length l / 2).

  (** ** types::none_of (none_of.hpp 21-66), none_of_same (none_of_same.hpp 20-65); one_of_impl_1 is the same
      (one_of.hpp 21-51, one_of_same.hpp 20-50) *)
  Fixpoint ty_none_of_impl (d first last pivot : nat) : res bool :=
    match d with
    | 0 => Fuel
    | S d =>
        if pivot =? 0 then x <- rd l first ;; Ok (negb (p x))
        else
          a <- ty_none_of_impl d first (first + pivot) (pivot / 2) ;;
          b <- ty_none_of_impl d (first + pivot) last ((last - first - pivot) / 2) ;;
          Ok (a && b)
    end.
  Definition ty_none_of (d : nat) : res bool :=
    if length l =? 0 then Ok true else ty_none_of_impl d 0 (length l) (length l / 2).

  (** ** types::one_of (one_of.hpp 52-101), one_of_same (one_of_same.hpp 51-100); the operands of ?: are all
      instantiated *)
  Fixpoint ty_one_of_impl (d first last pivot : nat) : res bool :=
    match d with
    | 0 => Fuel
    | S d =>
        if pivot =? 0 then x <- rd l first ;; Ok (p x)
        else
          a <- ty_one_of_impl d first (first + pivot) (pivot / 2) ;;
          b <- ty_none_of_impl d (first + pivot) last ((last - first - pivot) / 2) ;;
          c <- ty_one_of_impl d (first + pivot) last ((last - first - pivot) / 2) ;;
          Ok (if a then b else c)
    end.
  Definition ty_one_of (d : nat) : res bool :=
    if length l =? 0 then Ok true else ty_one_of_impl d 0 (length l) (length l / 2).

  (** ** types::count_if (count_if.hpp 21-67), count (count.hpp 21-67) *)
  Fixpoint ty_count_if_impl (d first size : nat) : res nat :=
    match d with
    | 0 => Fuel
    | S d =>
        if size =? 1 then x <- rd l first ;; Ok (if p x then 1 else 0)
        else
          a <- ty_count_if_impl d first (size / 2) ;;
          b <- ty_count_if_impl d (first + size / 2) (size - size / 2) ;;
          Ok (a + b)
    end.
  Definition ty_count_if (d : nat) : res nat :=
    if length l =? 0 then Ok 0 else ty_count_if_impl d 0 (length l).

  (** ** types::find_index_if (find_index_if.hpp 21-73), find_index (find_index.hpp 21-73) *)
  Fixpoint ty_find_index_if_impl (d first last pivot found : nat) : res nat :=
    match d with
    | 0 => Fuel
    | S d =>
        if negb (found =? first) then Ok found
        else if pivot =? 0 then x <- rd l first ;; Ok (if p x then first else last)
        else
          f <- ty_find_index_if_impl d first (first + pivot) (pivot / 2) first ;;
          ty_find_index_if_impl d (first + pivot) last ((last - first - pivot) / 2) f
    end.
  Definition ty_find_index_if (d : nat) : res nat :=
    if length l =? 0 then Ok 0 else ty_find_index_if_impl d 0 (length l) (length l / 2) 0.
  (** find_index_result::is_found (detail/find_index_result.hpp 24) *)
  Definition ty_is_found (found : nat) : bool := negb (found =? length l).

  (** ** types::fold (fold.hpp 20-66), accumulate (accumulate.hpp 20-23) *)
  Fixpoint ty_fold_impl {B} (op : B -> A -> B) (d : nat) (t : B) (first last pivot : nat) : res B :=
    match d with
    | 0 => Fuel
    | S d =>
        if pivot =? 0 then x <- rd l first ;; Ok (op t x)
        else
          t <- ty_fold_impl op d t first (first + pivot) (pivot / 2) ;;
          ty_fold_impl op d t (first + pivot) last ((last - first - pivot) / 2)
    end.
  Definition ty_fold {B} (op : B -> A -> B) (d : nat) (t : B) : res B :=
    if length l =? 0 then Ok t else ty_fold_impl op d t 0 (length l) (length l / 2).

  (** ** types::partial_sum (partial_sum.hpp 21-51) *)
  Fixpoint ty_partial_sum_impl (op : A -> A -> A) (n i : nat) (t : A) (types : list A) : res (list A) :=
    match n with
    | 0 => Ok (types ++ [t])
    | S n => x <- rd l i ;; ty_partial_sum_impl op n (i + 1) (op t x) (types ++ [t])
    end.
  Definition ty_partial_sum (op : A -> A -> A) : res (list A) :=
    if length l =? 0 then Ok [] else x <- rd l 0 ;; ty_partial_sum_impl op (length l - 1) 1 x [].

  (** ** types::transform of two tuples (transform.hpp 22-45) *)
  Definition ty_transform2 {B C} (l2 : list B) (op : A -> B -> C) : res (list C) :=
    expand (fun i => x <- rd l i ;; y <- rd l2 i ;; Ok (op x y)) 0 (length l).

  (** ** types::lower_bound_index (lower_bound_index.hpp 22-66); std::conditional instantiates one of the two *)
  Fixpoint ty_lower_bound_impl {B} (comp : A -> B -> bool) (v : B) (d first last : nat) : res nat :=
    match d with
    | 0 => Fuel
    | S d =>
        let distance := last - first in
        if distance =? 0 then Ok last
        else if distance =? 1 then x <- rd l first ;; Ok (if comp x v then last else first)
        else
          x <- rd l (first + distance / 2) ;;
          if comp x v then ty_lower_bound_impl comp v d (first + distance / 2) last
          else ty_lower_bound_impl comp v d first (first + distance / 2)
    end.
  Definition ty_lower_bound {B} (comp : A -> B -> bool) (v : B) (d : nat) : res nat :=
    ty_lower_bound_impl comp v d 0 (length l).

  (** ** types::upper_bound_index (upper_bound_index.hpp 22-66) *)
  Fixpoint ty_upper_bound_impl {B} (comp : B -> A -> bool) (v : B) (d first last : nat) : res nat :=
    match d with
    | 0 => Fuel
    | S d =>
        let distance := last - first in
        if distance =? 0 then Ok last
        else if distance =? 1 then x <- rd l first ;; Ok (if negb (comp v x) then last else first)
        else
          x <- rd l (first + distance / 2) ;;
          if negb (comp v x) then ty_upper_bound_impl comp v d (first + distance / 2) last
          else ty_upper_bound_impl comp v d first (first + distance / 2)
    end.
  Definition ty_upper_bound {B} (comp : B -> A -> bool) (v : B) (d : nat) : res nat :=
    ty_upper_bound_impl comp v d 0 (length l).
End Tuple.

(** ** tpp: all_of, any_of, none_of (tpp/algorithm/{all,any,none}_of.hpp 19-42) of a pack of boolean constants *)
Fixpoint tpp_all_of_impl (l : list bool) (d first last : nat) : res bool :=
  match d with
  | 0 => Fuel
  | S d =>
      if last - first =? 1 then rd l first
      else
        a <- tpp_all_of_impl l d first ((first + last) / 2) ;;
        b <- tpp_all_of_impl l d ((first + last) / 2) last ;; Ok (a && b)
  end.
Definition tpp_all_of (l : list bool) (d : nat) : res bool :=
  if length l =? 0 then Ok true else tpp_all_of_impl l d 0 (length l).

Fixpoint tpp_any_of_impl (l : list bool) (d first last : nat) : res bool :=
  match d with
  | 0 => Fuel
  | S d =>
      if last - first =? 1 then rd l first
      else
        a <- tpp_any_of_impl l d first ((first + last) / 2) ;;
        b <- tpp_any_of_impl l d ((first + last) / 2) last ;; Ok (a || b)
  end.
Definition tpp_any_of (l : list bool) (d : nat) : res bool :=
  if length l =? 0 then Ok false else tpp_any_of_impl l d 0 (length l).

Fixpoint tpp_none_of_impl (l : list bool) (d first last : nat) : res bool :=
  match d with
  | 0 => Fuel
  | S d =>
      if last - first =? 1 then x <- rd l first ;; Ok (negb x)
      else
        a <- tpp_none_of_impl l d first ((first + last) / 2) ;;
        b <- tpp_none_of_impl l d ((first + last) / 2) last ;; Ok (a && b)
  end.
Definition tpp_none_of (l : list bool) (d : nat) : res bool :=
  if length l =? 0 then Ok true else tpp_none_of_impl l d 0 (length l).

(** tpp::one_of (tpp/algorithm/one_of.hpp 20-55); one_of_impl_1 is none_of_impl *)
Fixpoint tpp_one_of_impl (l : list bool) (d first last : nat) : res bool :=
  match d with
  | 0 => Fuel
  | S d =>
      if last - first =? 1 then rd l first
      else
        a <- tpp_one_of_impl l d first ((first + last) / 2) ;;
        b <- tpp_none_of_impl l d ((first + last) / 2) last ;;
        c <- tpp_one_of_impl l d ((first + last) / 2) last ;;
        Ok (if a then b else c)
  end.
Definition tpp_one_of (l : list bool) (d : nat) : res bool :=
  if length l =? 0 then Ok false else tpp_one_of_impl l d 0 (length l).

(** tpp::max_element, min_element (tpp/algorithm/{max,min}_element.hpp 19-43); [key] is ::value *)
Section Extremum.
  Context {A : Type}.
  Variables (l : list A) (key : A -> Z).
  Definition max_value (t u : A) : A := if (key t <? key u)%Z then u else t.
  Definition min_value (t u : A) : A := if (key u <? key t)%Z then u else t.
  Fixpoint tpp_max_impl (d first last : nat) : res A :=
    match d with
    | 0 => Fuel
    | S d =>
        if last - first =? 1 then rd l first
        else
          a <- tpp_max_impl d first ((first + last) / 2) ;;
          b <- tpp_max_impl d ((first + last) / 2) last ;; Ok (max_value a b)
    end.
  Fixpoint tpp_min_impl (d first last : nat) : res A :=
    match d with
    | 0 => Fuel
    | S d =>
        if last - first =? 1 then rd l first
        else
          a <- tpp_min_impl d first ((first + last) / 2) ;;
          b <- tpp_min_impl d ((first + last) / 2) last ;; Ok (min_value a b)
    end.
  Definition tpp_max_element (d : nat) : res A := tpp_max_impl d 0 (length l).
  Definition tpp_min_element (d : nat) : res A := tpp_min_impl d 0 (length l).
End Extremum.
