(** Models of merging and of the set operations on sorted ranges: the C++14
    algorithms, the C++11 searches they have as counterparts, and the lazy iterators.
    Nothing is proved in this file. *)
From Coq Require Import List Arith Bool.
From Verif Require Import Base SearchModel OrderModel MutModel.
Import ListNotations.

Section Merging.
  Context {A : Type}.
  Variable comp : A -> A -> bool.
  Notation mem := (list A).

  (** sprout/algorithm/cxx14/merge.hpp 25-39 *)
  Definition merge (k : nat) (m : mem) (first1 last1 first2 last2 result : nat) : res (mem * nat) :=
    iter k (fun '((m, first1, first2, result) : mem * nat * nat * nat) =>
      if first1 =? last1 then s <- copy k m first2 last2 result ;; Ok (inr s)
      else if first2 =? last2 then s <- copy k m first1 last1 result ;; Ok (inr s)
      else
        y <- rd m first2 ;; x <- rd m first1 ;;
        if comp y x then
          m <- wr m result y ;; Ok (inl (m, first1, S first2, S result))
        else
          m <- wr m result x ;; Ok (inl (m, S first1, first2, S result)))
      (m, first1, first2, result).

  (** cxx14/set_union.hpp 25-47; std::copy is modelled like sprout::copy *)
  Definition set_union (k : nat) (m : mem) (first1 last1 first2 last2 result : nat) : res (mem * nat) :=
    iter k (fun '((m, first1, first2, result) : mem * nat * nat * nat) =>
      if first1 =? last1 then s <- copy k m first2 last2 result ;; Ok (inr s)
      else if first2 =? last2 then s <- copy k m first1 last1 result ;; Ok (inr s)
      else
        x <- rd m first1 ;; y <- rd m first2 ;;
        if comp x y then
          m <- wr m result x ;; Ok (inl (m, S first1, first2, S result))
        else if comp y x then
          m <- wr m result y ;; Ok (inl (m, first1, S first2, S result))
        else
          m <- wr m result x ;; Ok (inl (m, S first1, S first2, S result)))
      (m, first1, first2, result).

  (** cxx14/set_intersection.hpp 24-39 *)
  Definition set_intersection (k : nat) (m : mem) (first1 last1 first2 last2 result : nat) : res (mem * nat) :=
    iter k (fun '((m, first1, first2, result) : mem * nat * nat * nat) =>
      if negb (first1 =? last1) && negb (first2 =? last2) then
        x <- rd m first1 ;; y <- rd m first2 ;;
        if comp x y then Ok (inl (m, S first1, first2, result))
        else if comp y x then Ok (inl (m, first1, S first2, result))
        else
          m <- wr m result x ;; Ok (inl (m, S first1, S first2, S result))
      else Ok (inr (m, result)))
      (m, first1, first2, result).

  (** cxx14/set_difference.hpp 25-40 *)
  Definition set_difference (k : nat) (m : mem) (first1 last1 first2 last2 result : nat) : res (mem * nat) :=
    s <- iter k (fun '((m, first1, first2, result) : mem * nat * nat * nat) =>
      if negb (first1 =? last1) && negb (first2 =? last2) then
        x <- rd m first1 ;; y <- rd m first2 ;;
        if comp x y then
          m <- wr m result x ;; Ok (inl (m, S first1, first2, S result))
        else if comp y x then Ok (inl (m, first1, S first2, result))
        else Ok (inl (m, S first1, S first2, result))
      else Ok (inr (m, first1, result)))
      (m, first1, first2, result) ;;
    let '(m, first1, result) := s in copy k m first1 last1 result.

  (** cxx14/set_symmetric_difference.hpp 25-47 *)
  Definition set_symmetric_difference (k : nat) (m : mem) (first1 last1 first2 last2 result : nat)
      : res (mem * nat) :=
    iter k (fun '((m, first1, first2, result) : mem * nat * nat * nat) =>
      if first1 =? last1 then s <- copy k m first2 last2 result ;; Ok (inr s)
      else if first2 =? last2 then s <- copy k m first1 last1 result ;; Ok (inr s)
      else
        x <- rd m first1 ;; y <- rd m first2 ;;
        if comp x y then
          m <- wr m result x ;; Ok (inl (m, S first1, first2, S result))
        else if comp y x then
          m <- wr m result y ;; Ok (inl (m, first1, S first2, S result))
        else Ok (inl (m, S first1, S first2, result)))
      (m, first1, first2, result).

  (** cxx14/inplace_merge.hpp 23-59; [r]: recursion depth, [d]: depth of the
      nested binary searches, [k]: loop turns of the nested rotate *)
  Fixpoint inplace_merge_impl (r d k : nat) (m : mem)
      (first middle last len1 len2 : nat) : res mem :=
    match r with
    | 0 => Fuel
    | S r' =>
        if (len1 =? 0) || (len2 =? 0) then Ok m
        else if len1 + len2 =? 2 then
          y <- rd m middle ;; x <- rd m first ;;
          if comp y x then iter_swap m first middle else Ok m
        else
          s <- (if len2 <? len1 then
                  let len11 := len1 / 2 in
                  let first_cut := first + len11 in
                  v <- rd m first_cut ;;
                  second_cut <- lower_bound d m middle last v comp ;;
                  Ok (first_cut, second_cut, len11, second_cut - middle)
                else
                  let len22 := len2 / 2 in
                  let second_cut := middle + len22 in
                  v <- rd m second_cut ;;
                  first_cut <- upper_bound d m first middle v comp ;;
                  Ok (first_cut, second_cut, first_cut - first, len22)) ;;
          let '(first_cut, second_cut, len11, len22) := s in
          s <- rotate k m first_cut middle second_cut ;;
          let '(m, _) := s in
          let new_middle := first_cut + (second_cut - middle) in
          m <- inplace_merge_impl r' d k m first first_cut new_middle len11 len22 ;;
          inplace_merge_impl r' d k m new_middle second_cut last (len1 - len11) (len2 - len22)
    end.

  (** cxx14/inplace_merge.hpp 64-74 *)
  Definition inplace_merge (r d k : nat) (m : mem) (first middle last : nat) : res mem :=
    if (first =? middle) || (middle =? last) then Ok m
    else inplace_merge_impl r d k m first middle last (middle - first) (last - middle).
End Merging.

Section Searches.
  Context {A : Type}.
  Variable comp : A -> A -> bool.
  Implicit Types la lb : list A.

  (** sprout/algorithm/find_difference.hpp 37-92; state: position1, position2, found *)
  Definition find_difference (d : nat) la lb (first1 last1 first2 last2 : nat) : res (nat * nat) :=
    s <- dbl (stop (fun '((i, j, b) : nat * nat * bool) => b || (i =? last1)))
      (fun '((i, j, b) : nat * nat * bool) =>
        if j =? last2 then Ok (i, j, true)
        else
          x <- rd la i ;; y <- rd lb j ;;
          Ok (if comp x y then (i, j, true)
              else if comp y x then (i, S j, false)
              else (S i, S j, false)))
      d (first1, first2, false) 1 ;;
    let '(i, j, b) := s in Ok (if b : bool then (i, j) else (last1, last2)).

  (** sprout/algorithm/find_intersection.hpp 37-90 *)
  Definition find_intersection (d : nat) la lb (first1 last1 first2 last2 : nat) : res (nat * nat) :=
    s <- dbl (stop (fun '((i, j, b) : nat * nat * bool) => b || (i =? last1) || (j =? last2)))
      (fun '((i, j, b) : nat * nat * bool) =>
        x <- rd la i ;; y <- rd lb j ;;
        Ok (if comp x y then (S i, j, false)
            else if comp y x then (i, S j, false)
            else (i, j, true)))
      d (first1, first2, false) 1 ;;
    let '(i, j, b) := s in Ok (if b : bool then (i, j) else (last1, last2)).

  (** sprout/algorithm/find_symmetric_difference.hpp 30-80 *)
  Definition find_symmetric_difference (d : nat) la lb (first1 last1 first2 last2 : nat) : res (nat * nat) :=
    s <- dbl (stop (fun '((i, j, b) : nat * nat * bool) => b || (i =? last1) || (j =? last2)))
      (fun '((i, j, b) : nat * nat * bool) =>
        x <- rd la i ;; y <- rd lb j ;;
        Ok (if comp x y || comp y x then (i, j, true) else (S i, S j, false)))
      d (first1, first2, false) 1 ;;
    let '(i, j, b) := s in Ok (i, j).

  (** sprout/algorithm/next_union.hpp 23-44 *)
  Definition next_union la lb (first1 last1 first2 last2 : nat) : res (nat * nat) :=
    if negb (first1 =? last1) then
      if negb (first2 =? last2) then
        x <- rd la first1 ;; y <- rd lb first2 ;;
        Ok (if comp x y then (S first1, first2)
            else if comp y x then (first1, S first2)
            else (S first1, S first2))
      else Ok (S first1, first2)
    else if negb (first2 =? last2) then Ok (first1, S first2)
    else Ok (last1, last2).

  (** sprout/algorithm/next_intersection.hpp 24-36 *)
  Definition next_intersection (d : nat) la lb (first1 last1 first2 last2 : nat) : res (nat * nat) :=
    if (first1 =? last1) || (first2 =? last2) then Ok (last1, last2)
    else find_intersection d la lb (S first1) last1 (S first2) last2.

  (** sprout/algorithm/next_difference.hpp 24-36 *)
  Definition next_difference (d : nat) la lb (first1 last1 first2 last2 : nat) : res (nat * nat) :=
    if first1 =? last1 then Ok (last1, last2)
    else find_difference d la lb (S first1) last1 first2 last2.

  (** sprout/algorithm/next_symmetric_difference.hpp 24-43 *)
  Definition next_symmetric_difference (d : nat) la lb (first1 last1 first2 last2 : nat) : res (nat * nat) :=
    if negb (first1 =? last1) then
      if negb (first2 =? last2) then
        x <- rd la first1 ;; y <- rd lb first2 ;;
        if comp x y then find_symmetric_difference d la lb (S first1) last1 first2 last2
        else find_symmetric_difference d la lb first1 last1 (S first2) last2
      else Ok (S first1, first2)
    else if negb (first2 =? last2) then Ok (first1, S first2)
    else Ok (last1, last2).

  (** ** The lazy iterators.  An iterator is its pair of positions (las1, las2 and comp
      are fixed); the cached [in_left] is recomputed from them, as every constructor and
      operator of the classes does. *)

  (** sprout/iterator/set_union_iterator.hpp 58-67 *)
  Definition union_in_left la lb (last1 last2 : nat) (s : nat * nat) : res bool :=
    let '(i, j) := s in
    if negb (i =? last1) then
      if negb (j =? last2) then x <- rd la i ;; y <- rd lb j ;; Ok (comp x y || negb (comp y x))
      else Ok true
    else Ok (negb (negb (j =? last2))).

  (** sprout/iterator/merge_iterator.hpp 54-63 *)
  Definition merge_in_left la lb (last1 last2 : nat) (s : nat * nat) : res bool :=
    let '(i, j) := s in
    if negb (i =? last1) then
      if negb (j =? last2) then y <- rd lb j ;; x <- rd la i ;; Ok (negb (comp y x))
      else Ok true
    else Ok (negb (negb (j =? last2))).

  (** sprout/iterator/set_symmetric_difference_iterator.hpp 46-55 *)
  Definition symmetric_difference_in_left la lb (last1 last2 : nat) (s : nat * nat) : res bool :=
    let '(i, j) := s in
    if negb (i =? last1) then
      if negb (j =? last2) then x <- rd la i ;; y <- rd lb j ;; Ok (comp x y)
      else Ok true
    else Ok (negb (negb (j =? last2))).

  (** operator*: set_union_iterator.hpp 128-130, merge_iterator.hpp 117-119, and the
      same in set_symmetric_difference_iterator.hpp *)
  Definition deref_side (in_left : nat * nat -> res bool) la lb (s : nat * nat) : res A :=
    b <- in_left s ;; if b : bool then rd la (fst s) else rd lb (snd s).

  (** operator*: set_intersection_iterator.hpp 113-115, set_difference_iterator.hpp 113-115 *)
  Definition deref_left la (s : nat * nat) : res A := rd la (fst s).

  (** sprout/iterator/merge_iterator.hpp 122-139: operator++ *)
  Definition merge_next la lb (last1 last2 : nat) (s : nat * nat) : res (nat * nat) :=
    let '(i, j) := s in
    if negb (i =? last1) then
      if negb (j =? last2) then
        y <- rd lb j ;; x <- rd la i ;;
        if comp y x then Ok (i, S j) else Ok (S i, j)
      else Ok (S i, j)
    else if negb (j =? last2) then Ok (i, S j)
    else Ok (i, j).

  (** [for (; it != end; ++it) out = out + *it] *)
  Fixpoint traverse (k : nat) (next : nat * nat -> res (nat * nat)) (deref : nat * nat -> res A)
      (last1 last2 : nat) (s : nat * nat) : res (list A) :=
    match k with
    | 0 => Fuel
    | S k' =>
        if (fst s =? last1) && (snd s =? last2) then Ok []
        else
          x <- deref s ;;
          s' <- next s ;;
          xs <- traverse k' next deref last1 last2 s' ;;
          Ok (x :: xs)
    end.

  Definition merge_range (k : nat) la lb (first1 last1 first2 last2 : nat) : res (list A) :=
    traverse k (merge_next la lb last1 last2) (deref_side (merge_in_left la lb last1 last2) la lb)
      last1 last2 (first1, first2).

  Definition set_union_range (k : nat) la lb (first1 last1 first2 last2 : nat) : res (list A) :=
    traverse k (fun '(i, j) => next_union la lb i last1 j last2)
      (deref_side (union_in_left la lb last1 last2) la lb) last1 last2 (first1, first2).

  (** constructor: set_intersection_iterator.hpp 74-82 *)
  Definition set_intersection_range (k d : nat) la lb (first1 last1 first2 last2 : nat) : res (list A) :=
    s <- find_intersection d la lb first1 last1 first2 last2 ;;
    traverse k (fun '(i, j) => next_intersection d la lb i last1 j last2)
      (deref_left la) last1 last2 s.

  (** constructor: set_difference_iterator.hpp 74-82 *)
  Definition set_difference_range (k d : nat) la lb (first1 last1 first2 last2 : nat) : res (list A) :=
    s <- find_difference d la lb first1 last1 first2 last2 ;;
    traverse k (fun '(i, j) => next_difference d la lb i last1 j last2)
      (deref_left la) last1 last2 s.

  (** constructor: set_symmetric_difference_iterator.hpp 143-149 *)
  Definition set_symmetric_difference_range (k d : nat) la lb (first1 last1 first2 last2 : nat) : res (list A) :=
    s <- find_symmetric_difference d la lb first1 last1 first2 last2 ;;
    traverse k (fun '(i, j) => next_symmetric_difference d la lb i last1 j last2)
      (deref_side (symmetric_difference_in_left la lb last1 last2) la lb) last1 last2 s.
End Searches.
