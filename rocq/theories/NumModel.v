(** Models of sprout/numeric: accumulate, reduce, transform_reduce, and the mutating
    partial_sum, adjacent_difference, iota and scans.  Nothing is proved in this file.

    Conventions as in SearchModel.v (non-mutating functions; [c] = random access, [d]
    = call depth) and MutModel.v (mutating functions; [k] = loop turns).  The
    accumulator type T is [B]; conversions between T, the value type and the result of
    the operation are the identity: the scans have [A] for all of them.
    sprout/numeric/inner_product.hpp is not modelled: it calls an undeclared
    binary_op (line 36) and passes too few arguments to inner_product_impl (line 110),
    so no instantiation of it compiles. *)
From Coq Require Import List Arith Bool.
From Verif Require Import Base SearchModel OrderModel MutModel.
Import ListNotations.

Section Fold.
  Context {A B : Type}.

  (** ** accumulate  (sprout/numeric/accumulate.hpp) *)

  (** lines 21-40: accumulate_ra; [ *first] of the element reached *)
  Fixpoint accumulate_ra (d : nat) (l : list A) (first last : nat) (op : B -> A -> B)
      (pivot : nat) (init : B) : res B :=
    match d with
    | 0 => Fuel
    | S d' =>
        if pivot =? 0 then x <- rd l first ;; Ok (op init x)
        else
          a <- accumulate_ra d' l first (first + pivot) op (pivot / 2) init ;;
          accumulate_ra d' l (first + pivot) last op ((last - first - pivot) / 2) a
    end.

  (** lines 41-57 and 60-105: accumulate by iterator category *)
  Definition accumulate (c : bool) (d : nat) (l : list A) (first last : nat) (init : B)
      (op : B -> A -> B) : res B :=
    if c then
      if first =? last then Ok init
      else accumulate_ra d l first last op ((last - first) / 2) init
    else
      s <- dbl (stop (fun s : nat * B => fst s =? last))
             (fun s => x <- rd l (fst s) ;; Ok (S (fst s), op (snd s) x))
             d (first, init) 1 ;;
      Ok (snd s).

  (** ** reduce  (sprout/numeric/reduce.hpp 32-36) *)
  Definition reduce (c : bool) (d : nat) (l : list A) (first last : nat) (init : B)
      (op : B -> A -> B) : res B :=
    accumulate c d l first last init op.

  (** ** transform_reduce of one range  (sprout/numeric/transform_reduce.hpp) *)

  (** lines 141-160 *)
  Fixpoint transform_reduce_ra {C} (d : nat) (l : list A) (first last : nat) (op : B -> C -> B)
      (u : A -> C) (pivot : nat) (init : B) : res B :=
    match d with
    | 0 => Fuel
    | S d' =>
        if pivot =? 0 then x <- rd l first ;; Ok (op init (u x))
        else
          a <- transform_reduce_ra d' l first (first + pivot) op u (pivot / 2) init ;;
          transform_reduce_ra d' l (first + pivot) last op u ((last - first - pivot) / 2) a
    end.

  (** lines 161-238 *)
  Definition transform_reduce {C} (c : bool) (d : nat) (l : list A) (first last : nat) (init : B)
      (op : B -> C -> B) (u : A -> C) : res B :=
    if c then
      if first =? last then Ok init
      else transform_reduce_ra d l first last op u ((last - first) / 2) init
    else
      s <- dbl (stop (fun s : nat * B => fst s =? last))
             (fun s => x <- rd l (fst s) ;; Ok (S (fst s), op (snd s) (u x)))
             d (first, init) 1 ;;
      Ok (snd s).
End Fold.

Section Fold2.
  Context {A1 A2 B C : Type}.

  (** ** transform_reduce of two ranges  (transform_reduce.hpp 22-41) *)
  Fixpoint transform_reduce2_ra (d : nat) (l1 : list A1) (l2 : list A2) (first1 last1 first2 : nat)
      (op1 : B -> C -> B) (op2 : A1 -> A2 -> C) (pivot : nat) (init : B) : res B :=
    match d with
    | 0 => Fuel
    | S d' =>
        if pivot =? 0 then x <- rd l1 first1 ;; y <- rd l2 first2 ;; Ok (op1 init (op2 x y))
        else
          a <- transform_reduce2_ra d' l1 l2 first1 (first1 + pivot) first2 op1 op2 (pivot / 2) init ;;
          transform_reduce2_ra d' l1 l2 (first1 + pivot) last1 (first2 + pivot) op1 op2
            ((last1 - first1 - pivot) / 2) a
    end.

  (** lines 42-138 *)
  Definition transform_reduce2 (c : bool) (d : nat) (l1 : list A1) (l2 : list A2)
      (first1 last1 first2 : nat) (init : B) (op1 : B -> C -> B) (op2 : A1 -> A2 -> C) : res B :=
    if c then
      if first1 =? last1 then Ok init
      else transform_reduce2_ra d l1 l2 first1 last1 first2 op1 op2 ((last1 - first1) / 2) init
    else
      s <- dbl (stop (fun s : nat * nat * B => fst (fst s) =? last1))
             (fun '((i, j, a) : nat * nat * B) =>
                x <- rd l1 i ;; y <- rd l2 j ;; Ok (S i, S j, op1 a (op2 x y)))
             d (first1, first2, init) 1 ;;
      Ok (snd s).
End Fold2.

Section Scan.
  Context {A : Type}.
  Notation mem := (list A).

  (** [while (++first != last) { sum = binary_op(sum, unary_op( *first)); *++result = sum; }
      return ++result;] as in numeric/cxx14/partial_sum.hpp 32-36 ([u] the identity),
      inclusive_scan.hpp 36-40 and transform_inclusive_scan.hpp 35-39, 54-58 *)
  Definition sum_loop (k : nat) (last : nat) (op : A -> A -> A) (u : A -> A)
      (s : mem * nat * nat * A) : res (mem * nat) :=
    iter k (fun '((m, first, result, sum) : mem * nat * nat * A) =>
      let first := S first in
      if first =? last then Ok (inr (m, S result))
      else
        x <- rd m first ;;
        let sum := op sum (u x) in
        let result := S result in
        m <- wr m result sum ;;
        Ok (inl (m, first, result, sum))) s.

  (** cxx14/partial_sum.hpp 25-37 *)
  Definition partial_sum (k : nat) (m : mem) (first last result : nat) (op : A -> A -> A)
      : res (mem * nat) :=
    if first =? last then Ok (m, result)
    else
      x <- rd m first ;;
      let sum := x in
      m <- wr m result sum ;;
      sum_loop k last op (fun x => x) (m, first, result, sum).

  (** cxx14/adjacent_difference.hpp 26-40 *)
  Definition adjacent_difference (k : nat) (m : mem) (first last result : nat) (op : A -> A -> A)
      : res (mem * nat) :=
    if first =? last then Ok (m, result)
    else
      acc <- rd m first ;;
      m <- wr m result acc ;;
      iter k (fun '((m, first, result, acc) : mem * nat * nat * A) =>
        let first := S first in
        if first =? last then Ok (inr (m, S result))
        else
          val <- rd m first ;;
          let result := S result in
          m <- wr m result (op val acc) ;;
          Ok (inl (m, first, result, val))) (m, first, result, acc).

  (** cxx14/iota.hpp 17-24; [succ] is the increment of the value type *)
  Definition iota (k : nat) (m : mem) (first last : nat) (succ : A -> A) (value : A) : res mem :=
    iter k (fun '((m, first, value) : mem * nat * A) =>
      if first =? last then Ok (inr m)
      else m <- wr m first value ;; Ok (inl (m, S first, succ value)))
      (m, first, value).

  (** cxx14/exclusive_scan.hpp 24-39 ([u] the identity) and
      transform_exclusive_scan.hpp 24-39 *)
  Definition transform_exclusive_scan (k : nat) (m : mem) (first last result : nat) (init : A)
      (op : A -> A -> A) (u : A -> A) : res (mem * nat) :=
    let sum := init in
    m <- wr m result sum ;;
    if first =? last then Ok (m, S result)
    else
      x <- rd m first ;;
      let temp := u x in
      iter k (fun '((m, first, result, sum, temp) : mem * nat * nat * A * A) =>
        let first := S first in
        if first =? last then Ok (inr (m, S result))
        else
          let sum := op sum temp in
          let result := S result in
          m <- wr m result sum ;;
          x <- rd m first ;;
          Ok (inl (m, first, result, sum, u x))) (m, first, result, sum, temp).

  Definition exclusive_scan (k : nat) (m : mem) (first last result : nat) (init : A)
      (op : A -> A -> A) : res (mem * nat) :=
    transform_exclusive_scan k m first last result init op (fun x => x).

  (** cxx14/inclusive_scan.hpp 26-41 ([u] the identity) and
      transform_inclusive_scan.hpp 25-40, with an initial value *)
  Definition transform_inclusive_scan_init (k : nat) (m : mem) (first last result : nat)
      (op : A -> A -> A) (u : A -> A) (init : A) : res (mem * nat) :=
    let sum := init in
    m <- wr m result sum ;;
    if first =? last then Ok (m, S result)
    else
      x <- rd m first ;;
      let sum := op sum (u x) in
      let result := S result in
      m <- wr m result sum ;;
      sum_loop k last op u (m, first, result, sum).

  Definition inclusive_scan_init (k : nat) (m : mem) (first last result : nat)
      (op : A -> A -> A) (init : A) : res (mem * nat) :=
    transform_inclusive_scan_init k m first last result op (fun x => x) init.

  (** cxx14/inclusive_scan.hpp 42-49: without an initial value *)
  Definition inclusive_scan (k : nat) (m : mem) (first last result : nat) (op : A -> A -> A)
      : res (mem * nat) :=
    partial_sum k m first last result op.

  (** cxx14/transform_inclusive_scan.hpp 41-59: without an initial value *)
  Definition transform_inclusive_scan (k : nat) (m : mem) (first last result : nat)
      (op : A -> A -> A) (u : A -> A) : res (mem * nat) :=
    if first =? last then Ok (m, result)
    else
      x <- rd m first ;;
      let sum := u x in
      m <- wr m result sum ;;
      sum_loop k last op u (m, first, result, sum).
End Scan.
