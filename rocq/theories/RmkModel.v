(** Model of remake_iterator (sprout/iterator/remake_iterator.hpp) and of the remake of a container without a
    static size that uses it (sprout/container/container_construct_traits.hpp).  Iterators into the destination
    and the source are positions; one that leaves its range is UB.  difference_type is Z. *)
From Coq Require Import List Arith Bool ZArith.
From Verif Require Import Base.
Import ListNotations.
Local Open Scope Z_scope.

Section Remake.
  Context {A : Type}.
  (** What [internal_begin, internal_end) and [first, last) hold. *)
  Variables (dst src : list A).
  Let n_dst : Z := Z.of_nat (length dst).
  Let n_src : Z := Z.of_nat (length src).

  (** current, current2, begin_off, end_off (remake_iterator.hpp 71-76); fst and lst_ are the ends of [src] *)
  Record remake_it := RIt { rcur : Z; rcur2 : Z; rbegin : Z; rend : Z }.

  (** sprout::next / prev of a random access iterator into a range of [len] *)
  Definition hop (len i n : Z) : res Z := if (0 <=? i + n) && (i + n <=? len) then Ok (i + n) else UB.

  (** is_in_copying() (123-125) *)
  Definition in_copying (it : remake_it) : bool :=
    (rbegin it <=? 0) && (0 <? rend it) && negb (rcur2 it =? n_src).

  (** operator* (126-128) *)
  Definition rget (l : list A) (i : Z) : res A := if i <? 0 then UB else rd l (Z.to_nat i).
  Definition rmk_deref (it : remake_it) : res A :=
    if in_copying it then rget src (rcur2 it) else rget dst (rcur it).

  (** next() (189-195), operator++ (132-140) *)
  Definition rmk_next (it : remake_it) : res remake_it :=
    c <- hop n_dst (rcur it) 1 ;;
    c2 <- (if in_copying it then hop n_src (rcur2 it) 1 else Ok (rcur2 it)) ;;
    Ok (RIt c c2 (rbegin it - 1) (rend it - 1)).

  (** prev() (196-202), operator-- (151-159) *)
  Definition rmk_prev (it : remake_it) : res remake_it :=
    c <- hop n_dst (rcur it) (-1) ;;
    c2 <- (if (rbegin it <? 0) && (0 <=? rend it) then hop n_src (rcur2 it) (-1) else Ok (rcur2 it)) ;;
    Ok (RIt c c2 (rbegin it + 1) (rend it + 1)).

  (** advance_impl(n) (44-69) *)
  Definition rmk_advance (it : remake_it) (n : Z) : res remake_it :=
    c <- hop n_dst (rcur it) n ;;
    c2 <- (if 0 <=? n then
             if 0 <=? rbegin it - n then Ok 0
             else if (n_src <=? rend it - rbegin it) && (rbegin it - n <=? - n_src) then Ok n_src
             else if rbegin it <=? 0
             then hop n_src (rcur2 it) (Z.min (Z.min n (rend it)) (n_src - rcur2 it))
             else hop n_src (rcur2 it) (Z.min (Z.min (n - rbegin it) (rend it)) (n_src - rcur2 it))
           else
             if 0 <=? rbegin it - n then Ok 0
             else if (n_src <=? rend it - rbegin it) && (rbegin it - n <=? - n_src) then Ok n_src
             else if - n_src <=? rbegin it then hop n_src (rcur2 it) n
             else hop n_src (rcur2 it) (n - (rbegin it + n_src))) ;;
    Ok (RIt c c2 (rbegin it - n) (rend it - n)).

  (** operator+, operator-, operator[] (169-188) *)
  Definition rmk_plus (it : remake_it) (n : Z) : res remake_it := rmk_advance it n.
  Definition rmk_minus (it : remake_it) (n : Z) : res remake_it := rmk_advance it (- n).
  Definition rmk_index (it : remake_it) (n : Z) : res A := it' <- rmk_plus it n ;; rmk_deref it'.

  (** operator==, <, - (222-299): those of base() *)
  Definition rmk_eq (a b : remake_it) : bool := rcur a =? rcur b.
  Definition rmk_lt (a b : remake_it) : bool := rcur a <? rcur b.
  Definition rmk_diff (a b : remake_it) : Z := rcur a - rcur b.

  (** default_remake_container(cont, _, first, last) (container_construct_traits.hpp 66-84).  [b], [e]: the
      positions of begin(cont) and end(cont) in the internal range; internal_begin_offset and
      internal_end_offset are b and e (internal_begin_offset.hpp 24, internal_end_offset.hpp 24), the backward
      ones the distances from begin(cont), end(cont) to internal_end (internal_begin_offset_backward.hpp 24,
      internal_end_offset_backward.hpp 24). *)
  Definition rmk_begin (b e : nat) : remake_it := RIt 0 0 (Z.of_nat b) (Z.of_nat e).
  Definition rmk_end (b e : nat) : remake_it :=
    RIt n_dst n_src (n_dst - Z.of_nat b) (n_dst - Z.of_nat e).

  (** The constructor from two iterators: reads and increments until the iterators are equal. *)
  Fixpoint rmk_read (fuel : nat) (it last : remake_it) : res (list A) :=
    match fuel with
    | O => Fuel
    | S fuel =>
        if rmk_eq it last then Ok []
        else x <- rmk_deref it ;; it' <- rmk_next it ;; l <- rmk_read fuel it' last ;; Ok (x :: l)
    end.
  Definition remake_container (fuel b e : nat) : res (list A) := rmk_read fuel (rmk_begin b e) (rmk_end b e).

  (** A constructor that reads backwards from the end: decrements and reads. *)
  Fixpoint rmk_read_back (fuel : nat) (it first : remake_it) (acc : list A) : res (list A) :=
    match fuel with
    | O => Fuel
    | S fuel =>
        if rmk_eq it first then Ok acc
        else it' <- rmk_prev it ;; x <- rmk_deref it' ;; rmk_read_back fuel it' first (x :: acc)
    end.
End Remake.
