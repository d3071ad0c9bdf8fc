(** Models of the heap algorithms and of partial sorting.  Nothing is proved in this
    file.  A moved-from element keeps its value. *)
From Coq Require Import List Arith Bool.
From Verif Require Import Base MutModel.
Import ListNotations.

Section Heaps.
  Context {A : Type}.
  Variable comp : A -> A -> bool.
  Notation mem := (list A).

  (** sprout/algorithm/cxx14/detail/heap_tool.hpp 29-34 and 45-49: the larger one of the
      children c - 1 and c, the latter missing if c = len *)
  Definition pick_child (m : mem) (first len c : nat) : res nat :=
    if c =? len then dec c
    else
      r <- rd m (first + c) ;; l <- rd m (first + c - 1) ;;
      if comp r l then dec c else Ok c.

  (** heap_tool.hpp 37-51: the do loop; state: memory, p, c *)
  Definition push_heap_front_loop (k : nat) (m : mem) (first len : nat) (t : A) (p c : nat) : res (mem * nat) :=
    iter k (fun '((m, p, c) : mem * nat * nat) =>
      x <- rd m (first + c) ;;
      m <- wr m (first + p) x ;;
      let p := c in
      let c := (p + 1) * 2 in
      if len <? c then Ok (inr (m, p))
      else
        c <- pick_child m first len c ;;
        x <- rd m (first + c) ;;
        if comp t x then Ok (inl (m, p, c)) else Ok (inr (m, p)))
      (m, p, c).

  (** heap_tool.hpp 19-54; [last] is not used by the code *)
  Definition push_heap_front (k : nat) (m : mem) (first last len : nat) : res mem :=
    if 1 <? len then
      c <- pick_child m first len 2 ;;
      t <- rd m first ;; x <- rd m (first + c) ;;
      if comp t x then
        s <- push_heap_front_loop k m first len t 0 c ;;
        let '(m, p) := s in
        wr m (first + p) t
      else Ok m
    else Ok m.

  (** heap_tool.hpp 68-76: the do loop; state: memory, last, len (the index of ptr) *)
  Definition push_heap_back_loop (k : nat) (m : mem) (first : nat) (t : A) (last len : nat) : res (mem * nat) :=
    iter k (fun '((m, last, len) : mem * nat * nat) =>
      let ptr := first + len in
      x <- rd m ptr ;;
      m <- wr m last x ;;
      let last := ptr in
      if len =? 0 then Ok (inr (m, last))
      else
        let len := (len - 1) / 2 in
        x <- rd m (first + len) ;;
        if comp x t then Ok (inl (m, last, len)) else Ok (inr (m, last)))
      (m, last, len).

  (** heap_tool.hpp 57-80 *)
  Definition push_heap_back (k : nat) (m : mem) (first last len : nat) : res mem :=
    if 1 <? len then
      let len := (len - 2) / 2 in
      let ptr := first + len in
      last <- dec last ;;
      x <- rd m ptr ;; t <- rd m last ;;
      if comp x t then
        s <- push_heap_back_loop k m first t last len ;;
        let '(m, last) := s in
        wr m last t
      else Ok m
    else Ok m.

  (** cxx14/make_heap.hpp 21-31: note that the length passed on is i, not i + 1 *)
  Definition make_heap (k : nat) (m : mem) (first last : nat) : res mem :=
    let len := last - first in
    if 1 <? len then
      iter k (fun '((m, last, i) : mem * nat * nat) =>
        if i <? len then
          m <- push_heap_back k m first (S last) i ;;
          Ok (inl (m, S last, S i))
        else Ok (inr m))
        (m, S first, 1)
    else Ok m.

  (** cxx14/push_heap.hpp 23-26 *)
  Definition push_heap (k : nat) (m : mem) (first last : nat) : res mem :=
    push_heap_back k m first last (last - first).

  (** cxx14/pop_heap.hpp 22-31 *)
  Definition pop_heap_impl (k : nat) (m : mem) (first last len : nat) : res mem :=
    if 1 <? len then
      last <- dec last ;;
      m <- iter_swap m first last ;;
      push_heap_front k m first last (len - 1)
    else Ok m.

  (** cxx14/pop_heap.hpp 38-41 *)
  Definition pop_heap (k : nat) (m : mem) (first last : nat) : res mem :=
    pop_heap_impl k m first last (last - first).

  (** cxx14/sort_heap.hpp 21-27 *)
  Definition sort_heap (k : nat) (m : mem) (first last : nat) : res mem :=
    iter k (fun '((m, last, len) : mem * nat * nat) =>
      if 1 <? len then
        m <- pop_heap_impl k m first last len ;;
        last <- dec last ;;
        Ok (inl (m, last, len - 1))
      else Ok (inr m))
      (m, last, last - first).

  (** cxx14/partial_sort.hpp 24-35 *)
  Definition partial_sort (k : nat) (m : mem) (first middle last : nat) : res mem :=
    m <- make_heap k m first middle ;;
    let len := middle - first in
    m <- iter k (fun '((m, i) : mem * nat) =>
      if i =? last then Ok (inr m)
      else
        x <- rd m i ;; y <- rd m first ;;
        if comp x y then
          m <- iter_swap m i first ;;
          m <- push_heap_front k m first middle len ;;
          Ok (inl (m, S i))
        else Ok (inl (m, S i)))
      (m, middle) ;;
    sort_heap k m first middle.

  (** cxx14/partial_sort_copy.hpp 23-41; the input range lies in the same memory *)
  Definition partial_sort_copy (k : nat) (m : mem) (first last result_first result_last : nat) : res (mem * nat) :=
    if result_first =? result_last then Ok (m, result_first)
    else
      s <- iter k (fun '((m, first, r, len) : mem * nat * nat * nat) =>
        if negb (first =? last) && negb (r =? result_last) then
          x <- rd m first ;; m <- wr m r x ;; Ok (inl (m, S first, S r, S len))
        else Ok (inr (m, first, r, len)))
        (m, first, result_first, 0) ;;
      let '(m, first, r, len) := s in
      m <- make_heap k m result_first r ;;
      m <- iter k (fun '((m, first) : mem * nat) =>
        if first =? last then Ok (inr m)
        else
          x <- rd m first ;; y <- rd m result_first ;;
          if comp x y then
            m <- wr m result_first x ;;
            m <- push_heap_front k m result_first r len ;;
            Ok (inl (m, S first))
          else Ok (inl (m, S first)))
        (m, first) ;;
      m <- sort_heap k m result_first r ;;
      Ok (m, r).
End Heaps.
