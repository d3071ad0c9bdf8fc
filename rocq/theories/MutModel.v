(** Models of the C++14 (mutating) algorithms: copying, filling, removing,
    partitioning, rotating, shuffling.  Nothing is proved in this file.

    Conventions: the memory is one list [m]; source and destination ranges are
    positions in that list (so that overlapping ranges are covered).  [k] bounds the
    number of turns of each loop; running out of it gives [Fuel].  A loop body
    returns [inl s] to go on with state [s] and [inr r] to leave the loop with [r].
    sprout::move is modelled as copying.  Arguments passed by reference
    ([T const& value]) are modelled by value, i.e. they do not alias the range. *)
From Coq Require Import List Arith Bool.
From Verif Require Import Base SearchModel OrderModel.
Import ListNotations.

(** A C++ loop. *)
Fixpoint iter {S R : Type} (k : nat) (body : S -> res (S + R)) (s : S) : res R :=
  match k with
  | 0 => Fuel
  | Datatypes.S k' =>
      x <- body s ;;
      match x with
      | inl s' => iter k' body s'
      | inr r => Ok r
      end
  end.

(** [--it]: no position before the first one. *)
Definition dec (i : nat) : res nat :=
  match i with
  | 0 => UB
  | S i' => Ok i'
  end.

Section Mut.
  Context {A : Type}.
  Notation mem := (list A).

  (** sprout/algorithm/cxx14/iter_swap.hpp 18-22 *)
  Definition iter_swap (m : mem) (a b : nat) : res mem :=
    x <- rd m a ;; y <- rd m b ;; m1 <- wr m a y ;; wr m1 b x.

  (** cxx14/copy.hpp 23-29 *)
  Definition copy (k : nat) (m : mem) (first last result : nat) : res (mem * nat) :=
    iter k (fun '((m, first, result) : mem * nat * nat) =>
      if first =? last then Ok (inr (m, result))
      else x <- rd m first ;; m <- wr m result x ;; Ok (inl (m, S first, S result)))
      (m, first, result).

  (** cxx14/move.hpp 24-30 *)
  Definition move (k : nat) (m : mem) (first last result : nat) : res (mem * nat) :=
    iter k (fun '((m, first, result) : mem * nat * nat) =>
      if first =? last then Ok (inr (m, result))
      else x <- rd m first ;; m <- wr m result x ;; Ok (inl (m, S first, S result)))
      (m, first, result).

  (** cxx14/copy_n.hpp 23-29 *)
  Definition copy_n (k : nat) (m : mem) (first n result : nat) : res (mem * nat) :=
    iter k (fun '((m, i, first, result) : mem * nat * nat * nat) =>
      if i <? n then
        x <- rd m first ;; m <- wr m result x ;; Ok (inl (m, S i, S first, S result))
      else Ok (inr (m, result)))
      (m, 0, first, result).

  (** cxx14/copy_if.hpp 23-31 *)
  Definition copy_if (k : nat) (m : mem) (first last result : nat) (p : A -> bool) : res (mem * nat) :=
    iter k (fun '((m, first, result) : mem * nat * nat) =>
      if first =? last then Ok (inr (m, result))
      else
        x <- rd m first ;;
        if p x then
          y <- rd m first ;; m <- wr m result y ;; Ok (inl (m, S first, S result))
        else Ok (inl (m, S first, result)))
      (m, first, result).

  (** cxx14/copy_while.hpp 24-30 *)
  Definition copy_while (k : nat) (m : mem) (first last result : nat) (p : A -> bool) : res (mem * nat * nat) :=
    iter k (fun '((m, first, result) : mem * nat * nat) =>
      if first =? last then Ok (inr (m, first, result))
      else
        x <- rd m first ;;
        if p x then
          y <- rd m first ;; m <- wr m result y ;; Ok (inl (m, S first, S result))
        else Ok (inr (m, first, result)))
      (m, first, result).

  (** cxx14/copy_until.hpp 24-30 *)
  Definition copy_until (k : nat) (m : mem) (first last result : nat) (p : A -> bool) : res (mem * nat * nat) :=
    iter k (fun '((m, first, result) : mem * nat * nat) =>
      if first =? last then Ok (inr (m, first, result))
      else
        x <- rd m first ;;
        if negb (p x) then
          y <- rd m first ;; m <- wr m result y ;; Ok (inl (m, S first, S result))
        else Ok (inr (m, first, result)))
      (m, first, result).

  (** cxx14/copy_backward.hpp 23-29: [ *--result = *--last] *)
  Definition copy_backward (k : nat) (m : mem) (first last result : nat) : res (mem * nat) :=
    iter k (fun '((m, last, result) : mem * nat * nat) =>
      if first =? last then Ok (inr (m, result))
      else
        last <- dec last ;; x <- rd m last ;;
        result <- dec result ;; m <- wr m result x ;; Ok (inl (m, last, result)))
      (m, last, result).

  (** cxx14/move_backward.hpp 24-30: [ *--result = move( *--first)]; it is [first]
      that is decremented *)
  Definition move_backward (k : nat) (m : mem) (first last result : nat) : res (mem * nat) :=
    iter k (fun '((m, first, result) : mem * nat * nat) =>
      if first =? last then Ok (inr (m, result))
      else
        first <- dec first ;; x <- rd m first ;;
        result <- dec result ;; m <- wr m result x ;; Ok (inl (m, first, result)))
      (m, first, result).

  (** cxx14/fill.hpp 18-23 *)
  Definition fill (k : nat) (m : mem) (first last : nat) (v : A) : res mem :=
    iter k (fun '((m, first) : mem * nat) =>
      if first =? last then Ok (inr m)
      else m <- wr m first v ;; Ok (inl (m, S first)))
      (m, first).

  (** cxx14/fill_n.hpp 23-29 *)
  Definition fill_n (k : nat) (m : mem) (first n : nat) (v : A) : res (mem * nat) :=
    iter k (fun '((m, first, n) : mem * nat * nat) =>
      if 0 <? n then m <- wr m first v ;; Ok (inl (m, S first, n - 1))
      else Ok (inr (m, first)))
      (m, first, n).

  (** cxx14/generate.hpp 18-23; the generator is a state machine *)
  Definition generate {G} (k : nat) (m : mem) (first last : nat) (gen : G -> A * G) (g : G) : res (mem * G) :=
    iter k (fun '((m, first, g) : mem * nat * G) =>
      if first =? last then Ok (inr (m, g))
      else let '(x, g) := gen g in m <- wr m first x ;; Ok (inl (m, S first, g)))
      (m, first, g).

  (** cxx14/generate_n.hpp 21-27 *)
  Definition generate_n {G} (k : nat) (m : mem) (first n : nat) (gen : G -> A * G) (g : G) : res (mem * nat * G) :=
    iter k (fun '((m, first, n, g) : mem * nat * nat * G) =>
      if 0 <? n then
        let '(x, g) := gen g in m <- wr m first x ;; Ok (inl (m, S first, n - 1, g))
      else Ok (inr (m, first, g)))
      (m, first, n, g).

  (** cxx14/transform.hpp 23-29 *)
  Definition transform (k : nat) (m : mem) (first last result : nat) (op : A -> A) : res (mem * nat) :=
    iter k (fun '((m, first, result) : mem * nat * nat) =>
      if first =? last then Ok (inr (m, result))
      else x <- rd m first ;; m <- wr m result (op x) ;; Ok (inl (m, S first, S result)))
      (m, first, result).

  (** cxx14/transform.hpp 34-40 *)
  Definition transform2 (k : nat) (m : mem) (first1 last1 first2 result : nat) (op : A -> A -> A) : res (mem * nat) :=
    iter k (fun '((m, first1, first2, result) : mem * nat * nat * nat) =>
      if first1 =? last1 then Ok (inr (m, result))
      else
        x <- rd m first1 ;; y <- rd m first2 ;; m <- wr m result (op x y) ;;
        Ok (inl (m, S first1, S first2, S result)))
      (m, first1, first2, result).

  (** cxx14/clamp_range.hpp 24-36 *)
  Definition clamp_range (comp : A -> A -> bool) (k : nat) (m : mem) (first last result : nat) (low high : A)
      : res (mem * nat) :=
    iter k (fun '((m, first, result) : mem * nat * nat) =>
      if first =? last then Ok (inr (m, result))
      else x <- rd m first ;; m <- wr m result (clamp comp x low high) ;; Ok (inl (m, S first, S result)))
      (m, first, result).

  (** cxx14/swap_ranges.hpp 19-25 *)
  Definition swap_ranges (k : nat) (m : mem) (first1 last1 first2 : nat) : res (mem * nat) :=
    iter k (fun '((m, first1, first2) : mem * nat * nat) =>
      if first1 =? last1 then Ok (inr (m, first2))
      else m <- iter_swap m first1 first2 ;; Ok (inl (m, S first1, S first2)))
      (m, first1, first2).

  (** cxx14/reverse.hpp 19-24: [for (; first != last && first != --last; ++first)] *)
  Definition reverse (k : nat) (m : mem) (first last : nat) : res mem :=
    iter k (fun '((m, first, last) : mem * nat * nat) =>
      if first =? last then Ok (inr m)
      else
        last <- dec last ;;
        if first =? last then Ok (inr m)
        else m <- iter_swap m first last ;; Ok (inl (m, S first, last)))
      (m, first, last).

  (** cxx14/reverse_copy.hpp 23-29 *)
  Definition reverse_copy (k : nat) (m : mem) (first last result : nat) : res (mem * nat) :=
    iter k (fun '((m, last, result) : mem * nat * nat) =>
      if first =? last then Ok (inr (m, result))
      else
        last <- dec last ;; x <- rd m last ;; m <- wr m result x ;; Ok (inl (m, last, S result)))
      (m, last, result).

  (** cxx14/rotate.hpp 28-37: first loop *)
  Definition rotate_loop1 (k : nat) (last : nat) (s : mem * nat * nat * nat) : res (mem * nat * nat) :=
    iter k (fun '((m, first, middle, first2) : mem * nat * nat * nat) =>
      m <- iter_swap m first first2 ;;
      let first := S first in
      let first2 := S first2 in
      if first2 =? last then Ok (inr (m, first, middle))
      else
        let middle := if first =? middle then first2 else middle in
        Ok (inl (m, first, middle, first2))) s.

  (** cxx14/rotate.hpp 41-52: second loop *)
  Definition rotate_loop2 (k : nat) (last : nat) (s : mem * nat * nat * nat) : res mem :=
    iter k (fun '((m, first, middle, first2) : mem * nat * nat * nat) =>
      m <- iter_swap m first first2 ;;
      let first := S first in
      let first2 := S first2 in
      if first2 =? last then
        if first =? middle then Ok (inr m)
        else Ok (inl (m, first, middle, middle))
      else if first =? middle then Ok (inl (m, first, first2, first2))
      else Ok (inl (m, first, middle, first2))) s.

  (** cxx14/rotate.hpp 20-55 *)
  Definition rotate (k : nat) (m : mem) (first middle last : nat) : res (mem * nat) :=
    if first =? middle then Ok (m, last)
    else if middle =? last then Ok (m, first)
    else
      s <- rotate_loop1 k last (m, first, middle, middle) ;;
      let '(m, first, middle) := s in
      let result := first in
      if first =? middle then Ok (m, result)
      else m <- rotate_loop2 k last (m, first, middle, middle) ;; Ok (m, result).

  (** cxx14/rotate_copy.hpp 24-27 *)
  Definition rotate_copy (k : nat) (m : mem) (first middle last result : nat) : res (mem * nat) :=
    s <- copy k m middle last result ;;
    let '(m, r) := s in copy k m first middle r.

  (** cxx14/replace.hpp 18-25; [eqb x old] is [ *first == old_value] *)
  Definition replace {B} (eqb : A -> B -> bool) (k : nat) (m : mem) (first last : nat) (old : B) (new : A) : res mem :=
    iter k (fun '((m, first) : mem * nat) =>
      if first =? last then Ok (inr m)
      else
        x <- rd m first ;;
        if eqb x old then m <- wr m first new ;; Ok (inl (m, S first))
        else Ok (inl (m, S first)))
      (m, first).

  (** cxx14/replace_if.hpp 18-25 *)
  Definition replace_if (k : nat) (m : mem) (first last : nat) (p : A -> bool) (new : A) : res mem :=
    iter k (fun '((m, first) : mem * nat) =>
      if first =? last then Ok (inr m)
      else
        x <- rd m first ;;
        if p x then m <- wr m first new ;; Ok (inl (m, S first))
        else Ok (inl (m, S first)))
      (m, first).

  (** cxx14/replace_copy.hpp 23-29 (replace_copy_if.hpp 23-29 with [p]) *)
  Definition replace_copy_if (k : nat) (m : mem) (first last result : nat) (p : A -> bool) (new : A)
      : res (mem * nat) :=
    iter k (fun '((m, first, result) : mem * nat * nat) =>
      if first =? last then Ok (inr (m, result))
      else
        x <- rd m first ;;
        y <- (if p x then Ok new else rd m first) ;;
        m <- wr m result y ;; Ok (inl (m, S first, S result)))
      (m, first, result).

  (** cxx14/remove_if.hpp 19-28 *)
  Definition remove_if (k : nat) (m : mem) (first last : nat) (p : A -> bool) : res (mem * nat) :=
    iter k (fun '((m, first, result) : mem * nat * nat) =>
      if first =? last then Ok (inr (m, result))
      else
        x <- rd m first ;;
        if negb (p x) then
          y <- rd m first ;; m <- wr m result y ;; Ok (inl (m, S first, S result))
        else Ok (inl (m, S first, result)))
      (m, first, first).

  (** cxx14/remove.hpp 19-28 *)
  Definition remove {B} (eqb : A -> B -> bool) (k : nat) (m : mem) (first last : nat) (v : B) : res (mem * nat) :=
    iter k (fun '((m, first, result) : mem * nat * nat) =>
      if first =? last then Ok (inr (m, result))
      else
        x <- rd m first ;;
        if negb (eqb x v) then
          y <- rd m first ;; m <- wr m result y ;; Ok (inl (m, S first, S result))
        else Ok (inl (m, S first, result)))
      (m, first, first).

  (** cxx14/remove_copy_if.hpp 23-31, remove_copy.hpp 23-31 *)
  Definition remove_copy_if (k : nat) (m : mem) (first last result : nat) (p : A -> bool) : res (mem * nat) :=
    iter k (fun '((m, first, result) : mem * nat * nat) =>
      if first =? last then Ok (inr (m, result))
      else
        x <- rd m first ;;
        if negb (p x) then
          y <- rd m first ;; m <- wr m result y ;; Ok (inl (m, S first, S result))
        else Ok (inl (m, S first, result)))
      (m, first, result).

  (** cxx14/unique.hpp 37-52 (20-35 with [==]) *)
  Definition unique (pred : A -> A -> bool) (k : nat) (m : mem) (first last : nat) : res (mem * nat) :=
    if first =? last then Ok (m, first)
    else
      value <- rd m first ;;
      s <- iter k (fun '((m, first, result, value) : mem * nat * nat * A) =>
             if first =? last then Ok (inr (m, result, value))
             else
               x <- rd m first ;;
               if negb (pred value x) then
                 m <- wr m result value ;;
                 value <- rd m first ;;
                 Ok (inl (m, S first, S result, value))
               else Ok (inl (m, S first, result, value)))
             (m, S first, first, value) ;;
      let '(m, result, value) := s in
      m <- wr m result value ;; Ok (m, S result).

  (** cxx14/unique_copy.hpp 44-58 (24-38 with [==]) *)
  Definition unique_copy (pred : A -> A -> bool) (k : nat) (m : mem) (first last result : nat) : res (mem * nat) :=
    if first =? last then Ok (m, result)
    else
      value <- rd m first ;;
      m <- wr m result value ;;
      iter k (fun '((m, first, result, value) : mem * nat * nat * A) =>
             if first =? last then Ok (inr (m, result))
             else
               x <- rd m first ;;
               if negb (pred value x) then
                 value <- rd m first ;;
                 m <- wr m result value ;;
                 Ok (inl (m, S first, S result, value))
               else Ok (inl (m, S first, result, value)))
             (m, S first, S result, value).

  (** cxx14/partition.hpp 21-31; [c], [d]: category and depth of the nested find_if
      and find_if_not *)
  Definition partition (c : bool) (d : nat) (k : nat) (m : mem) (first last : nat) (p : A -> bool) : res (mem * nat) :=
    first <- find_if_not c d m first last p ;;
    it <- find_if c d m first last p ;;
    iter k (fun '((m, first, it) : mem * nat * nat) =>
      if it =? last then Ok (inr (m, first))
      else
        m <- iter_swap m first it ;;
        first <- find_if_not c d m first last p ;;
        it <- find_if c d m it last p ;;
        Ok (inl (m, first, it)))
      (m, first, it).

  (** cxx14/partition_copy.hpp 19-29 *)
  Definition partition_copy (k : nat) (m : mem) (first last out_true out_false : nat) (p : A -> bool)
      : res (mem * nat * nat) :=
    iter k (fun '((m, first, out_true, out_false) : mem * nat * nat * nat) =>
      if first =? last then Ok (inr (m, out_true, out_false))
      else
        x <- rd m first ;;
        if p x then
          y <- rd m first ;; m <- wr m out_true y ;; Ok (inl (m, S first, S out_true, out_false))
        else
          y <- rd m first ;; m <- wr m out_false y ;; Ok (inl (m, S first, out_true, S out_false)))
      (m, first, out_true, out_false).

  (** cxx14/stable_partition.hpp 20-37; [r]: recursion depth.  The call with len = 0
      cannot occur from line 47; here (as in the code) it would recurse forever. *)
  Fixpoint inplace_stable_partition (r : nat) (c : bool) (d k : nat) (m : mem) (first : nat)
      (p : A -> bool) (len : nat) : res (mem * nat) :=
    match r with
    | 0 => Fuel
    | S r' =>
        if len =? 1 then Ok (m, first)
        else
          let middle := first + len / 2 in
          s <- inplace_stable_partition r' c d k m first p (len / 2) ;;
          let '(m, left_split) := s in
          let right_len := len - len / 2 in
          right_split <- find_if_not c d m middle (middle + right_len) p ;;
          s <- (if negb (right_len =? 0) then inplace_stable_partition r' c d k m middle p right_len
                else Ok (m, right_split)) ;;
          let '(m, right_split) := s in
          s <- rotate k m left_split middle right_split ;;
          let '(m, _) := s in
          Ok (m, left_split + (right_split - middle))
    end.

  (** cxx14/stable_partition.hpp 43-49 *)
  Definition stable_partition (r : nat) (c : bool) (d k : nat) (m : mem) (first last : nat)
      (p : A -> bool) : res (mem * nat) :=
    first <- find_if_not c d m first last p ;;
    if first =? last then Ok (m, first)
    else inplace_stable_partition r c d k m first p (last - first).

  (** cxx14/gather.hpp 21-27 (the two calls work on disjoint ranges; modelled left to
      right) *)
  Definition gather (r : nat) (c : bool) (d k : nat) (m : mem) (first last pivot : nat)
      (p : A -> bool) : res (mem * nat * nat) :=
    s1 <- stable_partition r c d k m first pivot (fun x => negb (p x)) ;;
    let '(m, a) := s1 in
    s2 <- stable_partition r c d k m pivot last p ;;
    let '(m, b) := s2 in
    Ok (m, a, b).

  (** cxx14/for_each.hpp 19-25; [f] has a state and may change the element *)
  Definition for_each {F} (k : nat) (m : mem) (first last : nat) (f : F -> A -> F * A) (st : F) : res (mem * F) :=
    iter k (fun '((m, first, st) : mem * nat * F) =>
      if first =? last then Ok (inr (m, st))
      else
        x <- rd m first ;;
        let '(st, y) := f st x in
        m <- wr m first y ;; Ok (inl (m, S first, st)))
      (m, first, st).

  (** cxx14/for_each_n.hpp 18-24: [for (Size i = 0; i < n; ++first)] *)
  Definition for_each_n {F} (k : nat) (m : mem) (first n : nat) (f : F -> A -> F * A) (st : F)
      : res (mem * nat * F) :=
    iter k (fun '((m, i, first, st) : mem * nat * nat * F) =>
      if i <? n then
        x <- rd m first ;;
        let '(st, y) := f st x in
        m <- wr m first y ;; Ok (inl (m, i, S first, st))
      else Ok (inr (m, first, st)))
      (m, 0, first, st).

  (** cxx14/random_swap.hpp 22-35; [dist g lo hi] draws from uniform_int(lo, hi) *)
  Definition random_swap {G} (dist : G -> nat -> nat -> nat * G) (m : mem) (first last : nat) (g : G)
      : res (mem * G) :=
    let d := last - first in
    if 1 <? d then
      let '(i, g) := dist g 0 d in
      let '(j, g) := dist g 0 d in
      if negb (i =? j) then m <- iter_swap m (first + i) (first + j) ;; Ok (m, g)
      else Ok (m, g)
    else Ok (m, g).

  (** cxx14/shuffle.hpp 22-37 *)
  Definition shuffle {G} (dist : G -> nat -> nat -> nat * G) (k : nat) (m : mem) (first last : nat) (g : G)
      : res (mem * G) :=
    let d := last - first in
    if 1 <? d then
      last <- dec last ;;
      iter k (fun '((m, first, d, g) : mem * nat * nat * G) =>
        if first <? last then
          let '(i, g) := dist g 0 d in
          if negb (i =? 0) then
            m <- iter_swap m first (first + i) ;; Ok (inl (m, S first, d - 1, g))
          else Ok (inl (m, S first, d - 1, g))
        else Ok (inr (m, g)))
        (m, first, d - 1, g)
    else Ok (m, g).

  (** cxx14/random_shuffle.hpp 19-27; [rand g n] draws from [0, n) *)
  Definition random_shuffle {G} (rand : G -> nat -> nat * G) (k : nat) (m : mem) (first last : nat) (g : G)
      : res (mem * G) :=
    if first =? last then Ok (m, g)
    else
      iter k (fun '((m, it, g) : mem * nat * G) =>
        if it =? last then Ok (inr (m, g))
        else
          let '(r, g) := rand g (it - first + 1) in
          m <- iter_swap m it (first + r) ;; Ok (inl (m, S it, g)))
        (m, S first, g).
End Mut.
