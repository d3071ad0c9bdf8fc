(** Models of sort, nth_element, stable_sort and the permutation generators.  Nothing is
    proved in this file.  A moved-from element keeps its value. *)
From Coq Require Import List Arith NArith Bool.
From Verif Require Import Base OrderModel MutModel SetModel.
Import ListNotations.

(** [++n] for [unsigned n] of 32 bits *)
Definition inc_u32 (n : N) : N := N.modulo (N.succ n) 4294967296.

Section Sorting.
  Context {A : Type}.
  Variable comp : A -> A -> bool.
  Notation mem := (list A).

  (** [comp( *a, *b)] *)
  Definition cmp (m : mem) (a b : nat) : res bool :=
    x <- rd m a ;; y <- rd m b ;; Ok (comp x y).

  (** sprout/algorithm/cxx14/detail/sort_tool.hpp 21-46 *)
  Definition sort3 (m : mem) (x y z : nat) : res (mem * N) :=
    b <- cmp m y x ;;
    if negb b then
      b <- cmp m z y ;;
      if negb b then Ok (m, 0%N)
      else
        m <- iter_swap m y z ;;
        b <- cmp m y x ;;
        if b then m <- iter_swap m x y ;; Ok (m, 2%N) else Ok (m, 1%N)
    else
      b <- cmp m z y ;;
      if b then m <- iter_swap m x z ;; Ok (m, 1%N)
      else
        m <- iter_swap m x y ;;
        b <- cmp m z y ;;
        if b then m <- iter_swap m y z ;; Ok (m, 2%N) else Ok (m, 1%N).

  (** sort_tool.hpp 49-64 *)
  Definition sort4 (m : mem) (x1 x2 x3 x4 : nat) : res (mem * N) :=
    s <- sort3 m x1 x2 x3 ;;
    let '(m, r) := s in
    b <- cmp m x4 x3 ;;
    if b then
      m <- iter_swap m x3 x4 ;;
      let r := inc_u32 r in
      b <- cmp m x3 x2 ;;
      if b then
        m <- iter_swap m x2 x3 ;;
        let r := inc_u32 r in
        b <- cmp m x2 x1 ;;
        if b then m <- iter_swap m x1 x2 ;; Ok (m, inc_u32 r)
        else Ok (m, r)
      else Ok (m, r)
    else Ok (m, r).

  (** sort_tool.hpp 67-86 *)
  Definition sort5 (m : mem) (x1 x2 x3 x4 x5 : nat) : res (mem * N) :=
    s <- sort4 m x1 x2 x3 x4 ;;
    let '(m, r) := s in
    b <- cmp m x5 x4 ;;
    if b then
      m <- iter_swap m x4 x5 ;;
      let r := inc_u32 r in
      b <- cmp m x4 x3 ;;
      if b then
        m <- iter_swap m x3 x4 ;;
        let r := inc_u32 r in
        b <- cmp m x3 x2 ;;
        if b then
          m <- iter_swap m x2 x3 ;;
          let r := inc_u32 r in
          b <- cmp m x2 x1 ;;
          if b then m <- iter_swap m x1 x2 ;; Ok (m, inc_u32 r)
          else Ok (m, r)
        else Ok (m, r)
      else Ok (m, r)
    else Ok (m, r).

  (** sort_tool.hpp 89-97; [c], [d]: iterator category and call depth for min_element *)
  Definition selection_sort (c : bool) (d k : nat) (m : mem) (first last : nat) : res mem :=
    lm1 <- dec last ;;
    iter k (fun '((m, first) : mem * nat) =>
      if first =? lm1 then Ok (inr m)
      else
        i <- min_element comp c d m first last ;;
        if negb (i =? first) then m <- iter_swap m first i ;; Ok (inl (m, S first))
        else Ok (inl (m, S first)))
      (m, first).

  (** sort_tool.hpp 122-129 and 163-170: inserts *i into the sorted range [first, i), it being
      known that it is less than *j, j = i - 1.  State of the do loop: memory, j, k *)
  Definition linear_insert (k : nat) (m : mem) (first i j : nat) : res mem :=
    t <- rd m i ;;
    s <- iter k (fun '((m, j, p) : mem * nat * nat) =>
        x <- rd m p ;; m <- wr m j x ;;
        let j := p in
        if j =? first then Ok (inr (m, j))
        else
          p <- dec p ;; y <- rd m p ;;
          if comp t y then Ok (inl (m, j, p)) else Ok (inr (m, j)))
      (m, i, j) ;;
    let '(m, j) := s in
    wr m j t.

  (** sort_tool.hpp 116-133 *)
  Definition insertion_sort_3 (k : nat) (m : mem) (first last : nat) : res mem :=
    let j := first + 2 in
    s <- sort3 m first (first + 1) j ;;
    iter k (fun '((m, i, j) : mem * nat * nat) =>
      if i =? last then Ok (inr m)
      else
        b <- cmp m i j ;;
        if b then m <- linear_insert k m first i j ;; Ok (inl (m, S i, i))
        else Ok (inl (m, S i, i)))
      (fst s, j + 1, j).

  (** sort.hpp 37-55, sort_tool.hpp 137-155: up to five elements; None if there are more *)
  Definition sort_few (m : mem) (first last : nat) : res (option mem) :=
    match last - first with
    | 0 | 1 => Ok (Some m)
    | 2 =>
        last <- dec last ;;
        b <- cmp m last first ;;
        if b then m <- iter_swap m first last ;; Ok (Some m) else Ok (Some m)
    | 3 => last <- dec last ;; s <- sort3 m first (first + 1) last ;; Ok (Some (fst s))
    | 4 => last <- dec last ;; s <- sort4 m first (first + 1) (first + 2) last ;; Ok (Some (fst s))
    | 5 => last <- dec last ;; s <- sort5 m first (first + 1) (first + 2) (first + 3) last ;; Ok (Some (fst s))
    | _ => Ok None
    end.

  (** sort_tool.hpp 136-178 *)
  Definition insertion_sort_incomplete (k : nat) (m : mem) (first last : nat) : res (mem * bool) :=
    o <- sort_few m first last ;;
    match o with
    | Some m => Ok (m, true)
    | None =>
        let j := first + 2 in
        s <- sort3 m first (first + 1) j ;;
        let limit := 8 in
        iter k (fun '((m, i, j, count) : mem * nat * nat * nat) =>
          if i =? last then Ok (inr (m, true))
          else
            b <- cmp m i j ;;
            if b then
              m <- linear_insert k m first i j ;;
              let count := S count in
              if count =? limit then Ok (inr (m, S i =? last))
              else Ok (inl (m, S i, i, count))
            else Ok (inl (m, S i, i, count)))
          (fst s, j + 1, j, 0)
    end.

  (** *** Partitioning around *m (sort.hpp 79-148, nth_element.hpp 53-130) *)

  (** [while (comp( *i, *m)) ++i] *)
  Definition scan_up (k : nat) (m : mem) (p i : nat) : res nat :=
    iter k (fun i => b <- cmp m i p ;; Ok (if b then inl (S i) else inr i)) i.
  (** [while (!comp( *--j, *m))] *)
  Definition scan_down (k : nat) (m : mem) (p j : nat) : res nat :=
    iter k (fun j => j <- dec j ;; b <- cmp m j p ;; Ok (if negb b then inl j else inr j)) j.
  (** [while (!comp( *first, *i)) ++i] *)
  Definition scan_up_eq (k : nat) (m : mem) (first i : nat) : res nat :=
    iter k (fun i => b <- cmp m first i ;; Ok (if negb b then inl (S i) else inr i)) i.
  (** [while (comp( *first, *--j))] *)
  Definition scan_down_eq (k : nat) (m : mem) (first j : nat) : res nat :=
    iter k (fun j => j <- dec j ;; b <- cmp m first j ;; Ok (if b then inl j else inr j)) j.

  (** sort.hpp 82-83 and 119: searches downwards for an element less than *m; None if there
      is none above first *)
  Definition find_less (k : nat) (m : mem) (p first j : nat) : res (option nat) :=
    iter k (fun j =>
      j <- dec j ;;
      if first =? j then Ok (inr None)
      else b <- cmp m j p ;; Ok (if b then inr (Some j) else inl j)) j.

  (** sort.hpp 87-98: searches upwards for an element greater than *first and puts it last *)
  Definition find_greater (k : nat) (m : mem) (first i j : nat) : res (option (mem * nat)) :=
    iter k (fun i =>
      if i =? j then Ok (inr None)
      else
        b <- cmp m first i ;;
        if b then m <- iter_swap m i j ;; Ok (inr (Some (m, S i)))
        else Ok (inl (S i))) i.

  (** sort.hpp 103-115; the counter of swaps is not used any more *)
  Definition split_equal_loop (k : nat) (m : mem) (first i j : nat) : res (mem * nat) :=
    iter k (fun '((m, i, j) : mem * nat * nat) =>
      i <- scan_up_eq k m first i ;;
      j <- scan_down_eq k m first j ;;
      if j <=? i then Ok (inr (m, i))
      else m <- iter_swap m i j ;; Ok (inl (m, S i, j)))
      (m, i, j).

  (** sort.hpp 84-116, nth_element.hpp 59-90: no element is less than *first; moves those
      equivalent to *first to the front.  None: return; Some i: they fill [first, i) *)
  Definition split_equal (k : nat) (m : mem) (first last : nat) : res (mem * option nat) :=
    let i := S first in
    j <- dec last ;;
    b <- cmp m first j ;;
    o <- (if negb b then find_greater k m first i j else Ok (Some (m, i))) ;;
    match o with
    | None => Ok (m, None)
    | Some (m, i) =>
        if i =? j then Ok (m, None)
        else s <- split_equal_loop k m first i j ;; let '(m, i) := s in Ok (m, Some i)
    end.

  (** sort.hpp 128-143, nth_element.hpp 110-125; [strict]: break if i > j (sort), if i >= j
      (nth_element).  State: memory, m, i, j, n_swaps *)
  Definition split_loop (strict : bool) (k : nat) (m : mem) (p i j : nat) (n : N) : res (mem * nat * nat * N) :=
    iter k (fun '((m, p, i, j, n) : mem * nat * nat * nat * N) =>
      i <- scan_up k m p i ;;
      j <- scan_down k m p j ;;
      if (if strict then j <? i else j <=? i) then Ok (inr (m, p, i, n))
      else
        m <- iter_swap m i j ;;
        let p := if p =? i then j else p in
        Ok (inl (m, p, S i, j, inc_u32 n)))
      (m, p, i, j, n).

  (** sort.hpp 127-148, nth_element.hpp 109-130: the final position of the pivot, n_swaps *)
  Definition split_main (strict : bool) (k : nat) (m : mem) (p i j : nat) (n : N) : res (mem * nat * N) :=
    s <- (if i <? j then split_loop strict k m p i j n else Ok (m, p, i, n)) ;;
    let '(m, p, i, n) := s in
    if negb (i =? p) then
      b <- cmp m p i ;;
      if b then m <- iter_swap m i p ;; Ok (m, i, inc_u32 n) else Ok (m, i, n)
    else Ok (m, i, n).

  (** sort.hpp 79-148, nth_element.hpp 53-130.  [inl o]: all elements were not less than
      *first, see [split_equal]; [inr (i, n)]: position of the pivot, n_swaps *)
  Definition split (strict : bool) (k : nat) (m : mem) (p first last : nat) (n : N)
      : res (mem * (option nat + nat * N)) :=
    lm1 <- dec last ;;
    b <- cmp m first p ;;
    if negb b then
      o <- find_less k m p first lm1 ;;
      match o with
      | None => s <- split_equal k m first last ;; let '(m, o) := s in Ok (m, inl o)
      | Some j =>
          m <- iter_swap m first j ;;
          s <- split_main strict k m p (S first) j (inc_u32 n) ;;
          let '(m, i, n) := s in Ok (m, inr (i, n))
      end
    else
      s <- split_main strict k m p (S first) lm1 n ;;
      let '(m, i, n) := s in Ok (m, inr (i, n)).

  (** sort.hpp 60-78: chooses the pivot *)
  Definition choose_pivot (m : mem) (first last len : nat) : res (mem * nat * N) :=
    lm1 <- dec last ;;
    let delta := len / 2 in
    let p := first + delta in
    s <- (if 10 * 100 <=? len then
            let delta := delta / 2 in
            sort5 m first (first + delta) p (p + delta) lm1
          else sort3 m first p lm1) ;;
    let '(m, n) := s in Ok (m, p, n).

  (** sort.hpp 27-170; [rec]: the recursive call; [limit]: 30 or 6.  The third and fourth
      component are the iterators [first] and [last], which are passed by reference (they are
      not used any more if the result is true) *)
  Definition sort_impl (rec : mem -> nat -> nat -> res mem) (limit k : nat) (m : mem) (first last : nat)
      : res (mem * bool * nat * nat) :=
    let len := last - first in
    o <- sort_few m first last ;;
    match o with
    | Some m => Ok (m, true, first, last)
    | None =>
        if len <=? limit then
          m <- insertion_sort_3 k m first last ;; Ok (m, true, first, last)
        else
          s <- choose_pivot m first last len ;;
          let '(m, p, n) := s in
          s <- split true k m p first last n ;;
          let '(m, o) := s in
          match o with
          | inl None => Ok (m, true, first, last)
          | inl (Some i) => Ok (m, false, i, last)
          | inr (i, n) =>
              let recurse m :=
                if i - first <? last - i then
                  m <- rec m first i ;; Ok (m, false, S i, last)
                else
                  m <- rec m (i + 1) last ;; Ok (m, false, first, i) in
              if N.eqb n 0 then
                s <- insertion_sort_incomplete k m first i ;;
                let '(m, fs) := s in
                s <- insertion_sort_incomplete k m (i + 1) last ;;
                let '(m, ls) := s in
                if ls then
                  if fs then Ok (m, true, first, last) else Ok (m, false, first, i)
                else if fs then Ok (m, false, S i, last)
                else recurse m
              else recurse m
          end
    end.

  (** sort.hpp 173-177; [r]: call depth *)
  Fixpoint sort (limit r k : nat) (m : mem) (first last : nat) : res mem :=
    match r with
    | 0 => Fuel
    | S r =>
        iter k (fun '((m, first, last) : mem * nat * nat) =>
          s <- sort_impl (sort limit r k) limit k m first last ;;
          let '(m, done, first, last) := s in
          Ok (if done then inr m else inl (m, first, last)))
          (m, first, last)
    end.

  (** nth_element.hpp 138-145 and 151-158: whether [first, last), first < last, is sorted *)
  Definition check_sorted (k : nat) (m : mem) (first last : nat) : res bool :=
    iter k (fun '((j, p) : nat * nat) =>
      let j := S j in
      if j =? last then Ok (inr true)
      else b <- cmp m j p ;; Ok (if b then inr false else inl (j, j)))
      (first, first).

  (** nth_element.hpp 22-172; [d]: call depth for min_element *)
  Definition nth_element (d k : nat) (m : mem) (first nth last : nat) : res mem :=
    iter k (fun '((m, first, last) : mem * nat * nat) =>
      if nth =? last then Ok (inr m)
      else
        let len := last - first in
        match len with
        | 0 | 1 => Ok (inr m)
        | 2 =>
            last <- dec last ;;
            b <- cmp m last first ;;
            if b then m <- iter_swap m first last ;; Ok (inr m) else Ok (inr m)
        | 3 => last <- dec last ;; s <- sort3 m first (S first) last ;; Ok (inr (fst s))
        | _ =>
            if len <=? 7 then m <- selection_sort true d k m first last ;; Ok (inr m)
            else
              let p := first + len / 2 in
              lm1 <- dec last ;;
              s <- sort3 m first p lm1 ;;
              let '(m, n) := s in
              s <- split false k m p first last n ;;
              let '(m, o) := s in
              match o with
              | inl None => Ok (inr m)
              | inl (Some i) => if nth <? i then Ok (inr m) else Ok (inl (m, i, last))
              | inr (i, n) =>
                  if nth =? i then Ok (inr m)
                  else
                    done <- (if N.eqb n 0 then
                               if nth <? i then check_sorted k m first i else check_sorted k m i last
                             else Ok false) ;;
                    if done then Ok (inr m)
                    else if nth <? i then Ok (inl (m, first, i))
                    else Ok (inl (m, S i, last))
              end
        end)
      (m, first, last).

  (** *** Stable sorting *)

  (** detail/insertion_sort.hpp 20-31 *)
  Definition unguarded_linear_insert (k : nat) (m : mem) (last : nat) : res mem :=
    val <- rd m last ;;
    next <- dec last ;;
    s <- iter k (fun '((m, last, next) : mem * nat * nat) =>
        y <- rd m next ;;
        if comp val y then
          m <- wr m last y ;;
          let last := next in
          next <- dec next ;;
          Ok (inl (m, last, next))
        else Ok (inr (m, last)))
      (m, last, next) ;;
    let '(m, last) := s in
    wr m last val.

  (** detail/insertion_sort.hpp 35-49 *)
  Definition insertion_sort (k : nat) (m : mem) (first last : nat) : res mem :=
    if first =? last then Ok m
    else
      iter k (fun '((m, i) : mem * nat) =>
        if i =? last then Ok (inr m)
        else
          b <- cmp m i first ;;
          if b then
            val <- rd m i ;;
            s <- move_backward k m first i (i + 1) ;;
            m <- wr (fst s) first val ;;
            Ok (inl (m, S i))
          else
            m <- unguarded_linear_insert k m i ;;
            Ok (inl (m, S i)))
        (m, first + 1).

  (** cxx14/stable_sort.hpp 20-29; [r]: call depth, also of the nested merge, [d]: depth of the
      binary searches in it *)
  Fixpoint stable_sort (r d k : nat) (m : mem) (first last : nat) : res mem :=
    match r with
    | 0 => Fuel
    | S r' =>
        if last - first <? 15 then insertion_sort k m first last
        else
          let middle := first + (last - first) / 2 in
          m <- stable_sort r' d k m first middle ;;
          m <- stable_sort r' d k m middle last ;;
          inplace_merge_impl comp r d k m first middle last (middle - first) (last - middle)
    end.

  (** cxx14/next_permutation.hpp 22-42 *)
  Definition next_permutation (k : nat) (m : mem) (first last : nat) : res (mem * bool) :=
    if first =? last then Ok (m, false)
    else
      i <- dec last ;;
      if first =? i then Ok (m, false)
      else
        iter k (fun i =>
          let ip1 := i in
          i <- dec i ;;
          b <- cmp m i ip1 ;;
          if b then
            j <- iter k (fun j => j <- dec j ;; b <- cmp m i j ;; Ok (if negb b then inl j else inr j)) last ;;
            m <- iter_swap m i j ;;
            m <- reverse k m ip1 last ;;
            Ok (inr (m, true))
          else if i =? first then
            m <- reverse k m first last ;; Ok (inr (m, false))
          else Ok (inl i)) i.

  (** cxx14/prev_permutation.hpp 22-42 *)
  Definition prev_permutation (k : nat) (m : mem) (first last : nat) : res (mem * bool) :=
    if first =? last then Ok (m, false)
    else
      i <- dec last ;;
      if first =? i then Ok (m, false)
      else
        iter k (fun i =>
          let ip1 := i in
          i <- dec i ;;
          b <- cmp m ip1 i ;;
          if b then
            j <- iter k (fun j => j <- dec j ;; b <- cmp m j i ;; Ok (if negb b then inl j else inr j)) last ;;
            m <- iter_swap m i j ;;
            m <- reverse k m ip1 last ;;
            Ok (inr (m, true))
          else if i =? first then
            m <- reverse k m first last ;; Ok (inr (m, false))
          else Ok (inl i)) i.
End Sorting.
