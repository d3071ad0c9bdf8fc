(** Models of the non-modifying search algorithms of sprout/algorithm.

    Conventions (see DESIGN.md section 2): an iterator is a position in a list; a
    range is [first, last) of a list; [c = true] selects the version for
    random-access iterators with constant distance, [c = false] the version for
    input/forward iterators (the C++ overloads dispatched on the iterator
    category); [d] is the call depth available to the function's own recursion and
    [d2] the depth available to a nested algorithm call.  Calls of [next], [prev],
    [distance], the predicate and the non-recursive *_impl_check helpers are not
    counted in the depth.  Functors are pure and total. *)
From Coq Require Import List Arith Bool ZArith.
From Verif Require Import Base.
Import ListNotations.

Section OneRange.
  Context {A : Type}.

  (** ** find_if  (sprout/algorithm/find_if.hpp) *)

  (** 21-53: random access.  Leaf: [pred( *first) ? first : last]. *)
  Definition find_if_ra (d : nat) (l : list A) (first last : nat) (p : A -> bool) : res nat :=
    if first =? last then Ok last
    else ra_search d (fun i _ => x <- rd l i ;; Ok (p x))
           first last ((last - first) / 2) first.

  (** 56-100: input iterators; state = pair(position, found). *)
  Definition find_if_in (d : nat) (l : list A) (first last : nat) (p : A -> bool) : res nat :=
    s <- dbl (stop (fun s => snd s || (fst s =? last)))
             (fun s => x <- rd l (fst s) ;;
                       Ok (if p x then (fst s, true) else (S (fst s), false)))
             d (first, false) 1 ;;
    Ok (fst s).

  (** 109-113 *)
  Definition find_if (c : bool) (d : nat) (l : list A) (first last : nat) (p : A -> bool) :=
    if c then find_if_ra d l first last p else find_if_in d l first last p.

  (** ** find_if_not  (sprout/algorithm/find_if_not.hpp, same lines, test negated) *)
  Definition find_if_not_ra (d : nat) (l : list A) (first last : nat) (p : A -> bool) : res nat :=
    if first =? last then Ok last
    else ra_search d (fun i _ => x <- rd l i ;; Ok (negb (p x)))
           first last ((last - first) / 2) first.

  Definition find_if_not_in (d : nat) (l : list A) (first last : nat) (p : A -> bool) : res nat :=
    s <- dbl (stop (fun s => snd s || (fst s =? last)))
             (fun s => x <- rd l (fst s) ;;
                       Ok (if negb (p x) then (fst s, true) else (S (fst s), false)))
             d (first, false) 1 ;;
    Ok (fst s).

  Definition find_if_not (c : bool) (d : nat) (l : list A) (first last : nat) (p : A -> bool) :=
    if c then find_if_not_ra d l first last p else find_if_not_in d l first last p.

  (** ** find  (sprout/algorithm/find.hpp 21-113, test [*first == value]); the
      element type and the value type may differ, [eqb] is [operator==]. *)
  Definition find_ra {B : Type} (eqb : A -> B -> bool) (d : nat) (l : list A) (first last : nat) (v : B) : res nat :=
    if first =? last then Ok last
    else ra_search d (fun i _ => x <- rd l i ;; Ok (eqb x v))
           first last ((last - first) / 2) first.

  Definition find_in {B : Type} (eqb : A -> B -> bool) (d : nat) (l : list A) (first last : nat) (v : B) : res nat :=
    s <- dbl (stop (fun s => snd s || (fst s =? last)))
             (fun s => x <- rd l (fst s) ;;
                       Ok (if eqb x v then (fst s, true) else (S (fst s), false)))
             d (first, false) 1 ;;
    Ok (fst s).

  Definition find {B : Type} (eqb : A -> B -> bool) (c : bool) (d : nat) (l : list A) (first last : nat) (v : B) :=
    if c then find_ra eqb d l first last v else find_in eqb d l first last v.

  (** ** all_of  (sprout/algorithm/all_of.hpp 21-51 / 54-98 / 107-111) *)
  Definition all_of (c : bool) (d : nat) (l : list A) (first last : nat) (p : A -> bool) : res bool :=
    if c then
      if first =? last then Ok true
      else ra_and d (fun i _ => x <- rd l i ;; Ok (p x)) first last ((last - first) / 2)
    else
      s <- dbl (stop (fun s => negb (snd s) || (fst s =? last)))
               (fun s => x <- rd l (fst s) ;;
                         Ok (if p x then (S (fst s), true) else (fst s, false)))
               d (first, true) 1 ;;
      Ok (snd s).

  (** ** any_of  (sprout/algorithm/any_of.hpp, same lines) *)
  Definition any_of (c : bool) (d : nat) (l : list A) (first last : nat) (p : A -> bool) : res bool :=
    if c then
      if first =? last then Ok false
      else ra_or d (fun i _ => x <- rd l i ;; Ok (p x)) first last ((last - first) / 2)
    else
      s <- dbl (stop (fun s => snd s || (fst s =? last)))
               (fun s => x <- rd l (fst s) ;;
                         Ok (if p x then (fst s, true) else (S (fst s), false)))
               d (first, false) 1 ;;
      Ok (snd s).

  (** ** none_of  (sprout/algorithm/none_of.hpp, same lines) *)
  Definition none_of (c : bool) (d : nat) (l : list A) (first last : nat) (p : A -> bool) : res bool :=
    if c then
      if first =? last then Ok true
      else ra_and d (fun i _ => x <- rd l i ;; Ok (negb (p x))) first last ((last - first) / 2)
    else
      s <- dbl (stop (fun s => negb (snd s) || (fst s =? last)))
               (fun s => x <- rd l (fst s) ;;
                         Ok (if negb (p x) then (S (fst s), true) else (fst s, false)))
               d (first, true) 1 ;;
      Ok (snd s).

  (** all_of_equal / any_of_equal / none_of_equal (sprout/algorithm/{all,any,none}_of_equal.hpp
      21-111): textually the three above with [*first == value] for [pred( *first)]. *)
  Definition all_of_equal {B} (eqb : A -> B -> bool) c d l first last (v : B) :=
    all_of c d l first last (fun x => eqb x v).
  Definition any_of_equal {B} (eqb : A -> B -> bool) c d l first last (v : B) :=
    any_of c d l first last (fun x => eqb x v).
  Definition none_of_equal {B} (eqb : A -> B -> bool) c d l first last (v : B) :=
    none_of c d l first last (fun x => eqb x v).

  (** ** one_of  (sprout/algorithm/one_of.hpp) *)

  (** 40-58, with one_of_impl_ra_1 (22-36) the [ra_and] of the negated test. *)
  Fixpoint one_of_impl_ra (d : nat) (l : list A) (p : A -> bool) (first last pivot : nat) : res bool :=
    match d with
    | 0 => Fuel
    | S d' =>
        if pivot =? 0 then x <- rd l first ;; Ok (p x)
        else
          b <- one_of_impl_ra d' l p first (first + pivot) (pivot / 2) ;;
          if b then
            ra_and d' (fun i _ => x <- rd l i ;; Ok (negb (p x)))
              (first + pivot) last ((last - first - pivot) / 2)
          else
            one_of_impl_ra d' l p (first + pivot) last ((last - first - pivot) / 2)
    end.

  (** 62-73 *)
  Definition one_of_ra (d : nat) (l : list A) (first last : nat) (p : A -> bool) : res bool :=
    if first =? last then Ok false
    else one_of_impl_ra d l p first last ((last - first) / 2).

  (** 77-122: state = pair(position, number seen: 0, 1 or 2) *)
  Definition one_of_in (d : nat) (l : list A) (first last : nat) (p : A -> bool) : res bool :=
    s <- dbl (stop (fun s => (1 <? snd s) || (fst s =? last)))
             (fun s => x <- rd l (fst s) ;;
                Ok (if snd s =? 0 then
                      if negb (p x) then (S (fst s), 0) else (S (fst s), 1)
                    else
                      if negb (p x) then (S (fst s), 1) else (fst s, 2)))
             d (first, 0) 1 ;;
    Ok (snd s =? 1).

  (** 131-135 *)
  Definition one_of (c : bool) (d : nat) (l : list A) (first last : nat) (p : A -> bool) :=
    if c then one_of_ra d l first last p else one_of_in d l first last p.

  (** one_of_equal (sprout/algorithm/one_of_equal.hpp 22-136): textually the same with
      [*first == value]. *)
  Definition one_of_equal {B} (eqb : A -> B -> bool) c d l first last (v : B) :=
    one_of c d l first last (fun x => eqb x v).

  (** ** count_if  (sprout/algorithm/count_if.hpp) *)

  (** 21-38 *)
  Fixpoint count_if_impl_ra (d : nat) (l : list A) (p : A -> bool) (first size : nat) : res nat :=
    match d with
    | 0 => Fuel
    | S d' =>
        if size =? 1 then x <- rd l first ;; Ok (if p x then 1 else 0)
        else
          a <- count_if_impl_ra d' l p first (size / 2) ;;
          b <- count_if_impl_ra d' l p (first + size / 2) (size - size / 2) ;;
          Ok (a + b)
    end.

  (** 39-51 / 54-98 / 107-111 *)
  Definition count_if (c : bool) (d : nat) (l : list A) (first last : nat) (p : A -> bool) : res nat :=
    if c then
      if first =? last then Ok 0
      else count_if_impl_ra d l p first (last - first)
    else
      s <- dbl (stop (fun s => fst s =? last))
               (fun s => x <- rd l (fst s) ;;
                         Ok (S (fst s), if p x then snd s + 1 else snd s))
               d (first, 0) 1 ;;
      Ok (snd s).

  (** count (sprout/algorithm/count.hpp 21-112): textually the same with [*first == value]. *)
  Definition count {B} (eqb : A -> B -> bool) c d l first last (v : B) :=
    count_if c d l first last (fun x => eqb x v).

  (** ** adjacent_find  (sprout/algorithm/adjacent_find.hpp) *)

  (** 23-66; the leaf compares [*first] with [*last]. *)
  Definition adjacent_find_ra (d : nat) (l : list A) (first last : nat) (p : A -> A -> bool) : res nat :=
    if (first =? last) || (last - first =? 1) then Ok last
    else
      found <- ra_search d (fun i j => x <- rd l i ;; y <- rd l j ;; Ok (p x y))
                 first (first + (last - first - 1)) ((last - first - 1) / 2) first ;;
      Ok (if last - found =? 1 then last else found).

  (** 71-127; state = pair(position, next position) *)
  Definition adjacent_find_in (d : nat) (l : list A) (first last : nat) (p : A -> A -> bool) : res nat :=
    if first =? last then Ok last
    else
      s <- dbl (stop (fun s => snd s =? last))
               (fun s => x <- rd l (fst s) ;; y <- rd l (snd s) ;;
                         Ok (if p x y then (fst s, last) else (snd s, S (snd s))))
               d (first, S first) 1 ;;
      Ok (if S (fst s) =? last then last else fst s).

  (** 137-141 *)
  Definition adjacent_find (c : bool) d l first last p :=
    if c then adjacent_find_ra d l first last p else adjacent_find_in d l first last p.

  (** ** search_n  (sprout/algorithm/search_n.hpp) *)

  Section SearchN.
    Context {B : Type}.
    Variable p : A -> B -> bool.

    (** 23-39 *)
    Fixpoint search_n_impl_ra (d : nat) (l : list A) (current last count : nat) (v : B)
        (len searched : nat) : res nat :=
      match d with
      | 0 => Fuel
      | S d' =>
          if (count <=? current - searched) || (searched =? last) then Ok searched
          else if len =? 1 then
            x <- rd l current ;;
            Ok (if p x v then searched
                else if count <? last - current then S current else last)
          else
            s1 <- search_n_impl_ra d' l current last count v (len / 2) searched ;;
            search_n_impl_ra d' l (current + len / 2) last count v (len - len / 2) s1
      end.

    (** 43-56 *)
    Definition search_n_ra (d : nat) (l : list A) (first last count : nat) (v : B) : res nat :=
      if last - first <? count then Ok last
      else search_n_impl_ra d l first last count v (last - first) first.

    (** 60-120; state = tuple(position, start of the current run, length of the run) *)
    Definition search_n_in (d : nat) (l : list A) (first last count : nat) (v : B) : res nat :=
      s <- dbl (stop (fun '(i, b, k) => (k =? count) || (i =? last)))
               (fun '(i, b, k) => x <- rd l i ;;
                  Ok (if p x v then (S i, b, k + 1) else (S i, S i, 0)))
               d (first, first, 0) 1 ;;
      let '(i, b, k) := s in Ok (if k =? count then b else last).

    (** 130-142 (the [equal_to] overload is the instance with p = operator==) *)
    Definition search_n (c : bool) (d : nat) (l : list A) (first last count : nat) (v : B) : res nat :=
      if count =? 0 then Ok last
      else if count =? 1 then find_if c d l first last (fun x => p x v)
      else if c then search_n_ra d l first last count v
      else search_n_in d l first last count v.
  End SearchN.
End OneRange.

Section TwoRanges.
  Context {A B : Type}.
  Variable p : A -> B -> bool.

  (** ** mismatch  (sprout/algorithm/mismatch.hpp) *)

  (** 33-71 and 25-30.  In mismatch_impl_ra the second iterator moves with the
      first one, so [first2] at a leaf is [first2_ + (first1 - first1_)] where
      first1_, first2_ are the arguments of the outermost call. *)
  Definition mismatch_impl_ra (d : nat) (l1 : list A) (l2 : list B) (first1 last1 first2 : nat) : res nat :=
    ra_search d (fun i _ => x <- rd l1 i ;; y <- rd l2 (first2 + (i - first1)) ;; Ok (negb (p x y)))
      first1 last1 ((last1 - first1) / 2) first1.

  Definition mismatch_ra (d : nat) (l1 : list A) (l2 : list B) (first1 last1 first2 : nat) : res (nat * nat) :=
    if first1 =? last1 then Ok (first1, first2)
    else
      found <- mismatch_impl_ra d l1 l2 first1 last1 first2 ;;
      Ok (found, first2 + (found - first1)).

  (** 74-130; state = tuple(position1, position2, found) *)
  Definition mismatch_in (d : nat) (l1 : list A) (l2 : list B) (first1 last1 first2 : nat) : res (nat * nat) :=
    s <- dbl (stop (fun '(i, j, b) => b || (i =? last1)))
             (fun '(i, j, b) => x <- rd l1 i ;; y <- rd l2 j ;;
                Ok (if negb (p x y) then (i, j, true) else (S i, S j, false)))
             d (first1, first2, false) 1 ;;
    let '(i, j, _) := s in Ok (i, j).

  (** 140-143 *)
  Definition mismatch (c : bool) d l1 l2 first1 last1 first2 :=
    if c then mismatch_ra d l1 l2 first1 last1 first2
    else mismatch_in d l1 l2 first1 last1 first2.

  (** 152-182: two-range overload, random access *)
  Definition mismatch2_ra (d : nat) (l1 : list A) (l2 : list B) (first1 last1 first2 last2 : nat) : res (nat * nat) :=
    if (first1 =? last1) || (first2 =? last2) then Ok (first1, first2)
    else
      found <- mismatch_impl_ra d l1 l2 first1
                 (first1 + Nat.min (last1 - first1) (last2 - first2)) first2 ;;
      Ok (found, first2 + (found - first1)).

  (** 185-241 *)
  Definition mismatch2_in (d : nat) (l1 : list A) (l2 : list B) (first1 last1 first2 last2 : nat) : res (nat * nat) :=
    s <- dbl (stop (fun '(i, j, b) => b || (i =? last1) || (j =? last2)))
             (fun '(i, j, b) => x <- rd l1 i ;; y <- rd l2 j ;;
                Ok (if negb (p x y) then (i, j, true) else (S i, S j, false)))
             d (first1, first2, false) 1 ;;
    let '(i, j, _) := s in Ok (i, j).

  (** 251-254 *)
  Definition mismatch2 (c : bool) d l1 l2 first1 last1 first2 last2 :=
    if c then mismatch2_ra d l1 l2 first1 last1 first2 last2
    else mismatch2_in d l1 l2 first1 last1 first2 last2.

  (** ** equal  (sprout/algorithm/equal.hpp) *)

  (** 23-40 *)
  Definition equal_impl_ra (d : nat) (l1 : list A) (l2 : list B) (first1 last1 first2 : nat) : res bool :=
    ra_and d (fun i _ => x <- rd l1 i ;; y <- rd l2 (first2 + (i - first1)) ;; Ok (p x y))
      first1 last1 ((last1 - first1) / 2).

  (** 41-57 / 59-107 / 116-120 *)
  Definition equal (c : bool) (d : nat) (l1 : list A) (l2 : list B) (first1 last1 first2 : nat) : res bool :=
    if c then
      if first1 =? last1 then Ok true else equal_impl_ra d l1 l2 first1 last1 first2
    else
      s <- dbl (stop (fun '(i, j, b) => negb b || (i =? last1)))
               (fun '(i, j, b) => x <- rd l1 i ;; y <- rd l2 j ;;
                  Ok (if p x y then (S i, S j, true) else (i, j, false)))
               d (first1, first2, true) 1 ;;
      let '(_, _, b) := s in Ok b.

  (** 129-154 / 156-206 / 214-218: two-range overload *)
  Definition equal2 (c : bool) (d : nat) (l1 : list A) (l2 : list B) (first1 last1 first2 last2 : nat) : res bool :=
    if c then
      if last1 - first1 =? last2 - first2 then
        if first1 =? last1 then Ok true else equal_impl_ra d l1 l2 first1 last1 first2
      else Ok false
    else
      s <- dbl (stop (fun '(i, j, b) => negb b || (i =? last1) || (j =? last2)))
               (fun '(i, j, b) => x <- rd l1 i ;; y <- rd l2 j ;;
                  Ok (if p x y then (S i, S j, true) else (i, j, false)))
               d (first1, first2, true) 1 ;;
      let '(i, j, b) := s in Ok (b && (i =? last1) && (j =? last2)).

  (** ** find_first_of  (sprout/algorithm/find_first_of.hpp) *)

  (** 33 / 75: [find_if(first2, last2, bind1st(pred, *first1)) != last2] *)
  Definition find_first_of_test (c2 : bool) (d2 : nat) (l1 : list A) (l2 : list B) (first2 last2 i : nat) : res bool :=
    x <- rd l1 i ;;
    r <- find_if c2 d2 l2 first2 last2 (fun y => p x y) ;;
    Ok (negb (r =? last2)).

  (** 25-62 / 66-116 / 125-134; [c] is the category of the first iterator, [c2] the
      one of the second. *)
  Definition find_first_of (c c2 : bool) (d d2 : nat) (l1 : list A) (l2 : list B) (first1 last1 first2 last2 : nat) : res nat :=
    if c then
      if first1 =? last1 then Ok last1
      else ra_search d (fun i _ => find_first_of_test c2 d2 l1 l2 first2 last2 i)
             first1 last1 ((last1 - first1) / 2) first1
    else
      s <- dbl (stop (fun s => snd s || (fst s =? last1)))
               (fun s => b <- find_first_of_test c2 d2 l1 l2 first2 last2 (fst s) ;;
                         Ok (if b : bool then (fst s, true) else (S (fst s), false)))
               d (first1, false) 1 ;;
      Ok (fst s).

  (** ** search_one  (sprout/detail/algorithm/search_one.hpp): does the second range
      match at [first1]?  Returns [first1] if so, something else otherwise. *)

  (** 24-48 *)
  Definition search_one_ra (d : nat) (l1 : list A) (l2 : list B) (first1 last1 first2 last2 : nat) : res nat :=
    if last1 - first1 <? last2 - first2 then Ok last1
    else if first1 =? last1 then Ok first1
    else
      let last1' := first1 + (last2 - first2) in
      m <- mismatch_ra d l1 l2 first1 last1' first2 ;;
      Ok (if fst m =? last1' then first1 else last1').

  (** 52-104: the stop branches rebuild the tuple. *)
  Definition search_one_in (d : nat) (l1 : list A) (l2 : list B) (first1 last1 first2 last2 : nat) : res nat :=
    s <- dbl (fun s => let '(i, j, b) := s in
                Ok (if b : bool then Some s
                    else if j =? last2 then Some (first1, last2, true)
                    else if i =? last1 then Some (last1, last2, true)
                    else None))
             (fun '(i, j, b) => x <- rd l1 i ;; y <- rd l2 j ;;
                Ok (if negb (p x y) then (S i, last2, true) else (S i, S j, false)))
             d (first1, first2, false) 1 ;;
    let '(i, _, _) := s in Ok i.

  (** 114-117 *)
  Definition search_one (c : bool) d l1 l2 first1 last1 first2 last2 :=
    if c then search_one_ra d l1 l2 first1 last1 first2 last2
    else search_one_in d l1 l2 first1 last1 first2 last2.

  (** ** search  (sprout/algorithm/search.hpp) *)

  (** 24-43; [last1_] is the end of the whole range, [c2] the common category used
      by search_one. *)
  Fixpoint search_impl_ra (d : nat) (c2 : bool) (d2 : nat) (l1 : list A) (l2 : list B)
      (first1 last1 first2 last2 pivot last1_ searched : nat) : res nat :=
    match d with
    | 0 => Fuel
    | S d' =>
        if (searched <? first1) || (searched =? last1_) then Ok searched
        else if pivot =? 0 then search_one c2 d2 l1 l2 first1 last1_ first2 last2
        else
          s1 <- search_impl_ra d' c2 d2 l1 l2 first1 (first1 + pivot) first2 last2
                  (pivot / 2) last1_ first1 ;;
          search_impl_ra d' c2 d2 l1 l2 (first1 + pivot) last1 first2 last2
            ((last1 - first1 - pivot) / 2) last1_ s1
    end.

  (** 46-62 / 66-123 / 132-141 *)
  Definition search (c c2 : bool) (d d2 : nat) (l1 : list A) (l2 : list B) (first1 last1 first2 last2 : nat) : res nat :=
    if c then
      if first1 =? last1 then Ok last1
      else search_impl_ra d c2 d2 l1 l2 first1 last1 first2 last2
             ((last1 - first1) / 2) last1 first1
    else
      s <- dbl (stop (fun s => snd s || (fst s =? last1)))
               (fun s => r <- search_one c2 d2 l1 l2 (fst s) last1 first2 last2 ;;
                  Ok (if (r =? fst s) || (r =? last1) then (r, true) else (S (fst s), false)))
               d (first1, false) 1 ;;
      Ok (fst s).

  (** ** find_end  (sprout/algorithm/find_end.hpp) *)

  (** 25-56 *)
  Fixpoint find_end_impl_ra (d : nat) (c2 : bool) (d2 : nat) (l1 : list A) (l2 : list B)
      (first1 last1 first2 last2 pivot last1_ searched : nat) : res nat :=
    match d with
    | 0 => Fuel
    | S d' =>
        if negb (searched =? last1_) then Ok searched
        else if pivot =? 0 then
          r <- search_one c2 d2 l1 l2 first1 last1_ first2 last2 ;;
          Ok (if r =? first1 then r else last1_)
        else
          s1 <- find_end_impl_ra d' c2 d2 l1 l2 (first1 + pivot) last1 first2 last2
                  ((last1 - first1 - pivot) / 2) last1_ last1_ ;;
          find_end_impl_ra d' c2 d2 l1 l2 first1 (first1 + pivot) first2 last2
            (pivot / 2) last1_ s1
    end.

  (** 59-91 *)
  Definition find_end_ra (c2 : bool) (d d2 : nat) (l1 : list A) (l2 : list B) (first1 last1 first2 last2 : nat) : res nat :=
    let len1 := last1 - first1 in
    let len2 := last2 - first2 in
    if len1 <? len2 then Ok last1
    else find_end_impl_ra d c2 d2 l1 l2 first1 (last1 - len2 + 1) first2 last2
           ((len1 - len2 + 1) / 2) last1 last1.

  (** sprout/detail/algorithm/search_one_rev.hpp 23-96: compares backwards from
      [last1]; result = pair(start of the match or last1, ran out of the first range) *)
  Definition search_one_rev (d : nat) (l1 : list A) (l2 : list B) (first1 last1 first2 last2 : nat) : res (nat * bool) :=
    s <- dbl (fun s => let '(i, j, b) := s in
                Ok (if b : bool then Some s
                    else if j =? first2 then Some (i, first2, true)
                    else if i =? first1 then Some (first1, j, true)
                    else None))
             (fun '(i, j, b) => x <- rd l1 (i - 1) ;; y <- rd l2 (j - 1) ;;
                Ok (if p x y then (i - 1, j - 1, false) else (i, j, true)))
             d (last1, last2, false) 1 ;;
    let '(i, j, _) := s in
    Ok (if j =? first2 then (i, false) else (last1, i =? first1)).

  (** 95-159: bidirectional; state = pair(end of the window, result) *)
  Definition find_end_bi (d d2 : nat) (l1 : list A) (l2 : list B) (first1 last1 first2 last2 : nat) : res nat :=
    s <- dbl (stop (fun s => negb (snd s =? last1) || (fst s =? first1)))
             (fun s => r <- search_one_rev d2 l1 l2 first1 (fst s) first2 last2 ;;
                Ok (if snd r : bool then (first1, snd s)
                    else if fst r =? fst s then (fst s - 1, snd s)
                    else (fst s, fst r)))
             d (last1, last1) 1 ;;
    Ok (snd s).

  (** 163-221: forward; state = pair(position, last match so far) *)
  Definition find_end_fwd (c2 : bool) (d d2 : nat) (l1 : list A) (l2 : list B) (first1 last1 first2 last2 : nat) : res nat :=
    s <- dbl (stop (fun s => fst s =? last1))
             (fun s => r <- search_one c2 d2 l1 l2 (fst s) last1 first2 last2 ;;
                Ok (if r =? fst s then (S (fst s), r)
                    else if r =? last1 then (last1, snd s)
                    else (S (fst s), snd s)))
             d (first1, last1) 1 ;;
    Ok (snd s).

  (** The three categories find_end is overloaded on. *)
  Inductive category3 := CRandom | CBidirectional | CForward.

  (** 231-239 *)
  Definition find_end (c : category3) (c2 : bool) (d d2 : nat) (l1 : list A) (l2 : list B) (first1 last1 first2 last2 : nat) : res nat :=
    if (first1 =? last1) || (first2 =? last2) then Ok last1
    else match c with
    | CRandom => find_end_ra c2 d d2 l1 l2 first1 last1 first2 last2
    | CBidirectional => find_end_bi d d2 l1 l2 first1 last1 first2 last2
    | CForward => find_end_fwd c2 d d2 l1 l2 first1 last1 first2 last2
    end.
End TwoRanges.
