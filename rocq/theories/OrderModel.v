(** Models of the non-modifying algorithms that use an ordering (or a partition).
    Conventions as in SearchModel.v. *)
From Coq Require Import List Arith Bool ZArith.
From Verif Require Import Base SearchModel.
Import ListNotations.

Section Bounds.
  Context {A B : Type}.

  (** sprout/algorithm/lower_bound.hpp 22-34; [comp x v] is comp( *it, value). *)
  Fixpoint lower_bound_impl (d : nat) (l : list A) (first len : nat) (v : B) (comp : A -> B -> bool) : res nat :=
    match d with
    | 0 => Fuel
    | S d' =>
        if len =? 0 then Ok first
        else
          x <- rd l (first + len / 2) ;;
          if comp x v then
            lower_bound_impl d' l (first + (len / 2 + 1)) (len - (len / 2 + 1)) v comp
          else lower_bound_impl d' l first (len / 2) v comp
    end.

  (** lower_bound.hpp 43-46 *)
  Definition lower_bound (d : nat) (l : list A) (first last : nat) (v : B) (comp : A -> B -> bool) : res nat :=
    lower_bound_impl d l first (last - first) v comp.

  (** sprout/algorithm/upper_bound.hpp 22-34; [comp v x] is comp(value, *it). *)
  Fixpoint upper_bound_impl (d : nat) (l : list A) (first len : nat) (v : B) (comp : B -> A -> bool) : res nat :=
    match d with
    | 0 => Fuel
    | S d' =>
        if len =? 0 then Ok first
        else
          x <- rd l (first + len / 2) ;;
          if comp v x then upper_bound_impl d' l first (len / 2) v comp
          else upper_bound_impl d' l (first + (len / 2 + 1)) (len - (len / 2 + 1)) v comp
    end.

  (** upper_bound.hpp 43-46 *)
  Definition upper_bound (d : nat) (l : list A) (first last : nat) (v : B) (comp : B -> A -> bool) : res nat :=
    upper_bound_impl d l first (last - first) v comp.

  (** sprout/algorithm/equal_range.hpp 24-41.  The C++ [comp] is called with both
      argument orders; [lt_av] and [lt_va] are its two overloads. *)
  Fixpoint equal_range_impl (d : nat) (l : list A) (first len : nat) (v : B)
      (lt_av : A -> B -> bool) (lt_va : B -> A -> bool) : res (nat * nat) :=
    match d with
    | 0 => Fuel
    | S d' =>
        if len =? 0 then Ok (first, first)
        else
          x <- rd l (first + len / 2) ;;
          if lt_av x v then
            equal_range_impl d' l (first + (len / 2 + 1)) (len - (len / 2 + 1)) v lt_av lt_va
          else if lt_va v x then equal_range_impl d' l first (len / 2) v lt_av lt_va
          else
            lo <- lower_bound_impl d' l first (len / 2) v lt_av ;;
            hi <- upper_bound_impl d' l (first + (len / 2 + 1)) (len - (len / 2 + 1)) v lt_va ;;
            Ok (lo, hi)
    end.

  (** equal_range.hpp 50-53 *)
  Definition equal_range (d : nat) (l : list A) (first last : nat) (v : B)
      (lt_av : A -> B -> bool) (lt_va : B -> A -> bool) : res (nat * nat) :=
    equal_range_impl d l first (last - first) v lt_av lt_va.

  (** sprout/algorithm/binary_search.hpp 18-22 and 31-34 *)
  Definition binary_search (d : nat) (l : list A) (first last : nat) (v : B)
      (lt_av : A -> B -> bool) (lt_va : B -> A -> bool) : res bool :=
    r <- lower_bound d l first last v lt_av ;;
    if r =? last then Ok false
    else x <- rd l r ;; Ok (negb (lt_va v x)).
End Bounds.

Section Partitions.
  Context {A : Type}.

  (** sprout/algorithm/is_partitioned.hpp 22-42 (random access) and 46-92 (input;
      state = pair(position, 0: in the true part, 1: in the false part, 2: failed)),
      101-105 *)
  Definition is_partitioned (c : bool) (d d2 : nat) (l : list A) (first last : nat) (p : A -> bool) : res bool :=
    if c then
      f <- find_if_not c d l first last p ;;
      if f =? last then Ok true else none_of c d2 l (S f) last p
    else
      s <- dbl (stop (fun s => (1 <? snd s) || (fst s =? last)))
               (fun s => x <- rd l (fst s) ;;
                  Ok (if snd s =? 0 then
                        if p x then (S (fst s), 0) else (S (fst s), 1)
                      else
                        if negb (p x) then (S (fst s), 1) else (fst s, 2)))
               d (first, 0) 1 ;;
      Ok (snd s <=? 1).

  (** sprout/algorithm/partition_point.hpp 22-36, 44-50: the C++11 version *)
  Fixpoint partition_point_impl (d : nat) (l : list A) (first last : nat) (p : A -> bool) (mid : nat) : res nat :=
    match d with
    | 0 => Fuel
    | S d' =>
        if mid =? last then Ok mid
        else
          x <- rd l mid ;;
          if p x then
            partition_point_impl d' l (S mid) last p (mid + (1 + (last - mid - 1) / 2))
          else partition_point_impl d' l first mid p (first + (mid - first) / 2)
    end.

  Definition partition_point_11 (d : nat) (l : list A) (first last : nat) (p : A -> bool) : res nat :=
    partition_point_impl d l first last p (first + (last - first) / 2).

  (** partition_point.hpp 57-72: the C++14 loop; here [d] bounds the loop turns *)
  Fixpoint partition_point_loop (d : nat) (l : list A) (first len : nat) (p : A -> bool) : res nat :=
    match d with
    | 0 => Fuel
    | S d' =>
        if len =? 0 then Ok first
        else
          let half := len / 2 in
          let mid := first + half in
          x <- rd l mid ;;
          if p x then partition_point_loop d' l (S mid) (len - (half + 1)) p
          else partition_point_loop d' l first half p
    end.

  Definition partition_point_14 (d : nat) (l : list A) (first last : nat) (p : A -> bool) : res nat :=
    partition_point_loop d l first (last - first) p.
End Partitions.

Section Orders.
  Context {A : Type}.
  Variable comp : A -> A -> bool.

  (** sprout/algorithm/is_sorted_until.hpp 21-60 (random access), 62-113 (forward),
      121-125 *)
  Definition is_sorted_until (c : bool) (d : nat) (l : list A) (first last : nat) : res nat :=
    if c then
      if (first =? last) || (last - first =? 1) then Ok last
      else
        r <- ra_search d (fun i j => y <- rd l j ;; x <- rd l i ;; Ok (comp y x))
               first (first + (last - first - 1)) ((last - first - 1) / 2) first ;;
        Ok (S r)
    else
      if first =? last then Ok last
      else
        s <- dbl (stop (fun s => snd s =? last))
                 (fun s => y <- rd l (snd s) ;; x <- rd l (fst s) ;;
                    Ok (if comp y x then (fst s, last) else (snd s, S (snd s))))
                 d (first, S first) 1 ;;
        Ok (S (fst s)).

  (** sprout/algorithm/is_sorted.hpp 24-58 (random access), 60-68 (forward), 77-81 *)
  Definition is_sorted (c : bool) (d : nat) (l : list A) (first last : nat) : res bool :=
    if c then
      if (first =? last) || (last - first =? 1) then Ok true
      else ra_and d (fun i j => y <- rd l j ;; x <- rd l i ;; Ok (negb (comp y x)))
             first (first + (last - first - 1)) ((last - first - 1) / 2)
    else
      r <- is_sorted_until false d l first last ;; Ok (r =? last).

  (** sprout/algorithm/is_heap_until.hpp 18-39: note that the test is
      [!comp(child, parent)]; positions are relative to the start of the range. *)
  Definition is_heap_until (d : nat) (l : list A) (first last : nat) : res nat :=
    if last - first <? 2 then Ok last
    else
      r <- ra_search d (fun i _ => x <- rd l (first + i) ;; y <- rd l (first + (i - 1) / 2) ;;
                                  Ok (negb (comp x y)))
             1 (last - first) ((last - first - 1) / 2) 1 ;;
      Ok (first + r).

  (** sprout/algorithm/is_heap.hpp 27-30 *)
  Definition is_heap (d : nat) (l : list A) (first last : nat) : res bool :=
    r <- is_heap_until d l first last ;; Ok (r =? last).

  (** sprout/algorithm/min_element.hpp 22-26 *)
  Definition iter_min (l : list A) (a b : nat) : res nat :=
    y <- rd l b ;; x <- rd l a ;; Ok (if comp y x then b else a).

  (** min_element.hpp 28-47 *)
  Fixpoint min_element_impl_ra (d : nat) (l : list A) (first last pivot : nat) : res nat :=
    match d with
    | 0 => Fuel
    | S d' =>
        if pivot =? 0 then Ok first
        else
          a <- min_element_impl_ra d' l first (first + pivot) (pivot / 2) ;;
          b <- min_element_impl_ra d' l (first + pivot) last ((last - first - pivot) / 2) ;;
          iter_min l a b
    end.

  (** min_element.hpp 48-65 (random access), 67-114 (forward; state = pair(position,
      minimum so far)), 123-127 *)
  Definition min_element (c : bool) (d : nat) (l : list A) (first last : nat) : res nat :=
    if first =? last then Ok last
    else if c then min_element_impl_ra d l first last ((last - first) / 2)
    else
      s <- dbl (stop (fun s => fst s =? last))
               (fun s => m <- iter_min l (snd s) (fst s) ;; Ok (S (fst s), m))
               d (S first, first) 1 ;;
      Ok (snd s).

  (** sprout/algorithm/max_element.hpp 22-26 *)
  Definition iter_max (l : list A) (a b : nat) : res nat :=
    x <- rd l a ;; y <- rd l b ;; Ok (if comp x y then b else a).

  (** max_element.hpp 28-47 *)
  Fixpoint max_element_impl_ra (d : nat) (l : list A) (first last pivot : nat) : res nat :=
    match d with
    | 0 => Fuel
    | S d' =>
        if pivot =? 0 then Ok first
        else
          a <- max_element_impl_ra d' l first (first + pivot) (pivot / 2) ;;
          b <- max_element_impl_ra d' l (first + pivot) last ((last - first - pivot) / 2) ;;
          iter_max l a b
    end.

  (** max_element.hpp 48-65, 67-114, 123-127 *)
  Definition max_element (c : bool) (d : nat) (l : list A) (first last : nat) : res nat :=
    if first =? last then Ok last
    else if c then max_element_impl_ra d l first last ((last - first) / 2)
    else
      s <- dbl (stop (fun s => fst s =? last))
               (fun s => m <- iter_max l (snd s) (fst s) ;; Ok (S (fst s), m))
               d (S first, first) 1 ;;
      Ok (snd s).

  (** sprout/algorithm/minmax_element.hpp 22-29 *)
  Definition iter_minmax_pair (l : list A) (a b : nat * nat) : res (nat * nat) :=
    bf <- rd l (fst b) ;; af <- rd l (fst a) ;;
    bs <- rd l (snd b) ;; as_ <- rd l (snd a) ;;
    Ok (if comp bf af then fst b else fst a, if comp bs as_ then snd a else snd b).

  (** minmax_element.hpp 30-37 *)
  Definition iter_minmax_1 (l : list A) (a : nat * nat) (b : nat) : res (nat * nat) :=
    y <- rd l b ;; af <- rd l (fst a) ;; as_ <- rd l (snd a) ;;
    Ok (if comp y af then b else fst a, if comp y as_ then snd a else b).

  (** minmax_element.hpp 38-46 *)
  Definition iter_minmax_2 (l : list A) (a b : nat) : res (nat * nat) :=
    y <- rd l b ;; x <- rd l a ;; Ok (if comp y x then (b, a) else (a, b)).

  (** minmax_element.hpp 48-67 *)
  Fixpoint minmax_element_impl_ra (d : nat) (l : list A) (first half : nat) : res (nat * nat) :=
    match d with
    | 0 => Fuel
    | S d' =>
        if half =? 1 then iter_minmax_2 l first (S first)
        else
          a <- minmax_element_impl_ra d' l first (half / 2) ;;
          b <- minmax_element_impl_ra d' l (first + (half - half mod 2)) ((half + 1) / 2) ;;
          iter_minmax_pair l a b
    end.

  (** minmax_element.hpp 68-95 (random access), 97-183 (forward; state =
      pair(position, minmax so far)), 192-196 *)
  Definition minmax_element (c : bool) (d : nat) (l : list A) (first last : nat) : res (nat * nat) :=
    if c then
      if (first =? last) || (S first =? last) then Ok (first, first)
      else if (last - first) mod 2 =? 0 then
        minmax_element_impl_ra d l first ((last - first) / 2)
      else
        a <- minmax_element_impl_ra d l first ((last - first) / 2) ;;
        iter_minmax_1 l a (last - 1)
    else
      if first =? last then Ok (first, first)
      else
        s0 <- (if S first =? last then Ok (S first, (first, first))
               else m <- iter_minmax_2 l first (S first) ;; Ok (S (S first), m)) ;;
        s <- dbl (stop (fun s => fst s =? last))
                 (fun s =>
                    if S (fst s) =? last then
                      m <- iter_minmax_1 l (snd s) (fst s) ;; Ok (S (fst s), m)
                    else
                      m2 <- iter_minmax_2 l (fst s) (S (fst s)) ;;
                      m <- iter_minmax_pair l (snd s) m2 ;;
                      Ok (S (S (fst s)), m))
                 d s0 1 ;;
        Ok (snd s).

  (** sprout/algorithm/clamp.hpp 21-26 *)
  Definition clamp (v low high : A) : A :=
    if comp v low then low else if comp high v then high else v.
End Orders.

Section TwoRanges.
  Context {A B : Type}.
  (** comp called as comp(x, y) and comp(y, x) with x from the first and y from the
      second range. *)
  Variable lt_ab : A -> B -> bool.
  Variable lt_ba : B -> A -> bool.

  (** sprout/detail/algorithm/lexicographical_compare.hpp 10-29 *)
  Fixpoint lexicographical_compare_impl_ra (d : nat) (l1 : list A) (l2 : list B)
      (first1 first2 size : nat) (found : Z) : res Z :=
    match d with
    | 0 => Fuel
    | S d' =>
        if negb (found =? 2)%Z then Ok found
        else if size =? 1 then
          x <- rd l1 first1 ;; y <- rd l2 first2 ;;
          Ok (if lt_ab x y then -1 else if lt_ba y x then 1 else 2)%Z
        else
          f <- lexicographical_compare_impl_ra d' l1 l2 first1 first2 (size / 2) 2 ;;
          lexicographical_compare_impl_ra d' l1 l2 (first1 + size / 2) (first2 + size / 2)
            (size - size / 2) f
    end.

  (** the same file, 31-69: returns the final pair of positions *)
  Definition lexicographical_compare_impl (d : nat) (l1 : list A) (l2 : list B)
      (first1 last1 first2 last2 : nat) : res (nat * nat) :=
    dbl (stop (fun s => (snd s =? last2) || (fst s =? last1)))
        (fun s => x <- rd l1 (fst s) ;; y <- rd l2 (snd s) ;;
           Ok (if lt_ab x y then (last1, snd s)
               else if lt_ba y x then (fst s, last2)
               else (S (fst s), S (snd s))))
        d (first1, first2) 1.

  (** sprout/algorithm/lexicographical_compare.hpp 24-56 (random access), 57-81
      (input), 90-99 *)
  Definition lexicographical_compare (c : bool) (d : nat) (l1 : list A) (l2 : list B)
      (first1 last1 first2 last2 : nat) : res bool :=
    if c then
      if first2 =? last2 then Ok false
      else if first1 =? last1 then Ok true
      else
        found <- lexicographical_compare_impl_ra d l1 l2 first1 first2
                   (Nat.min (last1 - first1) (last2 - first2)) 2 ;;
        Ok ((found <? 0)%Z || ((found =? 2)%Z && (last1 - first1 <? last2 - first2)))
    else
      f <- lexicographical_compare_impl d l1 l2 first1 last1 first2 last2 ;;
      if snd f =? last2 then Ok false
      else if fst f =? last1 then Ok true
      else x <- rd l1 (fst f) ;; y <- rd l2 (snd f) ;; Ok (lt_ab x y).

  (** sprout/algorithm/tristate_lexicographical_compare.hpp 24-58 (random access),
      59-86 (input), 96-105 *)
  Definition tristate_lexicographical_compare (c : bool) (d : nat) (l1 : list A) (l2 : list B)
      (first1 last1 first2 last2 : nat) : res Z :=
    if c then
      if first2 =? last2 then Ok (if first1 =? last1 then 0%Z else 1%Z)
      else if first1 =? last1 then Ok (-1)%Z
      else
        found <- lexicographical_compare_impl_ra d l1 l2 first1 first2
                   (Nat.min (last1 - first1) (last2 - first2)) 2 ;;
        Ok (if negb (found =? 2)%Z then found
            else if last1 - first1 <? last2 - first2 then (-1)%Z
            else if last2 - first2 <? last1 - first1 then 1%Z else 0%Z)
    else
      f <- lexicographical_compare_impl d l1 l2 first1 last1 first2 last2 ;;
      if snd f =? last2 then Ok (if fst f =? last1 then 0%Z else 1%Z)
      else if fst f =? last1 then Ok (-1)%Z
      else x <- rd l1 (fst f) ;; y <- rd l2 (snd f) ;;
           Ok (if lt_ab x y then -1 else if lt_ba y x then 1 else 0)%Z.

  (** sprout/algorithm/includes.hpp 21-47; state = pair(position2, failed) *)
  Fixpoint includes_impl_ra (d : nat) (l1 : list A) (l2 : list B) (first1 : nat)
      (cur : nat * bool) (last2 len : nat) : res (nat * bool) :=
    match d with
    | 0 => Fuel
    | S d' =>
        if snd cur || (fst cur =? last2) then Ok cur
        else if len =? 1 then
          y <- rd l2 (fst cur) ;; x <- rd l1 first1 ;;
          Ok (if lt_ba y x then (fst cur, true)
              else (if lt_ab x y then fst cur else S (fst cur), false))
        else
          c1 <- includes_impl_ra d' l1 l2 first1 cur last2 (len / 2) ;;
          includes_impl_ra d' l1 l2 (first1 + len / 2) c1 last2 (len - len / 2)
    end.

  (** includes.hpp 69-94: unlike everywhere else the second half gets [n / 2] turns,
      not [n - n / 2] *)
  Fixpoint includes_impl_1 (d : nat) (l1 : list A) (l2 : list B) (cur : nat * nat)
      (last1 last2 n : nat) : res (nat * nat) :=
    match d with
    | 0 => Fuel
    | S d' =>
        if (snd cur =? last2) || (fst cur =? last1) then Ok cur
        else if n =? 1 then
          y <- rd l2 (snd cur) ;; x <- rd l1 (fst cur) ;;
          Ok (if lt_ba y x then (last1, snd cur)
              else (S (fst cur), if lt_ab x y then snd cur else S (snd cur)))
        else
          c1 <- includes_impl_1 d' l1 l2 cur last1 last2 (n / 2) ;;
          includes_impl_1 d' l1 l2 c1 last1 last2 (n / 2)
    end.

  (** includes.hpp 95-112 *)
  Fixpoint includes_impl (d : nat) (l1 : list A) (l2 : list B) (cur : nat * nat)
      (last1 last2 n : nat) : res (nat * nat) :=
    match d with
    | 0 => Fuel
    | S d' =>
        if (snd cur =? last2) || (fst cur =? last1) then Ok cur
        else
          c1 <- includes_impl_1 d' l1 l2 cur last1 last2 n ;;
          includes_impl d' l1 l2 c1 last1 last2 (n * 2)
    end.

  (** includes.hpp 48-68 (random access), 113-126 (input), 135-139 *)
  Definition includes (c : bool) (d : nat) (l1 : list A) (l2 : list B)
      (first1 last1 first2 last2 : nat) : res bool :=
    if c then
      if first1 =? last1 then Ok (first2 =? last2)
      else
        s <- includes_impl_ra d l1 l2 first1 (first2, false) last2 (last1 - first1) ;;
        Ok (fst s =? last2)
    else
      if first2 =? last2 then Ok true
      else
        s <- includes_impl d l1 l2 (first1, first2) last1 last2 1 ;;
        Ok (snd s =? last2).
End TwoRanges.

Section Permutations.
  Context {A : Type}.
  Variable p : A -> A -> bool.

  (** sprout/algorithm/is_permutation.hpp 25-30 and 40-44: what is tested for the
      element at position [current] of the first range; [c], [d2] for the nested
      find_if and count_if calls. *)
  Definition is_permutation_test (c : bool) (d2 : nat) (l1 l2 : list A)
      (first1 last1 first2 last2 current : nat) : res bool :=
    x <- rd l1 current ;;
    f <- find_if c d2 l1 first1 current (fun y => p y x) ;;
    if negb (f =? current) then Ok true
    else
      n <- count_if c d2 l2 first2 last2 (fun y => p y x) ;;
      if n =? 0 then Ok false
      else
        x' <- rd l1 current ;;
        k <- count_if c d2 l1 (S current) last1 (fun y => p y x') ;;
        Ok (k + 1 =? n).

  (** is_permutation.hpp 32-54 *)
  Fixpoint is_permutation_impl_ra (d : nat) (c : bool) (d2 : nat) (l1 l2 : list A)
      (first1 last1 first2 last2 current size : nat) : res bool :=
    match d with
    | 0 => Fuel
    | S d' =>
        if size =? 1 then is_permutation_test c d2 l1 l2 first1 last1 first2 last2 current
        else
          b <- is_permutation_impl_ra d' c d2 l1 l2 first1 last1 first2 last2 current (size / 2) ;;
          if b then
            is_permutation_impl_ra d' c d2 l1 l2 first1 last1 first2 last2
              (current + size / 2) (size - size / 2)
          else Ok false
    end.

  (** is_permutation.hpp 73-97; state = pair(position, still true) *)
  Definition is_permutation_impl_1 (d : nat) (c : bool) (d2 : nat) (l1 l2 : list A)
      (first1 last1 first2 last2 : nat) (s : nat * bool) (n : nat) : res (nat * bool) :=
    dbl_1 (stop (fun s => negb (snd s) || (fst s =? last1)))
          (fun s => b <- is_permutation_test c d2 l1 l2 first1 last1 first2 last2 (fst s) ;;
                    Ok (if b : bool then (S (fst s), true) else (fst s, false)))
          d s n.

  (** is_permutation.hpp 55-71 (random access), 98-128 (forward), 134-138: one-and-a-half
      range overload; [c2] is the category seen by the nested find_if/count_if. *)
  Definition is_permutation (c c2 : bool) (d d2 : nat) (l1 l2 : list A)
      (first1 last1 first2 : nat) : res bool :=
    m <- mismatch p c d l1 l2 first1 last1 first2 ;;
    let '(f1, f2) := m in
    if f1 =? last1 then Ok true
    else if c then
      is_permutation_impl_ra d c2 d2 l1 l2 f1 last1 f2 (f2 + (last1 - f1)) f1 (last1 - f1)
    else
      s <- is_permutation_impl_1 d c2 d2 l1 l2 f1 last1 f2 (f2 + (last1 - f1)) (f1, true) (last1 - f1) ;;
      Ok (snd s).

  (** is_permutation.hpp 147-174 (random access), 177-217 (forward), 224-228: two-range
      overload *)
  Definition is_permutation2 (c c2 : bool) (d d2 : nat) (l1 l2 : list A)
      (first1 last1 first2 last2 : nat) : res bool :=
    if c then
      if last1 - first1 =? last2 - first2 then
        m <- mismatch2 p c d l1 l2 first1 last1 first2 last2 ;;
        let '(f1, f2) := m in
        if f1 =? last1 then Ok true
        else is_permutation_impl_ra d c2 d2 l1 l2 f1 last1 f2 last2 f1 (last1 - f1)
      else Ok false
    else
      m <- mismatch2 p c d l1 l2 first1 last1 first2 last2 ;;
      let '(f1, f2) := m in
      if last1 - f1 =? last2 - f2 then
        s <- is_permutation_impl_1 d c2 d2 l1 l2 f1 last1 f2 last2 (f1, true) (last1 - f1) ;;
        Ok (snd s)
      else Ok false.
End Permutations.
