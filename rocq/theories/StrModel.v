(** Models of sprout/cstring/*.hpp.  Nothing is proved in this file.

    A character array is a list of character values, a pointer into it a position; a null
    pointer is [None].  Reading or writing outside the array is undefined.  std::size_t is a
    natural number: no count exceeds the length of an array.  [ct] is the character type, [d] (and
    [d2] for nested calls) the call depth, [k] the number of loop turns, as in the other models.
    The functions take the two strings from two arrays (which may be the same); those that write
    work on one array.  The overloads for other character types have the same text.
    sprout::ptr_index is a random access iterator, so the algorithms called on it take their
    random access versions ([c] = true). *)
From Coq Require Import List Arith ZArith Bool.
From Verif Require Import Base BitModel ShaModel SearchModel OrderModel MutModel.
Import ListNotations.
Open Scope Z_scope.

(** [!*p] *)
Definition nul (m : list Z) (p : nat) : res bool := x <- rd m p ;; Ok (x =? 0).

(** sprout/detail/str.hpp 15-21 *)
Definition str_find_check (m : list Z) (found : nat) : res (option nat) :=
  b <- nul m found ;; Ok (if b : bool then None else Some found).
(** sprout/detail/str.hpp 23-29 *)
Definition str_find_check_value (m : list Z) (found : nat) (value : Z) : res (option nat) :=
  x <- rd m found ;; Ok (if negb (x =? value) && (x =? 0) then None else Some found).

(** ** strlen.hpp *)

(** lines 23-64, 72-75; state: position, count *)
Definition strlen (d : nat) (m : list Z) (s : nat) : res nat :=
  r <- dbl (fun '((p, n) : nat * nat) => b <- nul m p ;; Ok (if b : bool then Some (p, n) else None))
           (fun '((p, n) : nat * nat) => Ok (S p, (n + 1)%nat)) d (s, 0%nat) 1 ;;
  Ok (snd r).
(** lines 76-82 *)
Definition strlen_n (d : nat) (m : list Z) (s n : nat) : res nat :=
  r <- find Z.eqb true d m s (s + n) 0 ;; Ok (r - s)%nat.

(** ** strchr.hpp *)

(** lines 21-62: detail::strchr; state: position, found *)
Definition strchr_detail (d : nat) (m : list Z) (s : nat) (value : Z) : res nat :=
  r <- dbl (fun '((p, f) : nat * bool) =>
              if f : bool then Ok (Some (p, f))
              else b <- nul m p ;; Ok (if b : bool then Some (p, f) else None))
           (fun '((p, f) : nat * bool) => x <- rd m p ;; Ok (if x =? value then (p, true) else (S p, false)))
           d (s, false) 1 ;;
  Ok (fst r).
(** lines 71-84 *)
Definition strchr (ct : ity) (d : nat) (m : list Z) (s : nat) (c : Z) : res (option nat) :=
  r <- strchr_detail d m s (conv ct c) ;; str_find_check_value m r (conv ct c).

(** ** strrchr.hpp *)

(** lines 20-27 *)
Definition strrchr_impl_check (m : list Z) (found : nat * nat) (value : Z) : res (option nat) :=
  x <- rd m (snd found) ;;
  Ok (if x =? value then Some (snd found) else if value =? 0 then Some (fst found) else None).
(** lines 28-74; state: position, last match *)
Definition strrchr_detail (d : nat) (m : list Z) (s : nat) (value : Z) : res (option nat) :=
  r <- dbl (fun '((p, q) : nat * nat) => b <- nul m p ;; Ok (if b : bool then Some (p, q) else None))
           (fun '((p, q) : nat * nat) => x <- rd m p ;; Ok (if x =? value then (S p, p) else (S p, q)))
           d (s, s) 1 ;;
  strrchr_impl_check m r value.
(** lines 82-89 *)
Definition strrchr (ct : ity) (d : nat) (m : list Z) (s : nat) (c : Z) : res (option nat) :=
  strrchr_detail d m s (conv ct c).

(** ** strcmp.hpp *)

(** lines 22-29 *)
Definition strcmp_impl_check (m1 m2 : list Z) (found : nat * nat * Z) : res Z :=
  let '(p1, p2, r) := found in
  b2 <- nul m2 p2 ;; b1 <- nul m1 p1 ;;
  Ok (if b2 : bool then if b1 : bool then 0 else 1 else if b1 : bool then -1 else r).
(** lines 30-76, 84-87; strcoll.hpp 23-26.  State: positions, result *)
Definition strcmp (d : nat) (m1 m2 : list Z) (s1 s2 : nat) : res Z :=
  r <- dbl (fun '((p1, p2, r) : nat * nat * Z) =>
              if negb (r =? 0) then Ok (Some (p1, p2, r))
              else
                b2 <- nul m2 p2 ;;
                if b2 : bool then Ok (Some (p1, p2, r))
                else b1 <- nul m1 p1 ;; Ok (if b1 : bool then Some (p1, p2, r) else None))
           (fun '((p1, p2, r) : nat * nat * Z) =>
              x <- rd m1 p1 ;; y <- rd m2 p2 ;;
              Ok (if x <? y then (p1, p2, -1) else if y <? x then (p1, p2, 1) else (S p1, S p2, 0)))
           d (s1, s2, 0) 1 ;;
  strcmp_impl_check m1 m2 r.
Definition strcoll := strcmp.

(** ** strncmp.hpp *)

(** sprout/algorithm/tristate_lexicographical_compare.hpp 120-147 with the delimiter 0 and < on
    characters: [!comp(x, 0) && !comp(0, x)] *)
Definition is_delim (x : Z) : bool := negb (x <? 0) && negb (0 <? x).
Fixpoint tristate_2_impl_ra (d : nat) (m1 m2 : list Z) (first1 first2 size : nat) (found : Z) : res Z :=
  match d with
  | O => Fuel
  | S d' =>
      if negb (found =? 2) then Ok found
      else if (size =? 1)%nat then
        y <- rd m2 first2 ;; x <- rd m1 first1 ;;
        Ok (if is_delim y then if is_delim x then 0 else 1
            else if is_delim x || (x <? y) then -1 else if y <? x then 1 else 2)
      else
        f <- tristate_2_impl_ra d' m1 m2 first1 first2 (size / 2)%nat 2 ;;
        tristate_2_impl_ra d' m1 m2 (first1 + size / 2)%nat (first2 + size / 2)%nat (size - size / 2)%nat f
  end.
(** the same file 24-33 and 148-168, strncmp.hpp 25-31: both ranges have length n *)
Definition strncmp (d : nat) (m1 m2 : list Z) (s1 s2 n : nat) : res Z :=
  found <- (if (n =? 0)%nat then Ok 2 else tristate_2_impl_ra d m1 m2 s1 s2 n 2) ;;
  Ok (if negb (found =? 2) then found else 0).

(** ** memcmp.hpp 20-27, 45-48 and memchr.hpp 31-50, 73-85: arrays of unsigned char *)
Definition memcmp (d : nat) (m1 m2 : list Z) (s1 s2 n : nat) : res Z :=
  tristate_lexicographical_compare Z.ltb Z.ltb true d m1 m2 s1 (s1 + n) s2 (s2 + n).
Definition memchr (d : nat) (m : list Z) (s : nat) (c : Z) (n : nat) : res (option nat) :=
  found <- find Z.eqb true d m s (s + n) (conv u8 c) ;;
  Ok (if (found =? s + n)%nat then None else Some found).

(** ** strspn.hpp, strcspn.hpp: lines 23-66, 74-77; state: position, count, stopped.
    [want]: continue while the character is in (strspn) or not in (strcspn) the second string *)
Definition span (want : bool) (d d2 : nat) (m1 m2 : list Z) (s1 s2 : nat) : res nat :=
  r <- dbl (fun '((p, n, f) : nat * nat * bool) =>
              if f : bool then Ok (Some (p, n, f))
              else b <- nul m1 p ;; Ok (if b : bool then Some (p, n, f) else None))
           (fun '((p, n, f) : nat * nat * bool) =>
              x <- rd m1 p ;; q <- strchr_detail d2 m2 s2 x ;; b <- nul m2 q ;;
              Ok (if Bool.eqb (negb b) want then (S p, (n + 1)%nat, false) else (p, n, true)))
           d (s1, 0%nat, false) 1 ;;
  let '(p, n, f) := r in Ok n.
Definition strspn := span true.
Definition strcspn := span false.

(** ** strpbrk.hpp: lines 22-67, 75-80; state: position, found.  The nested call is
    sprout::strchr, so it converts its argument. *)
Definition strpbrk (ct : ity) (d d2 : nat) (m1 m2 : list Z) (s1 s2 : nat) : res (option nat) :=
  r <- dbl (fun '((p, f) : nat * bool) =>
              if f : bool then Ok (Some (p, f))
              else b <- nul m1 p ;; Ok (if b : bool then Some (p, f) else None))
           (fun '((p, f) : nat * bool) =>
              x <- rd m1 p ;; q <- strchr ct d2 m2 s2 x ;;
              Ok (match q with Some _ => (p, true) | None => (S p, false) end))
           d (s1, false) 1 ;;
  str_find_check m1 (fst r).

(** ** strstr.hpp *)

(** lines 23-71: does the second string match at [first1]?  State: positions, finished; the
    stop branches rebuild the state *)
Definition strstr_one (d : nat) (m1 m2 : list Z) (first1 first2 : nat) : res nat :=
  r <- dbl (fun '((p1, p2, f) : nat * nat * bool) =>
              if f : bool then Ok (Some (p1, p2, f))
              else
                b2 <- nul m2 p2 ;;
                if b2 : bool then Ok (Some (first1, p2, true))
                else b1 <- nul m1 p1 ;; Ok (if b1 : bool then Some (p1, p2, true) else None))
           (fun '((p1, p2, f) : nat * nat * bool) =>
              x <- rd m1 p1 ;; y <- rd m2 p2 ;;
              Ok (if negb (x =? y) then (S p1, p2, true) else (S p1, S p2, false)))
           d (first1, first2, false) 1 ;;
  let '(p1, p2, f) := r in Ok p1.
(** lines 73-80 *)
Definition strstr_impl_fork (m1 : list Z) (current : nat * bool) (searched : nat) : res (nat * bool) :=
  b <- (if (searched =? fst current)%nat then Ok true else nul m1 searched) ;;
  Ok (if b : bool then (searched, true) else (S (fst current), false)).
(** lines 81-128 *)
Definition strstr_detail (d d2 : nat) (m1 m2 : list Z) (first1 first2 : nat) : res nat :=
  b <- nul m2 first2 ;;
  if b : bool then Ok first1
  else
    r <- dbl (fun '((p, f) : nat * bool) =>
                if f : bool then Ok (Some (p, f))
                else b <- nul m1 p ;; Ok (if b : bool then Some (p, f) else None))
             (fun '((p, f) : nat * bool) =>
                q <- strstr_one d2 m1 m2 p first2 ;; strstr_impl_fork m1 (p, f) q)
             d (first1, false) 1 ;;
    Ok (fst r).
(** lines 136-141 *)
Definition strstr (d d2 : nat) (m1 m2 : list Z) (s1 s2 : nat) : res (option nat) :=
  r <- strstr_detail d d2 m1 m2 s1 s2 ;; str_find_check m1 r.

(** ** The functions that write *)

(** [while (( *s1++ = *s2++));], strcpy.hpp 19-20, strcat.hpp 21-22 *)
Definition copy_str (k : nat) (m : list Z) (s1 s2 : nat) : res (list Z) :=
  iter k (fun '((m, s1, s2) : list Z * nat * nat) =>
    x <- rd m s2 ;; m <- wr m s1 x ;;
    Ok (if x =? 0 then inr m else inl (m, S s1, S s2))) (m, s1, s2).

(** strcpy.hpp 15-22 *)
Definition strcpy (k : nat) (m : list Z) (s1 s2 : nat) : res (list Z * nat) :=
  m <- copy_str k m s1 s2 ;; Ok (m, s1).

(** [while (n) { --n; if (!( *s1++ = *s2++)) break; }], strncpy.hpp 21-26, strncat.hpp 24-29:
    the memory, s1 and n afterwards *)
Definition copy_strn (k : nat) (m : list Z) (s1 s2 n : nat) : res (list Z * nat * nat) :=
  iter k (fun '((m, s1, s2, n) : list Z * nat * nat * nat) =>
    match n with
    | O => Ok (inr (m, s1, n))
    | S n =>
        x <- rd m s2 ;; m <- wr m s1 x ;;
        Ok (if x =? 0 then inr (m, S s1, n) else inl (m, S s1, S s2, n))
    end) (m, s1, s2, n).

(** strncpy.hpp 16-32 *)
Definition strncpy (k : nat) (m : list Z) (s1 s2 n : nat) : res (list Z * nat) :=
  r <- copy_strn k m s1 s2 n ;;
  let '(m, p, n) := r in
  m <- iter k (fun '((m, p, n) : list Z * nat * nat) =>
         match n with
         | O => Ok (inr m)
         | S n => m <- wr m p 0 ;; Ok (inl (m, S p, n))
         end) (m, p, n) ;;
  Ok (m, s1).

(** strcat.hpp 15-24: [while ( *s1++);] leaves s1 one past the terminator *)
Definition strcat (k : nat) (m : list Z) (s1 s2 : nat) : res (list Z * nat) :=
  p <- iter k (fun p : nat => x <- rd m p ;; Ok (if x =? 0 then inr (S p) else inl (S p))) s1 ;;
  m <- copy_str k m p s2 ;; Ok (m, s1).

(** strncat.hpp 16-32 *)
Definition strncat (k : nat) (m : list Z) (s1 s2 n : nat) : res (list Z * nat) :=
  p <- iter k (fun p : nat => x <- rd m p ;; Ok (if x =? 0 then inr p else inl (S p))) s1 ;;
  r <- copy_strn k m p s2 n ;;
  let '(m, p, n) := r in
  m <- wr m p 0 ;; Ok (m, s1).

(** memcpy.hpp 19-24 *)
Definition memcpy (k : nat) (m : list Z) (s1 s2 n : nat) : res (list Z * nat) :=
  r <- copy k m s2 (s2 + n) s1 ;; Ok (fst r, s1).
(** memmove.hpp 19-24 *)
Definition memmove (k : nat) (m : list Z) (s1 s2 n : nat) : res (list Z * nat) :=
  r <- copy_backward k m s2 (s2 + n) s1 ;; Ok (fst r, s1).
(** memset.hpp 19-24, 33-36 *)
Definition memset (k : nat) (m : list Z) (s : nat) (c : Z) (n : nat) : res (list Z * nat) :=
  m <- fill k m s (s + n) (conv u8 c) ;; Ok (m, s).
