(** Model of sprout::basic_string<T, N, Traits>: sprout/string/string.hpp, char_traits.hpp,
    detail/compare.hpp, detail/find.hpp, comparison.hpp, concat.hpp, shift_concat.hpp, shrink.hpp.
    Nothing is proved in this file.

    Memory is a list of character values.  A string object is the N + 1 positions from [b] on
    (impl_.elems) together with its length (impl_.len), which is kept beside the memory; pointers
    are positions of the memory, so an argument may point into the string itself.  A character is
    the number by which Traits::lt orders it (for char: its value as unsigned char); value_type()
    is 0 and Traits::eq is equality.

    std::size_t has the values 0 .. M - 1 and npos is M - 1; [addz] and [subz] wrap around.  They
    are written where an operand comes from the caller; the other sums are sums of positions of
    existing arrays, which do not wrap.  A position returned by the find functions is [Some], npos
    is [None].  A throw ends the call: the state at that point and the exception are returned.

    [k] bounds loop turns, [d] the call depth of the algorithms called and [r] the depth of the
    recursive functions of detail/find.hpp.  The overloads for index iterators (900-1138) have the
    same text and are not modelled separately. *)
From Coq Require Import List Arith ZArith Bool.
From Verif Require Import Base SearchModel MutModel BsModel StrModel.
Import ListNotations.
Open Scope Z_scope.

Inductive exn := Length_error | Out_of_range_error.

Definition addz (M a b : nat) : nat := ((a + b) mod M)%nat.
Definition subz (M a b : nat) : nat := ((a + M - b) mod M)%nat.
Definition npos (M : nat) : nat := (M - 1)%nat.

(** a state of the memory and the length of the string, and how the call ended *)
Definition state : Type := list Z * nat.
Definition outcome : Type := state * option exn.
Definition ret (s : state) : res outcome := Ok (s, None).
Definition throw (s : state) (e : exn) : res outcome := Ok (s, Some e).

(** ** char_traits.hpp *)

(** 95-101: the two ranges end where the delimiter char_type() is met, as in strncmp *)
Definition traits_compare (d : nat) (m1 m2 : list Z) (s1 s2 n : nat) : res Z := strncmp d m1 m2 s1 s2 n.
(** 102-104 *)
Definition traits_length (d : nat) (m : list Z) (s : nat) : res nat := strlen d m s.
(** 116-119 *)
Definition traits_move (k : nat) (m : list Z) (s1 s2 n : nat) : res (list Z) :=
  r <- copy_backward k m s2 (s2 + n) (s1 + n) ;; Ok (fst r).
(** 120-123 *)
Definition traits_copy (k : nat) (m : list Z) (s1 s2 n : nat) : res (list Z) :=
  r <- copy k m s2 (s2 + n) s1 ;; Ok (fst r).
(** 124-127 *)
Definition traits_assign (k : nat) (m : list Z) (s n : nat) (a : Z) : res (list Z) := fill k m s (s + n) a.
(** 232-234 *)
Definition helper_length (d : nat) (m : list Z) (s n : nat) : res nat := strlen_n d m s n.
(** 235-242 *)
Definition helper_find (d : nat) (m : list Z) (s n : nat) (a : Z) : res nat :=
  find_if true d m s (s + n) (fun x => x =? a).

(** ** Construction: the new elems and len *)

(** string.hpp 138-149: elems of the unchecked constructor; [J] indexes, the rest of the N + 1
    elements are value-initialised.  [str] is the array read *)
Definition init_elems (N J : nat) (str : list Z) (pos n : nat) : res (list Z) :=
  l <- tab J (fun i => if (i <? n)%nat then rd str (i + pos) else Ok 0) ;;
  Ok (l ++ repeat 0 (N + 1 - J)).
Definition construct (N J : nat) (str : list Z) (pos n : nat) : res (option state) :=
  l <- init_elems N J str pos n ;; Ok (Some (l, n)).
(** 150-163, 164-178: the checked constructors; [None]: length_error *)
Definition checked_construct (N : nat) (str : list Z) (pos n : nat) : res (option state) :=
  l <- init_elems N N str pos n ;; Ok (if negb (N <? n)%nat then Some (l, n) else None).

(** 354: the default constructor (via 133-135) *)
Definition string_default (N : nat) : state := (repeat 0 (N + 1), 0%nat).
(** 356-362: from a shorter string type; [str], [len2]: its elems and length *)
Definition string_widen (N N2 : nat) (str : list Z) (len2 : nat) : res (option state) :=
  construct N N2 str 0 len2.
(** 363-368, 369-375 ([J] = N or N2) *)
Definition string_sub (M N J : nat) (str : list Z) (len2 pos n : nat) : res (option state) :=
  construct N J str pos (Nat.min n (subz M len2 pos)).
(** 376-382: from an array of N2 elements *)
Definition string_array (d N N2 : nat) (arr : list Z) : res (option state) :=
  n <- helper_length d arr 0 (N2 - 1) ;; construct N (N2 - 1) arr 0 n.
(** 383-389 *)
Definition string_array_n (d N N2 : nat) (arr : list Z) (n : nat) : res (option state) :=
  l <- helper_length d arr 0 (N2 - 1) ;; construct N (N2 - 1) arr 0 (Nat.min n l).
(** 390-395: from a C string at position [s] of [m] *)
Definition string_cstr (d N : nat) (m : list Z) (s : nat) : res (option state) :=
  n <- traits_length d m s ;; checked_construct N (skipn s m) 0 n.
(** 396-401 *)
Definition string_cstr_n (d N : nat) (m : list Z) (s n : nat) : res (option state) :=
  l <- traits_length d m s ;; checked_construct N (skipn s m) 0 (Nat.min n l).
(** 402-407: n copies of c; value_iterator yields c at every index *)
Definition string_fill (N n : nat) (c : Z) : res (option state) :=
  l <- tab N (fun i => Ok (if (i <? n)%nat then c else 0)) ;;
  Ok (if negb (N <? n)%nat then Some (l ++ repeat 0 (N + 1 - N), n) else None).
(** 415-422 with 73-80 and 164-178: random access iterators over the range [first, last) of [str];
    423-428: initializer list *)
Definition string_range_ra (N : nat) (str : list Z) (first last : nat) : res (option state) :=
  checked_construct N str first (last - first).
(** 81-107: the elements collected by make_constant_size_source_impl from an input range [xs]
    after [args] (most recent first), and the size *)
Fixpoint constant_size_source (N : nat) (xs args : list Z) : list Z * nat :=
  if (length args =? N)%nat then (rev args, (length args + match xs with [] => 0 | _ => 1 end)%nat)
  else match xs with
       | [] => (rev args, length args)
       | x :: t => constant_size_source N t (x :: args)
       end.
(** 415-422 with 99-107 and 179-193; the array of the source has N elements *)
Definition string_range_in (N : nat) (xs : list Z) : res (option state) :=
  let '(arr, size) := constant_size_source N xs [] in
  let arr := arr ++ repeat 0 (N - length arr) in
  l <- tab N (fun i => if (i <? size)%nat then rd arr i else Ok 0) ;;
  Ok (if negb (N <? size)%nat then Some (l ++ repeat 0 (N + 1 - N), size) else None).

(** ** The private helpers *)

(** string.hpp 297-303 *)
Definition put_terminator (k : nat) (m : list Z) (b len n : nat) : res state :=
  m <- (if (n <? len)%nat then traits_assign k m (b + n) (len - n) 0 else Ok m) ;; Ok (m, n).

(** the loop of 306-313 and 330-337: write the input range [xs] from [it] on; [true] if it ended *)
Fixpoint write_input (N : nat) (m : list Z) (b it : nat) (xs : list Z) : res (list Z * nat * bool) :=
  match xs with
  | [] => Ok (m, it, true)
  | x :: t =>
      if (N <? it - b)%nat then Ok (m, it, false)
      else m <- wr m it x ;; write_input N m b (S it) t
  end.
(** 304-316 *)
Definition assign_input (k N : nat) (m : list Z) (b len : nat) (xs : list Z) : res outcome :=
  r <- write_input N m b b xs ;;
  let '(m, it, fin) := r in
  if fin : bool then s <- put_terminator k m b len (it - b) ;; ret s
  else throw (m, len) Length_error.
(** 328-340 *)
Definition append_input (k N : nat) (m : list Z) (b len : nat) (xs : list Z) : res outcome :=
  r <- write_input N m b (b + len) xs ;;
  let '(m, it, fin) := r in
  if fin : bool then s <- put_terminator k m b len (len + (it - (b + len))) ;; ret s
  else throw (m, len) Length_error.

(** the loop of 320-323 and 344-347: copy the positions [first, last) to [it] *)
Definition write_forward (k : nat) (m : list Z) (it first last : nat) : res (list Z * nat) :=
  iter k (fun '((m, first, it) : list Z * nat * nat) =>
    if (first =? last)%nat then Ok (inr (m, it))
    else x <- rd m first ;; m <- wr m it x ;; Ok (inl (m, S first, S it))) (m, first, it).
(** 317-327 *)
Definition assign_forward (k N : nat) (m : list Z) (b len first last : nat) : res outcome :=
  if (N <? last - first)%nat then throw (m, len) Length_error
  else
    r <- write_forward k m b first last ;;
    s <- put_terminator k (fst r) b len (snd r - b) ;; ret s.
(** 341-351 *)
Definition append_forward (k N : nat) (m : list Z) (b len first last : nat) : res outcome :=
  if (N <? len + (last - first))%nat then throw (m, len) Length_error
  else
    r <- write_forward k m (b + len) first last ;;
    s <- put_terminator k (fst r) b len (len + (snd r - (b + len))) ;; ret s.

(** ** Modifiers *)

(** 620-626 *)
Definition append_n (k M N : nat) (m : list Z) (b len s n : nat) : res outcome :=
  if (N <? addz M len n)%nat then throw (m, len) Length_error
  else
    m <- traits_move k m (b + len) s n ;;
    st <- put_terminator k m b len (addz M len n) ;; ret st.
(** 627-630 *)
Definition append_cstr (k d M N : nat) (m : list Z) (b len s : nat) : res outcome :=
  n <- traits_length d m s ;; append_n k M N m b len s n.
(** 605-609: a string at [b2] of length [len2] *)
Definition append_string (k M N : nat) (m : list Z) (b len b2 len2 : nat) : res outcome :=
  append_n k M N m b len b2 len2.
(** 893-897: does rangecheck throw? *)
Definition rangecheck (len i : nat) : bool := (len <=? i)%nat.
(** 613-616, 660-663: the length taken from position [pos] of a string *)
Definition rlen (M len2 pos n : nat) : nat :=
  if negb (n =? npos M)%nat then Nat.min n (subz M len2 pos) else subz M len2 pos.
(** 610-619 *)
Definition append_sub (k M N : nat) (m : list Z) (b len b2 len2 pos n : nat) : res outcome :=
  if rangecheck len2 pos then throw (m, len) Out_of_range_error
  else append_n k M N m b len (b2 + pos) (rlen M len2 pos n).
(** 631-637 *)
Definition append_fill (k M N : nat) (m : list Z) (b len n : nat) (c : Z) : res outcome :=
  if (N <? addz M len n)%nat then throw (m, len) Length_error
  else
    m <- traits_assign k m (b + len) n c ;;
    st <- put_terminator k m b len (addz M len n) ;; ret st.
(** 648-651 *)
Definition push_back (k M N : nat) (m : list Z) (b len : nat) (c : Z) : res outcome :=
  append_fill k M N m b len 1 c.
(** 667-673 *)
Definition assign_n (k N : nat) (m : list Z) (b len s n : nat) : res outcome :=
  if (N <? n)%nat then throw (m, len) Length_error
  else m <- traits_move k m b s n ;; st <- put_terminator k m b len n ;; ret st.
(** 674-677 *)
Definition assign_cstr (k d N : nat) (m : list Z) (b len s : nat) : res outcome :=
  n <- traits_length d m s ;; assign_n k N m b len s n.
(** 657-666 *)
Definition assign_sub (k M N : nat) (m : list Z) (b len b2 len2 pos n : nat) : res outcome :=
  if rangecheck len2 pos then throw (m, len) Out_of_range_error
  else assign_n k N m b len (b2 + pos) (rlen M len2 pos n).
(** 652-656, operator= 430-438 *)
Definition assign_string (k M N : nat) (m : list Z) (b len b2 len2 : nat) : res outcome :=
  assign_sub k M N m b len b2 len2 0 (npos M).
(** 678-684: maxcheck throws out_of_range *)
Definition assign_fill (k N : nat) (m : list Z) (b len n : nat) (c : Z) : res outcome :=
  if (N <? n)%nat then throw (m, len) Out_of_range_error
  else m <- traits_assign k m b n c ;; st <- put_terminator k m b len n ;; ret st.
(** 543-550 *)
Definition resize (k N : nat) (m : list Z) (b len n : nat) (c : Z) : res outcome :=
  if (N <? n)%nat then throw (m, len) Length_error
  else
    m <- (if (len <? n)%nat then traits_assign k m (b + len) (n - len) c else Ok m) ;;
    st <- put_terminator k m b len n ;; ret st.
(** 559-562 *)
Definition clear (k : nat) (m : list Z) (b len : nat) : res state := put_terminator k m b len 0.
(** 695-698 *)
Definition pop_back (k M : nat) (m : list Z) (b len : nat) : res state := put_terminator k m b len (subz M len 1).
(** 700-706: the two strings are at [b] and [b2]; the memory and the two lengths *)
Definition swap_strings (k N : nat) (m : list Z) (b len b2 len2 : nat) : res (list Z * nat * nat) :=
  r <- swap_ranges k m b2 (b2 + N) b ;; Ok (fst r, len2, len).
(** operator>>= 1147-1154: insert a character in front *)
Definition prepend_char (k M N : nat) (m : list Z) (b len : nat) (c : Z) : res outcome :=
  if (N <? addz M len 1)%nat then throw (m, len) Length_error
  else
    m <- traits_move k m (b + 1) b len ;; m <- traits_assign k m b 1 c ;;
    st <- put_terminator k m b len (addz M len 1) ;; ret st.
(** 1155-1181: insert [n] characters at [s] in front *)
Definition prepend_n (k M N : nat) (m : list Z) (b len s n : nat) : res outcome :=
  if (N <? addz M len n)%nat then throw (m, len) Length_error
  else
    m <- traits_move k m (b + n) b len ;; m <- traits_move k m b s n ;;
    st <- put_terminator k m b len (addz M len n) ;; ret st.

(** ** Observers *)

(** 576-586: at; [None]: out_of_range *)
Definition at_ (m : list Z) (b len i : nat) : res (option Z) :=
  if (i <? len)%nat then x <- rd m (b + i) ;; Ok (Some x) else Ok None.
(** 728-734: copy to position [s]; [None]: out_of_range *)
Definition copy_out (k : nat) (m : list Z) (b len s n pos : nat) : res (list Z * option nat) :=
  if rangecheck len pos then Ok (m, None)
  else
    let llen := Nat.min n (len - pos) in
    m <- traits_copy k m s (b + pos) llen ;; Ok (m, Some llen).
(** 845-850, 266-268: the result is a new string; [inl tt]: out_of_range, [inr None]: length_error *)
Definition substr (d N : nat) (m : list Z) (b len pos n : nat) : res (unit + option state) :=
  if negb (len <? pos)%nat then
    s <- string_cstr_n d N m (b + pos) (Nat.min n (len - pos)) ;; Ok (inr s)
  else Ok (inl tt).

(** detail/compare.hpp 16-27 *)
Definition compare_impl_1 (compared : Z) (n1 n2 : nat) : Z :=
  if negb (compared =? 0) then compared
  else if (n1 <? n2)%nat then -1 else if (n2 <? n1)%nat then 1 else 0.
(** detail/compare.hpp 28-39 *)
Definition compare_impl (d : nat) (m1 m2 : list Z) (data pos1 n1 s n2 : nat) : res Z :=
  c <- traits_compare d m1 m2 (data + pos1) s (Nat.min n1 n2) ;; Ok (compare_impl_1 c n1 n2).
(** string.hpp 878-883; [None]: out_of_range *)
Definition compare_ptr (d : nat) (m m2 : list Z) (b len pos1 n1 s n2 : nat) : res (option Z) :=
  if negb (len <? pos1)%nat then
    r <- compare_impl d m m2 b pos1 (Nat.min n1 (len - pos1)) s n2 ;; Ok (Some r)
  else Ok None.
(** 870-877 *)
Definition compare_sub (d : nat) (m m2 : list Z) (b len pos1 n1 b2 len2 pos2 n2 : nat) : res (option Z) :=
  if negb (len2 <? pos2)%nat then compare_ptr d m m2 b len pos1 n1 (b2 + pos2) (Nat.min n2 (len2 - pos2))
  else Ok None.
(** 851-855 *)
Definition compare_string (d : nat) (m m2 : list Z) (b len b2 len2 : nat) : res (option Z) :=
  compare_ptr d m m2 b len 0 len b2 len2.
(** 856-859 *)
Definition compare_cstr (d : nat) (m m2 : list Z) (b len s : nat) : res (option Z) :=
  n <- traits_length d m2 s ;; compare_ptr d m m2 b len 0 len s n.
(** comparison.hpp 24-28: operator== *)
Definition string_eq (d : nat) (m m2 : list Z) (b len b2 len2 : nat) : res (option bool) :=
  r <- compare_string d m m2 b len b2 len2 ;; Ok (option_map (fun x => x =? 0) r).
(** comparison.hpp 54-58: operator< *)
Definition string_lt (d : nat) (m m2 : list Z) (b len b2 len2 : nat) : res (option bool) :=
  r <- compare_string d m m2 b len b2 len2 ;; Ok (option_map (fun x => x <? 0) r).

(** ** detail/find.hpp: the string searched is in [m] from [data] on, the characters looked for in
    [ms] from [s] on *)

(** 17-30 *)
Fixpoint find_impl_1 (r d : nat) (m ms : list Z) (data len s pos n : nat) : res (option nat) :=
  match r with
  | O => Fuel
  | S r' =>
      if (pos <=? len - n)%nat then
        x <- rd m (data + pos) ;; y <- rd ms s ;;
        e <- (if x =? y then c <- traits_compare d m ms (data + (pos + 1)) (s + 1) (n - 1) ;; Ok (c =? 0) else Ok false) ;;
        if e : bool then Ok (Some pos) else find_impl_1 r' d m ms data len s (pos + 1) n
      else Ok None
  end.
(** 31-42 *)
Definition find_impl (r d : nat) (m ms : list Z) (data len s pos n : nat) : res (option nat) :=
  if (n =? 0)%nat then Ok (if (pos <=? len)%nat then Some pos else None)
  else if (n <=? len)%nat then find_impl_1 r d m ms data len s pos n
  else Ok None.
(** 43-66 *)
Definition find_c_impl (d : nat) (m : list Z) (data len : nat) (c : Z) (pos : nat) : res (option nat) :=
  if (pos <? len)%nat then
    p <- helper_find d m (data + pos) (len - pos) c ;;
    Ok (if negb (p =? data + len)%nat then Some (p - data)%nat else None)
  else Ok None.
(** 67-78 *)
Fixpoint rfind_impl_1 (r d : nat) (m ms : list Z) (data s pos n : nat) : res (option nat) :=
  match r with
  | O => Fuel
  | S r' =>
      c <- traits_compare d m ms (data + pos) s n ;;
      if c =? 0 then Ok (Some pos)
      else if (0 <? pos)%nat then rfind_impl_1 r' d m ms data s (pos - 1) n
      else Ok None
  end.
(** 79-91 *)
Definition rfind_impl (r d : nat) (m ms : list Z) (data len s pos n : nat) : res (option nat) :=
  if (n <=? len)%nat then rfind_impl_1 r d m ms data s (Nat.min (len - n) pos) n else Ok None.
(** 92-104 *)
Fixpoint rfind_c_impl_1 (r : nat) (m : list Z) (data len : nat) (c : Z) : res (option nat) :=
  match r with
  | O => Fuel
  | S r' =>
      if (0 <? len)%nat then
        x <- rd m (data + (len - 1)) ;;
        if x =? c then Ok (Some (len - 1)%nat) else rfind_c_impl_1 r' m data (len - 1) c
      else Ok None
  end.
(** 106-116 *)
Definition rfind_c_impl (r : nat) (m : list Z) (data len : nat) (c : Z) (pos : nat) : res (option nat) :=
  if negb (len =? 0)%nat then rfind_c_impl_1 r m data (if (pos <? len - 1)%nat then (pos + 1)%nat else len) c
  else Ok None.
(** the test of 125-127, 140-142, 166-168, 194-196: is [x] among the [n] characters at [s]? *)
Definition among (d : nat) (ms : list Z) (s n : nat) (x : Z) : res bool :=
  p <- helper_find d ms s n x ;; Ok (negb (p =? s + n)%nat).
(** 117-132 *)
Fixpoint find_first_of_impl (r d : nat) (m ms : list Z) (data len s pos n : nat) : res (option nat) :=
  match r with
  | O => Fuel
  | S r' =>
      if negb (n =? 0)%nat && (pos <? len)%nat then
        x <- rd m (data + pos) ;; f <- among d ms s n x ;;
        if f : bool then Ok (Some pos) else find_first_of_impl r' d m ms data len s (pos + 1) n
      else Ok None
  end.
(** 133-146 (the parameter pos is passed on and not used) *)
Fixpoint find_last_of_impl_1 (r d : nat) (m ms : list Z) (data len s n : nat) : res (option nat) :=
  match r with
  | O => Fuel
  | S r' =>
      x <- rd m (data + len) ;; f <- among d ms s n x ;;
      if f : bool then Ok (Some len)
      else if negb (len =? 0)%nat then find_last_of_impl_1 r' d m ms data (len - 1) s n
      else Ok None
  end.
(** 147-157 *)
Definition find_last_of_impl (r d : nat) (m ms : list Z) (data len s pos n : nat) : res (option nat) :=
  if negb (len =? 0)%nat && negb (n =? 0)%nat then
    find_last_of_impl_1 r d m ms data (if (pos <? len - 1)%nat then pos else (len - 1)%nat) s n
  else Ok None.
(** 158-173 *)
Fixpoint find_first_not_of_impl (r d : nat) (m ms : list Z) (data len s pos n : nat) : res (option nat) :=
  match r with
  | O => Fuel
  | S r' =>
      if (pos <? len)%nat then
        x <- rd m (data + pos) ;; f <- among d ms s n x ;;
        if negb f then Ok (Some pos) else find_first_not_of_impl r' d m ms data len s (pos + 1) n
      else Ok None
  end.
(** 174-186 *)
Fixpoint find_first_not_of_c_impl (r : nat) (m : list Z) (data len : nat) (c : Z) (pos : nat) : res (option nat) :=
  match r with
  | O => Fuel
  | S r' =>
      if (pos <? len)%nat then
        x <- rd m (data + pos) ;;
        if negb (x =? c) then Ok (Some pos) else find_first_not_of_c_impl r' m data len c (pos + 1)
      else Ok None
  end.
(** 187-200 *)
Fixpoint find_last_not_of_impl_1 (r d : nat) (m ms : list Z) (data len s n : nat) : res (option nat) :=
  match r with
  | O => Fuel
  | S r' =>
      x <- rd m (data + len) ;; f <- among d ms s n x ;;
      if negb f then Ok (Some len)
      else if negb (len =? 0)%nat then find_last_not_of_impl_1 r' d m ms data (len - 1) s n
      else Ok None
  end.
(** 201-211 *)
Definition find_last_not_of_impl (r d : nat) (m ms : list Z) (data len s pos n : nat) : res (option nat) :=
  if negb (len =? 0)%nat then
    find_last_not_of_impl_1 r d m ms data (if (pos <? len - 1)%nat then pos else (len - 1)%nat) s n
  else Ok None.
(** 212-223 *)
Fixpoint find_last_not_of_c_impl_1 (r : nat) (m : list Z) (data len : nat) (c : Z) : res (option nat) :=
  match r with
  | O => Fuel
  | S r' =>
      x <- rd m (data + len) ;;
      if negb (x =? c) then Ok (Some len)
      else if negb (len =? 0)%nat then find_last_not_of_c_impl_1 r' m data (len - 1) c
      else Ok None
  end.
(** 224-234 *)
Definition find_last_not_of_c_impl (r : nat) (m : list Z) (data len : nat) (c : Z) (pos : nat) : res (option nat) :=
  if negb (len =? 0)%nat then
    find_last_not_of_c_impl_1 r m data (if (pos <? len - 1)%nat then pos else (len - 1)%nat) c
  else Ok None.

(** ** concat.hpp, shift_concat.hpp, shrink.hpp: new strings from the elems [l1], [l2] of others *)

(** the argument of raw_construct for the index i: concat.hpp 54-105, and with a one-element array
    for the character 20-53; shift_concat.hpp 29-97, 138-206 *)
Definition concat_elem (l1 : list Z) (n1 : nat) (l2 : list Z) (n2 i : nat) : res Z :=
  if (i <? n1)%nat then rd l1 i else if (i <? n1 + n2)%nat then rd l2 (i - n1) else Ok 0.
(** string.hpp 194-206 with [J] arguments for a string of capacity N *)
Definition raw_construct (N J n : nat) (arg : nat -> res Z) : res state :=
  l <- tab J (fun i => x <- arg i ;; Ok (if (i <? n)%nat then x else 0)) ;;
  Ok (l ++ repeat 0 (N + 1 - J), n).
(** operator+, concat.hpp 110-156, between strings of capacities N1 and N2 *)
Definition concat (N1 N2 : nat) (l1 : list Z) (n1 : nat) (l2 : list Z) (n2 : nat) : res state :=
  raw_construct (N1 + N2) (N1 + N2) (n1 + n2) (concat_elem l1 n1 l2 n2).
(** operator<< and operator>>, shift_concat.hpp 19-245: the result has capacity N;
    checked_length throws length_error ([None]) *)
Definition shift_concat (N : nat) (l1 : list Z) (n1 : nat) (l2 : list Z) (n2 : nat) : res (option state) :=
  if (n1 + n2 <=? N)%nat then s <- raw_construct N N (n1 + n2) (concat_elem l1 n1 l2 n2) ;; Ok (Some s)
  else Ok None.
(** shrink.hpp 31-41, 50-57: a string of capacity N to capacity min(N, N2); [str[i]] is read up to N - 1 *)
Definition shrink_impl (N N2 : nat) (l : list Z) (len : nat) : res state :=
  raw_construct (Nat.min N N2) (Nat.min N N2) (Nat.min N2 len) (fun i => if (i <? N)%nat then rd l i else Ok 0).
(** shrink.hpp 69-73: then the conversion to capacity N2 (string.hpp 356-362 if N < N2) *)
Definition shrink (N N2 : nat) (l : list Z) (len : nat) : res (option state) :=
  s <- shrink_impl N N2 l len ;;
  if (N <? N2)%nat then string_widen N2 N (fst s) (snd s) else Ok (Some s).
