(** Model of sprout::basic_string_view: sprout/utility/string_view/string_view.hpp, comparison.hpp
    and string_to_int.hpp.

    A view is the pair of its members ptr_ and len_ (string_view.hpp 79-81), the pointer being a
    position of an array [m] (the null pointer of the default constructor and the members that
    return iterators are left out).  The searches and comparisons are those of sprout/string/detail, modelled in
    BstrModel.v; [r], [d], [k] bound recursion depths and loop turns as there, [M - 1] is npos.
    [None] for a value is std::out_of_range. *)
From Coq Require Import List Arith ZArith Bool.
From Verif Require Import Base BitModel StrModel CharModel BstrModel.
Import ListNotations.
Open Scope Z_scope.

Definition sview : Type := (nat * nat)%type.
(** 104-106 *)
Definition view_of (str len : nat) : sview := (str, len).
(** 93-95 *)
Definition view_cstr (d : nat) (m : list Z) (str : nat) : res sview := n <- traits_length d m str ;; Ok (str, n).
(** 179-182 *)
Definition size (v : sview) : nat := snd v.
(** 195-198 *)
Definition empty (v : sview) : bool := (size v =? 0)%nat.
(** 200-203 *)
Definition view_nth (m : list Z) (v : sview) (i : nat) : res Z := rd m (fst v + i).
(** 204-209 *)
Definition view_at (m : list Z) (v : sview) (i : nat) : res (option Z) :=
  if (i <? size v)%nat then x <- rd m (fst v + i) ;; Ok (Some x) else Ok None.
(** 210-213 *)
Definition front (m : list Z) (v : sview) : res Z := rd m (fst v + 0).
(** 214-217: for an empty view the index wraps around and the access is out of bounds *)
Definition back (m : list Z) (v : sview) : res Z :=
  if (size v =? 0)%nat then UB else rd m (fst v + (size v - 1)).
(** 219-225 *)
Definition view_swap (v w : sview) : sview * sview := ((fst w, snd w), (fst v, snd v)).
(** 226-233: on an object *)
Definition remove_prefix_mut (v : sview) (n : nat) : sview :=
  let n := if (size v <? n)%nat then size v else n in (fst v + n, snd v - n)%nat.
(** 234-239: on a constant *)
Definition remove_prefix (v : sview) (n : nat) : sview :=
  if (size v <? n)%nat then view_of (fst v + size v) 0 else view_of (fst v + n) (size v - n).
(** 240-246 *)
Definition remove_suffix_mut (v : sview) (n : nat) : sview :=
  let n := if (size v <? n)%nat then size v else n in (fst v, snd v - n)%nat.
(** 247-252 *)
Definition remove_suffix (v : sview) (n : nat) : sview :=
  if (size v <? n)%nat then view_of (fst v) 0 else view_of (fst v) (size v - n).
(** 359-365 *)
Definition view_copy (k : nat) (m : list Z) (v : sview) (s n pos : nat) : res (list Z * option nat) :=
  copy_out k m (fst v) (size v) s n pos.
(** 366-373 *)
Fixpoint view_substr (r M : nat) (v : sview) (pos n : nat) : res (option sview) :=
  match r with
  | O => Fuel
  | S r' =>
      if negb (size v <? pos)%nat then
        if (n =? npos M)%nat then view_substr r' M v pos (size v - pos) else Ok (Some (view_of (fst v + pos) n))
      else Ok None
  end.

(** ** Searches: 263-358.  The text looked for is at [s] in [ms]. *)
Definition view_find_n (r d : nat) (m ms : list Z) (v : sview) (s pos n : nat) : res (option nat) :=
  find_impl r d m ms (fst v) (size v) s pos n.
Definition view_find (r d : nat) (m ms : list Z) (v w : sview) (pos : nat) : res (option nat) :=
  view_find_n r d m ms v (fst w) pos (size w).
Definition view_find_cstr (r d : nat) (m ms : list Z) (v : sview) (s pos : nat) : res (option nat) :=
  n <- traits_length d ms s ;; view_find_n r d m ms v s pos n.
Definition view_find_c (d : nat) (m : list Z) (v : sview) (c : Z) (pos : nat) : res (option nat) :=
  find_c_impl d m (fst v) (size v) c pos.
Definition view_rfind_n (r d : nat) (m ms : list Z) (v : sview) (s pos n : nat) : res (option nat) :=
  rfind_impl r d m ms (fst v) (size v) s pos n.
Definition view_rfind (r d : nat) (m ms : list Z) (v w : sview) (pos : nat) : res (option nat) :=
  view_rfind_n r d m ms v (fst w) pos (size w).
Definition view_rfind_cstr (r d : nat) (m ms : list Z) (v : sview) (s pos : nat) : res (option nat) :=
  n <- traits_length d ms s ;; view_rfind_n r d m ms v s pos n.
Definition view_rfind_c (r : nat) (m : list Z) (v : sview) (c : Z) (pos : nat) : res (option nat) :=
  rfind_c_impl r m (fst v) (size v) c pos.
Definition view_find_first_of (r d : nat) (m ms : list Z) (v w : sview) (pos : nat) : res (option nat) :=
  find_first_of_impl r d m ms (fst v) (size v) (fst w) pos (size w).
Definition view_find_first_of_c (d : nat) (m : list Z) (v : sview) (c : Z) (pos : nat) : res (option nat) :=
  view_find_c d m v c pos.
Definition view_find_last_of (r d : nat) (m ms : list Z) (v w : sview) (pos : nat) : res (option nat) :=
  find_last_of_impl r d m ms (fst v) (size v) (fst w) pos (size w).
Definition view_find_last_of_c (r : nat) (m : list Z) (v : sview) (c : Z) (pos : nat) : res (option nat) :=
  view_rfind_c r m v c pos.
Definition view_find_first_not_of (r d : nat) (m ms : list Z) (v w : sview) (pos : nat) : res (option nat) :=
  find_first_not_of_impl r d m ms (fst v) (size v) (fst w) pos (size w).
Definition view_find_first_not_of_c (r : nat) (m : list Z) (v : sview) (c : Z) (pos : nat) : res (option nat) :=
  find_first_not_of_c_impl r m (fst v) (size v) c pos.
Definition view_find_last_not_of (r d : nat) (m ms : list Z) (v w : sview) (pos : nat) : res (option nat) :=
  find_last_not_of_impl r d m ms (fst v) (size v) (fst w) pos (size w).
Definition view_find_last_not_of_c (r : nat) (m : list Z) (v : sview) (c : Z) (pos : nat) : res (option nat) :=
  find_last_not_of_c_impl r m (fst v) (size v) c pos.

(** ** Comparison *)
(** 397-402 *)
Definition view_compare_ptr (d : nat) (m m2 : list Z) (v : sview) (pos1 n1 s n2 : nat) : res (option Z) :=
  if negb (size v <? pos1)%nat then
    r <- compare_impl d m m2 (fst v) pos1 (Nat.min n1 (size v - pos1)) s n2 ;; Ok (Some r)
  else Ok None.
(** 374-377 *)
Definition view_compare (d : nat) (m m2 : list Z) (v w : sview) : res (option Z) :=
  view_compare_ptr d m m2 v 0 (size v) (fst w) (size w).
(** 378-381 *)
Definition view_compare_cstr (d : nat) (m m2 : list Z) (v : sview) (s : nat) : res (option Z) :=
  n <- traits_length d m2 s ;; view_compare_ptr d m m2 v 0 (size v) s n.
(** 390-396 *)
Definition view_compare_sub (d : nat) (m m2 : list Z) (v : sview) (pos1 n1 : nat) (w : sview) (pos2 n2 : nat) : res (option Z) :=
  if negb (size w <? pos2)%nat then
    view_compare_ptr d m m2 v pos1 n1 (fst w + pos2) (Nat.min n2 (size w - pos2))
  else Ok None.
(** 382-385 *)
Definition view_compare_part (d M : nat) (m m2 : list Z) (v : sview) (pos1 n1 : nat) (w : sview) : res (option Z) :=
  view_compare_sub d m m2 v pos1 n1 w 0 (npos M).
(** comparison.hpp 24-113: the operators between views, and those with a C string on the right
    (the ones with it on the left are written in terms of the same comparison) *)
Definition cmp_result (f : Z -> bool) (c : res (option Z)) : res (option bool) := r <- c ;; Ok (option_map f r).
Definition view_eq (d : nat) (m m2 : list Z) (v w : sview) := cmp_result (fun c => c =? 0) (view_compare d m m2 v w).
Definition view_ne (d : nat) (m m2 : list Z) (v w : sview) :=
  b <- view_eq d m m2 v w ;; Ok (option_map negb b).
Definition view_lt (d : nat) (m m2 : list Z) (v w : sview) := cmp_result (fun c => c <? 0) (view_compare d m m2 v w).
Definition view_gt (d : nat) (m m2 : list Z) (v w : sview) := view_lt d m2 m w v.
Definition view_le (d : nat) (m m2 : list Z) (v w : sview) := b <- view_lt d m2 m w v ;; Ok (option_map negb b).
Definition view_ge (d : nat) (m m2 : list Z) (v w : sview) := b <- view_lt d m m2 v w ;; Ok (option_map negb b).
(** 29-33, 34-38 *)
Definition view_eq_cstr (d : nat) (m m2 : list Z) (v : sview) (s : nat) :=
  cmp_result (fun c => c =? 0) (view_compare_cstr d m m2 v s).
(** 59-63: v < s *)
Definition view_lt_cstr (d : nat) (m m2 : list Z) (v : sview) (s : nat) :=
  cmp_result (fun c => c <? 0) (view_compare_cstr d m m2 v s).
(** 64-68: s < v, also 74-78: v > s *)
Definition view_gt_cstr (d : nat) (m m2 : list Z) (v : sview) (s : nat) :=
  cmp_result (fun c => 0 <? c) (view_compare_cstr d m m2 v s).
(** 89-93: v <= s *)
Definition view_le_cstr (d : nat) (m m2 : list Z) (v : sview) (s : nat) :=
  b <- view_gt_cstr d m m2 v s ;; Ok (option_map negb b).
(** 104-108: v >= s *)
Definition view_ge_cstr (d : nat) (m m2 : list Z) (v : sview) (s : nat) :=
  b <- view_lt_cstr d m m2 v s ;; Ok (option_map negb b).

(** ** Prefixes and suffixes *)
(** 404-407 *)
Definition starts_with_c (m : list Z) (v : sview) (c : Z) : res bool :=
  if negb (empty v) then x <- front m v ;; Ok (c =? x) else Ok false.
(** 408-411 *)
Definition starts_with (d : nat) (m m2 : list Z) (v w : sview) : res bool :=
  if (size w <=? size v)%nat then c <- traits_compare d m m2 (fst v) (fst w) (size w) ;; Ok (c =? 0) else Ok false.
(** 412-415 *)
Definition ends_with_c (m : list Z) (v : sview) (c : Z) : res bool :=
  if negb (empty v) then x <- back m v ;; Ok (c =? x) else Ok false.
(** 416-419 *)
Definition ends_with (d : nat) (m m2 : list Z) (v w : sview) : res bool :=
  if (size w <=? size v)%nat then
    c <- traits_compare d m m2 (fst v + size v - size w) (fst w) (size w) ;; Ok (c =? 0)
  else Ok false.

(** ** Conversions *)
(** 420-424: to a string of capacity N, by the constructor (pointer, length) *)
Definition to_string (d N : nat) (m : list Z) (v : sview) : res (option state) := string_cstr_n d N m (fst v) (size v).
(** string_to_int.hpp 45-54, 35-44 without an index: the characters from begin() on are handed to
    str_to_int, the length is not *)
Definition view_to_int (il : nat) (t : ity) (r : nat) (m : list Z) (v : sview) (base : Z) : res Z :=
  str_to_int il t r m (fst v) base.
