(** The properties C101 to C110 of properties.jsonl: sprout::basic_string. *)
From Coq Require Import List Arith ZArith Lia.
From Verif Require Import Base SearchSpec MutSpec StrSpec BstrModel BstrSpec BstrProof BstrProof2 BstrProof3.
Import ListNotations.
Open Scope Z_scope.

(** ** C101: construction *)
Theorem string_default_empty : forall N, Ok (Some (string_default N)) = built N [].
Proof. exact @string_default_lemma. Qed.
Print Assumptions string_default_empty.
Theorem string_widened : forall N N2 str len2 cs, holds str 0 N2 len2 cs -> (N2 < N)%nat ->
  string_widen N N2 str len2 = built N cs.
Proof. exact @string_widen_lemma. Qed.
Print Assumptions string_widened.
Theorem string_from_literal : forall d N N2 arr, length arr = N2 -> (1 <= N2)%nat -> (N2 - 1 <= N)%nat ->
  (depth_bound (N2 - 1) <= d)%nat ->
  string_array d N N2 arr = built N (upto_nul (firstn (N2 - 1) arr)) /\
  forall n, string_array_n d N N2 arr n = built N (firstn n (upto_nul (firstn (N2 - 1) arr))).
Proof. exact @string_array_lemma. Qed.
Print Assumptions string_from_literal.
Theorem string_from_pointer : forall d N m s xs, cstr m s xs -> (depth_bound (length xs) <= d)%nat ->
  string_cstr d N m s = built N xs /\ forall n, string_cstr_n d N m s n = built N (firstn n xs).
Proof. exact @string_cstr_lemma. Qed.
Print Assumptions string_from_pointer.
Theorem string_filled : forall N n c, string_fill N n c = built N (repeat c n).
Proof. exact @string_fill_lemma. Qed.
Print Assumptions string_filled.
Theorem string_from_range_ra : forall N str first xs, block str first xs ->
  string_range_ra N str first (first + length xs) = built N xs.
Proof. exact @string_range_ra_lemma. Qed.
Print Assumptions string_from_range_ra.
Theorem string_from_range_in : forall N xs, string_range_in N xs = built N xs.
Proof. exact @string_range_in_lemma. Qed.
Print Assumptions string_from_range_in.
Theorem string_from_substring_partial : forall M N J str len2 cs pos n, holds str 0 J len2 cs -> (J <= N)%nat -> (J < M)%nat ->
  (pos <= len2)%nat -> string_sub M N J str len2 pos n = built N (sub cs pos n).
Proof. exact @string_sub_lemma. Qed.
Print Assumptions string_from_substring_partial.
(** the position 1 of an empty string: no out_of_range, but a string with size() = npos *)
Theorem string_from_substring_refuted : forall M N str, holds str 0 N 0 [] -> (N + 1 < M)%nat ->
  string_sub M N N str 0 1 (npos M) = Ok (Some (image N [], npos M)).
Proof. exact @string_sub_bad_lemma. Qed.
Print Assumptions string_from_substring_refuted.
Example string_construct_ex : image 4 [97; 98] = [97; 98; 0; 0; 0] /\ holds [97; 98; 0] 0 2 2 [97; 98] /\ cstr [9; 97; 98; 0; 5] 1 [97; 98] /\
  string_widen 4 2 [97; 98; 0] 2 = Ok (Some ([97; 98; 0; 0; 0], 2%nat)) /\
  string_array 4 3 4 [97; 0; 98; 0] = Ok (Some ([97; 0; 0; 0], 1%nat)) /\
  string_cstr 4 2 [9; 97; 98; 0; 5] 1 = Ok (Some ([97; 98; 0], 2%nat)) /\ string_cstr 4 1 [9; 97; 98; 0; 5] 1 = Ok None /\
  string_cstr_n 4 1 [9; 97; 98; 0; 5] 1 1 = Ok (Some ([97; 0], 1%nat)) /\
  string_fill 2 3 97 = Ok None /\ string_range_in 2 [97; 98; 99] = Ok None /\ string_range_in 3 [97; 98; 99] = Ok (Some ([97; 98; 99; 0], 3%nat)) /\
  string_sub 256 2 2 [97; 98; 0] 2 1 255 = Ok (Some ([98; 0; 0], 1%nat)).
Proof.
  repeat split; try (cbn; lia); try (intros i x; do 5 (destruct i as [|i]; [cbn; congruence|]); cbn; destruct i; discriminate).
Qed.

(** ** C102: append, operator+=, push_back *)
Theorem append_pointer : forall k m b N len cs, holds m b N len cs -> (N < k)%nat ->
  forall M s xs, block m s xs -> (s + length xs <= length m)%nat ->
  apart b N s (length xs) \/ inside b len s (length xs) -> (len + length xs < M)%nat ->
  append_n k M N m b len s (length xs) = becomes m b N len (cs ++ xs).
Proof. exact @append_n_lemma. Qed.
Print Assumptions append_pointer.
Theorem append_c_string : forall k m b N len cs, holds m b N len cs -> (N < k)%nat ->
  forall d M s xs, cstr m s xs -> apart b N s (length xs) \/ inside b len s (length xs) -> (len + length xs < M)%nat ->
  (depth_bound (length xs) <= d)%nat ->
  append_cstr k d M N m b len s = becomes m b N len (cs ++ xs).
Proof. exact @append_cstr_lemma. Qed.
Print Assumptions append_c_string.
Theorem append_other_string : forall k m b N len cs, holds m b N len cs -> (N < k)%nat ->
  forall M b2 N2 len2 cs2, holds m b2 N2 len2 cs2 -> (b2 + N2 + 1 <= b \/ b + N + 1 <= b2)%nat \/ b2 = b /\ len2 = len ->
  (len + len2 < M)%nat -> append_string k M N m b len b2 len2 = becomes m b N len (cs ++ cs2).
Proof. exact @append_string_lemma. Qed.
Print Assumptions append_other_string.
Theorem append_substring_partial : forall k m b N len cs, holds m b N len cs -> (N < k)%nat ->
  forall M b2 N2 len2 cs2 pos n, holds m b2 N2 len2 cs2 -> (b2 + N2 + 1 <= b \/ b + N + 1 <= b2)%nat \/ b2 = b /\ len2 = len ->
  (len + len2 < M)%nat -> (n < M)%nat -> (pos < len2)%nat ->
  append_sub k M N m b len b2 len2 pos n = becomes m b N len (cs ++ sub cs2 pos n).
Proof. exact @append_sub_lemma. Qed.
Print Assumptions append_substring_partial.
(** pos = str.size() is a valid position, but out_of_range is thrown *)
Theorem append_substring_refuted : forall k m b N len M b2 len2 n,
  append_sub k M N m b len b2 len2 len2 n = Ok (m, len, Some Out_of_range_error).
Proof. exact @append_sub_end_lemma. Qed.
Print Assumptions append_substring_refuted.
Theorem append_fill_partial : forall k m b N len cs, holds m b N len cs -> (N < k)%nat ->
  forall M n c, (len + n < M)%nat -> append_fill k M N m b len n c = becomes m b N len (cs ++ repeat c n).
Proof. exact @append_fill_lemma. Qed.
Print Assumptions append_fill_partial.
(** a count that makes size() + n wrap around passes the check *)
Theorem append_fill_refuted : forall k M m b N len cs c, holds m b N len cs -> (0 < len)%nat -> (N < M)%nat ->
  (length m < b + M)%nat -> (length m < k)%nat -> append_fill k M N m b len (M - len) c = UB.
Proof. exact @append_fill_wrap_lemma. Qed.
Print Assumptions append_fill_refuted.
Theorem append_random_access_range : forall k m b N len cs, holds m b N len cs -> (N < k)%nat ->
  forall s xs, block m s xs -> (s + length xs <= length m)%nat -> apart b N s (length xs) \/ inside b len s (length xs) ->
  append_forward k N m b len s (s + length xs) = becomes m b N len (cs ++ xs).
Proof. exact @append_forward_lemma. Qed.
Print Assumptions append_random_access_range.
Theorem push_back_appends : forall k m b N len cs, holds m b N len cs -> (N < k)%nat ->
  forall M c, (N + 1 < M)%nat -> push_back k M N m b len c = becomes m b N len (cs ++ [c]).
Proof. exact @push_back_lemma. Qed.
Print Assumptions push_back_appends.
Example append_ex : holds [97; 98; 0; 0; 0; 120; 121; 0] 0 4 2 [97; 98] /\ holds [97; 98; 0; 0; 0; 120; 121; 0] 5 2 2 [120; 121] /\
  append_string 9 256 4 [97; 98; 0; 0; 0; 120; 121; 0] 0 2 5 2 = Ok ([97; 98; 120; 121; 0; 120; 121; 0], 4%nat, None) /\
  append_string 9 256 4 [97; 98; 0; 0; 0; 120; 121; 0] 0 2 0 2 = Ok ([97; 98; 97; 98; 0; 120; 121; 0], 4%nat, None) /\
  append_fill 9 256 4 [97; 98; 0; 0; 0; 120; 121; 0] 0 2 3 65 = Ok ([97; 98; 0; 0; 0; 120; 121; 0], 2%nat, Some Length_error) /\
  append_fill 9 256 4 [97; 98; 0; 0; 0; 120; 121; 0] 0 2 254 65 = UB /\
  push_back 9 256 4 [97; 98; 0; 0; 0; 120; 121; 0] 0 2 65 = Ok ([97; 98; 65; 0; 0; 120; 121; 0], 3%nat, None).
Proof.
  repeat split; try (cbn; lia); intros i x; do 5 (destruct i as [|i]; [cbn; congruence|]); cbn; destruct i; discriminate.
Qed.

(** ** C103: assign, operator= *)
Theorem assign_pointer_partial : forall k m b N len cs, holds m b N len cs -> (N < k)%nat ->
  forall s xs, block m s xs -> (s + length xs <= length m)%nat -> apart b N s (length xs) \/ s = b \/ (b + length xs <= s)%nat ->
  assign_n k N m b len s (length xs) = becomes m b N len xs.
Proof. exact @assign_n_lemma. Qed.
Print Assumptions assign_pointer_partial.
Theorem assign_c_string_partial : forall k m b N len cs, holds m b N len cs -> (N < k)%nat ->
  forall d s xs, cstr m s xs -> apart b N s (length xs) \/ s = b \/ (b + length xs <= s)%nat -> (depth_bound (length xs) <= d)%nat ->
  assign_cstr k d N m b len s = becomes m b N len xs.
Proof. exact @assign_cstr_lemma. Qed.
Print Assumptions assign_c_string_partial.
Theorem assign_substring_partial : forall k m b N len cs, holds m b N len cs -> (N < k)%nat ->
  forall M b2 N2 len2 cs2 pos n, holds m b2 N2 len2 cs2 -> (b2 + N2 + 1 <= b \/ b + N + 1 <= b2)%nat \/ b2 = b /\ pos = 0%nat ->
  (len2 < M)%nat -> (n < M)%nat -> (pos < len2)%nat ->
  assign_sub k M N m b len b2 len2 pos n = becomes m b N len (sub cs2 pos n).
Proof. exact @assign_sub_lemma. Qed.
Print Assumptions assign_substring_partial.
Theorem assign_string_partial : forall k m b N len cs, holds m b N len cs -> (N < k)%nat ->
  forall M b2 N2 len2 cs2, holds m b2 N2 len2 cs2 -> (b2 + N2 + 1 <= b \/ b + N + 1 <= b2)%nat \/ b2 = b ->
  (len2 < M)%nat -> cs2 <> [] -> assign_string k M N m b len b2 len2 = becomes m b N len cs2.
Proof. exact @assign_string_lemma. Qed.
Print Assumptions assign_string_partial.
(** assigning an empty string throws out_of_range and leaves the target as it was *)
Theorem assign_empty_refuted : forall k m b N len M b2,
  assign_string k M N m b len b2 0 = Ok (m, len, Some Out_of_range_error).
Proof. exact @assign_string_empty_lemma. Qed.
Print Assumptions assign_empty_refuted.
(** s.assign(s, 1) makes every character the last one *)
Theorem assign_own_tail_refuted : forall k M m b N len cs x, holds m b N len (cs ++ [x]) -> (N < M)%nat -> (N < k)%nat ->
  (1 <= length cs)%nat ->
  assign_sub k M N m b len b len 1 (npos M) = Ok (put m b N (repeat x (len - 1)), None).
Proof. exact @assign_self_lemma. Qed.
Print Assumptions assign_own_tail_refuted.
Theorem assign_fill_partial : forall k m b N len cs, holds m b N len cs -> (N < k)%nat ->
  forall n c, (n <= N)%nat -> assign_fill k N m b len n c = becomes m b N len (repeat c n).
Proof. exact @assign_fill_lemma. Qed.
Print Assumptions assign_fill_partial.
(** where every other function throws length_error *)
Theorem assign_fill_refuted : forall k (m : list Z) (b N len : nat), (N < k)%nat ->
  forall n c, (N < n)%nat -> assign_fill k N m b len n c = Ok (m, len, Some Out_of_range_error).
Proof. exact @assign_fill_long_lemma. Qed.
Print Assumptions assign_fill_refuted.
Theorem assign_random_access_range : forall k m b N len cs, holds m b N len cs -> (N < k)%nat ->
  forall s xs, block m s xs -> (s + length xs <= length m)%nat -> (b <= s \/ s + length xs <= b)%nat ->
  assign_forward k N m b len s (s + length xs) = becomes m b N len xs.
Proof. exact @assign_forward_lemma. Qed.
Print Assumptions assign_random_access_range.
Example assign_ex : holds [97; 98; 99; 0; 0; 120; 121; 0] 0 4 3 [97; 98; 99] /\
  assign_string 9 256 4 [97; 98; 99; 0; 0; 120; 121; 0] 0 3 5 2 = Ok ([120; 121; 0; 0; 0; 120; 121; 0], 2%nat, None) /\
  assign_sub 9 256 4 [97; 98; 99; 0; 0; 120; 121; 0] 0 3 0 3 1 255 = Ok ([99; 99; 0; 0; 0; 120; 121; 0], 2%nat, None) /\
  assign_fill 9 4 [97; 98; 99; 0; 0; 120; 121; 0] 0 3 5 65 = Ok ([97; 98; 99; 0; 0; 120; 121; 0], 3%nat, Some Out_of_range_error).
Proof.
  repeat split; try (cbn; lia); intros i x; do 5 (destruct i as [|i]; [cbn; congruence|]); cbn; destruct i; discriminate.
Qed.

(** ** C104: ranges of input iterators *)
Theorem assign_input_range_partial : forall k m b N len cs, holds m b N len cs -> (N < k)%nat ->
  forall xs, (length xs <> N + 1)%nat ->
  assign_input k N m b len xs =
    if (length xs <=? N)%nat then Ok (put m b N xs, None) else Ok (paste m b (firstn (N + 1) xs), len, Some Length_error).
Proof. exact @assign_input_lemma. Qed.
Print Assumptions assign_input_range_partial.
(** one character too many is accepted: size() exceeds max_size() and the terminator is gone *)
Theorem assign_input_range_refuted : forall k m b N len cs, holds m b N len cs -> (N < k)%nat ->
  forall xs, length xs = (N + 1)%nat -> assign_input k N m b len xs = Ok (paste m b xs, (N + 1)%nat, None).
Proof. exact @assign_input_over_lemma. Qed.
Print Assumptions assign_input_range_refuted.
Theorem append_input_range_partial : forall k m b N len cs, holds m b N len cs -> (N < k)%nat ->
  forall xs, (len + length xs <> N + 1)%nat ->
  append_input k N m b len xs =
    if (len + length xs <=? N)%nat then Ok (put m b N (cs ++ xs), None)
    else Ok (paste m (b + len) (firstn (N + 1 - len) xs), len, Some Length_error).
Proof. exact @append_input_lemma. Qed.
Print Assumptions append_input_range_partial.
Theorem append_input_range_refuted : forall k m b N len cs, holds m b N len cs -> (N < k)%nat ->
  forall xs, (len + length xs = N + 1)%nat -> append_input k N m b len xs = Ok (paste m (b + len) xs, (N + 1)%nat, None).
Proof. exact @append_input_over_lemma. Qed.
Print Assumptions append_input_range_refuted.
Example input_range_ex : holds [97; 98; 0; 0; 5] 0 3 2 [97; 98] /\
  append_input 9 3 [97; 98; 0; 0; 5] 0 2 [120] = Ok ([97; 98; 120; 0; 5], 3%nat, None) /\
  append_input 9 3 [97; 98; 0; 0; 5] 0 2 [120; 121] = Ok ([97; 98; 120; 121; 5], 4%nat, None) /\
  append_input 9 3 [97; 98; 0; 0; 5] 0 2 [120; 121; 122] = Ok ([97; 98; 120; 121; 5], 2%nat, Some Length_error).
Proof.
  repeat split; try (cbn; lia); intros i x; do 4 (destruct i as [|i]; [cbn; congruence|]); cbn; destruct i; discriminate.
Qed.

(** ** C105: resize, clear, pop_back, swap, operator>>= *)
Theorem resize_keeps_prefix : forall k m b N len cs, holds m b N len cs -> (N < k)%nat ->
  forall n c, resize k N m b len n c =
    if (n <=? N)%nat then Ok (put m b N (firstn n (cs ++ repeat c (n - len))), None) else Ok (m, len, Some Length_error).
Proof. exact @resize_lemma. Qed.
Print Assumptions resize_keeps_prefix.
Theorem clear_empties : forall k m b N len cs, holds m b N len cs -> (N < k)%nat -> clear k m b len = Ok (put m b N []).
Proof. exact @clear_lemma. Qed.
Print Assumptions clear_empties.
Theorem pop_back_removes : forall k m b N len cs, holds m b N len cs -> (N < k)%nat ->
  forall M xs x, (N < M)%nat -> cs = xs ++ [x] -> pop_back k M m b len = Ok (put m b N xs).
Proof. exact @pop_back_lemma. Qed.
Print Assumptions pop_back_removes.
Theorem swap_exchanges : forall k m b b2 N len len2 cs cs2, holds m b N len cs -> holds m b2 N len2 cs2 ->
  (b + N + 1 <= b2 \/ b2 + N + 1 <= b)%nat -> (N < k)%nat ->
  swap_strings k N m b len b2 len2 = Ok (paste (paste m b (image N cs2)) b2 (image N cs), length cs2, length cs).
Proof. exact @swap_strings_lemma. Qed.
Print Assumptions swap_exchanges.
Theorem prepend_characters : forall k m b N len cs, holds m b N len cs -> (N < k)%nat ->
  forall M s xs, block m s xs -> (s + length xs <= length m)%nat -> apart b N s (length xs) -> (len + length xs < M)%nat ->
  (length xs < k)%nat -> prepend_n k M N m b len s (length xs) = becomes m b N len (xs ++ cs).
Proof. exact @prepend_n_lemma. Qed.
Print Assumptions prepend_characters.
Theorem prepend_one : forall k m b N len cs, holds m b N len cs -> (N < k)%nat ->
  forall M c, (N + 1 < M)%nat -> prepend_char k M N m b len c = becomes m b N len (c :: cs).
Proof. exact @prepend_char_lemma. Qed.
Print Assumptions prepend_one.
Example resize_ex : holds [97; 98; 0; 0; 7] 0 3 2 [97; 98] /\
  resize 9 3 [97; 98; 0; 0; 7] 0 2 3 65 = Ok ([97; 98; 65; 0; 7], 3%nat, None) /\
  resize 9 3 [97; 98; 0; 0; 7] 0 2 1 65 = Ok ([97; 0; 0; 0; 7], 1%nat, None) /\
  resize 9 3 [97; 98; 0; 0; 7] 0 2 4 65 = Ok ([97; 98; 0; 0; 7], 2%nat, Some Length_error) /\
  clear 9 [97; 98; 0; 0; 7] 0 2 = Ok ([0; 0; 0; 0; 7], 0%nat) /\ pop_back 9 256 [97; 98; 0; 0; 7] 0 2 = Ok ([97; 0; 0; 0; 7], 1%nat) /\
  swap_strings 9 1 [97; 0; 120; 0; 7] 0 1 2 1 = Ok ([120; 0; 97; 0; 7], 1%nat, 1%nat) /\
  prepend_char 9 256 3 [97; 98; 0; 0; 7] 0 2 65 = Ok ([65; 97; 98; 0; 7], 3%nat, None).
Proof.
  repeat split; try (cbn; lia); intros i x; do 4 (destruct i as [|i]; [cbn; congruence|]); cbn; destruct i; discriminate.
Qed.

(** ** C106: at, substr, copy *)
Theorem at_reads : forall m b N len cs, holds m b N len cs -> forall i, at_ m b len i = Ok (nth_error cs i).
Proof. exact @at_lemma. Qed.
Print Assumptions at_reads.
(** What substr gives is cut off at the first null character; without one it is the substring. *)
Theorem substr_partial : forall m b N len cs, holds m b N len cs -> forall d pos n, (depth_bound len <= d)%nat ->
  substr d N m b len pos n =
    if (pos <=? len)%nat
    then Ok (inr (Some (image N (firstn n (upto_nul (skipn pos cs))), length (firstn n (upto_nul (skipn pos cs))))))
    else Ok (inl tt).
Proof. exact @substr_lemma. Qed.
Print Assumptions substr_partial.
Theorem substr_without_null : forall m b N len cs, holds m b N len cs -> forall d pos n, (depth_bound len <= d)%nat ->
  (pos <= len)%nat -> ~ In 0 (skipn pos cs) ->
  substr d N m b len pos n = Ok (inr (Some (image N (sub cs pos n), length (sub cs pos n)))).
Proof. exact @substr_plain_lemma. Qed.
Print Assumptions substr_without_null.
Theorem substr_refuted : forall m b N len d a s, holds m b N len (a ++ 0 :: s) -> ~ In 0 a -> (depth_bound len <= d)%nat ->
  substr d N m b len 0 len = Ok (inr (Some (image N a, length a))).
Proof. exact @substr_nul_lemma. Qed.
Print Assumptions substr_refuted.
Theorem copy_partial : forall m b N len cs, holds m b N len cs -> forall k s n pos, (pos < len)%nat ->
  (s + Nat.min n (len - pos) <= length m)%nat -> (len < k)%nat -> (s + Nat.min n (len - pos) <= b \/ b + N + 1 <= s)%nat ->
  copy_out k m b len s n pos = Ok (paste m s (sub cs pos n), Some (length (sub cs pos n))).
Proof. exact @copy_out_lemma. Qed.
Print Assumptions copy_partial.
(** pos = size() is a valid position, but out_of_range is thrown *)
Theorem copy_refuted : forall m b len k s n, copy_out k m b len s n len = Ok (m, None).
Proof. exact @copy_out_end_lemma. Qed.
Print Assumptions copy_refuted.
Example substr_ex : holds [97; 98; 99; 0; 0; 7; 7] 0 4 3 [97; 98; 99] /\
  substr 5 4 [97; 98; 99; 0; 0; 7; 7] 0 3 1 9 = Ok (inr (Some ([98; 99; 0; 0; 0], 2%nat))) /\
  substr 5 4 [97; 98; 99; 0; 0; 7; 7] 0 3 3 9 = Ok (inr (Some ([0; 0; 0; 0; 0], 0%nat))) /\
  substr 5 4 [97; 98; 99; 0; 0; 7; 7] 0 3 4 9 = Ok (inl tt) /\
  substr 5 4 [97; 0; 99; 0; 0; 7; 7] 0 3 0 3 = Ok (inr (Some ([97; 0; 0; 0; 0], 1%nat))) /\
  copy_out 9 [97; 98; 99; 0; 0; 7; 7] 0 3 5 2 1 = Ok ([97; 98; 99; 0; 0; 98; 99], Some 2%nat) /\
  at_ [97; 98; 99; 0; 0; 7; 7] 0 3 2 = Ok (Some 99) /\ at_ [97; 98; 99; 0; 0; 7; 7] 0 3 3 = Ok None.
Proof.
  repeat split; try (cbn; lia); intros i x; do 5 (destruct i as [|i]; [cbn; congruence|]); cbn; destruct i; discriminate.
Qed.

(** ** C107: comparison *)
Theorem compare_pointer_partial : forall d m m2 b N len cs, holds m b N len cs -> (depth_bound len <= d)%nat ->
  forall pos1 n1 s ys, block m2 s ys -> comparable (sub cs pos1 n1) ys ->
  if (pos1 <=? len)%nat
  then exists r, compare_ptr d m m2 b len pos1 n1 s (length ys) = Ok (Some r) /\ reports r (lexcmp (sub cs pos1 n1) ys)
  else compare_ptr d m m2 b len pos1 n1 s (length ys) = Ok None.
Proof. exact @compare_ptr_lemma. Qed.
Print Assumptions compare_pointer_partial.
Theorem compare_substrings_partial : forall d m m2 b N len cs, holds m b N len cs -> (depth_bound len <= d)%nat ->
  forall pos1 n1 b2 N2 len2 cs2 pos2 n2, holds m2 b2 N2 len2 cs2 -> comparable cs cs2 ->
  if ((pos1 <=? len) && (pos2 <=? len2))%nat%bool
  then exists r, compare_sub d m m2 b len pos1 n1 b2 len2 pos2 n2 = Ok (Some r) /\
                 reports r (lexcmp (sub cs pos1 n1) (sub cs2 pos2 n2))
  else compare_sub d m m2 b len pos1 n1 b2 len2 pos2 n2 = Ok None.
Proof. exact @compare_sub_lemma. Qed.
Print Assumptions compare_substrings_partial.
Theorem compare_strings_partial : forall d m m2 b N len cs, holds m b N len cs -> (depth_bound len <= d)%nat ->
  forall b2 N2 len2 cs2, holds m2 b2 N2 len2 cs2 -> comparable cs cs2 ->
  exists r, compare_string d m m2 b len b2 len2 = Ok (Some r) /\ reports r (lexcmp cs cs2).
Proof. exact @compare_string_lemma. Qed.
Print Assumptions compare_strings_partial.
Theorem compare_c_string_partial : forall d m m2 b N len cs, holds m b N len cs -> (depth_bound len <= d)%nat ->
  forall s ys, cstr m2 s ys -> comparable cs ys -> (depth_bound (length ys) <= d)%nat ->
  exists r, compare_cstr d m m2 b len s = Ok (Some r) /\ reports r (lexcmp cs ys).
Proof. exact @compare_cstr_lemma. Qed.
Print Assumptions compare_c_string_partial.
Theorem equality_partial : forall d m m2 b N len cs, holds m b N len cs -> (depth_bound len <= d)%nat ->
  forall b2 N2 len2 cs2, holds m2 b2 N2 len2 cs2 -> comparable cs cs2 ->
  exists e, string_eq d m m2 b len b2 len2 = Ok (Some e) /\ (e = true <-> cs = cs2).
Proof. exact @string_eq_lemma. Qed.
Print Assumptions equality_partial.
Theorem less_than_partial : forall d m m2 b N len cs, holds m b N len cs -> (depth_bound len <= d)%nat ->
  forall b2 N2 len2 cs2, holds m2 b2 N2 len2 cs2 -> comparable cs cs2 ->
  exists e, string_lt d m m2 b len b2 len2 = Ok (Some e) /\ (e = true <-> lexcmp cs cs2 = Lt).
Proof. exact @string_lt_lemma. Qed.
Print Assumptions less_than_partial.
(** whatever follows a null character is not compared *)
Theorem equality_refuted : forall d m m2 b N len b2 N2 len2 a s t,
  holds m b N len (a ++ 0 :: s) -> holds m2 b2 N2 len2 (a ++ 0 :: t) -> length s = length t -> ~ In 0 a ->
  (depth_bound len <= d)%nat -> string_eq d m m2 b len b2 len2 = Ok (Some true).
Proof. exact @string_eq_nul_lemma. Qed.
Print Assumptions equality_refuted.
Example compare_ex : holds [97; 98; 0; 0] 0 3 2 [97; 98] /\ comparable [97; 98] [97; 99] /\ comparable [97; 0] [97; 98] /\ lexcmp [97; 98] [97; 99] = Lt /\
  compare_string 5 [97; 98; 0; 0] [97; 99; 0; 0] 0 2 0 2 = Ok (Some (-1)) /\
  compare_string 5 [97; 98; 0; 0] [97; 0; 0; 0] 0 2 0 1 = Ok (Some 1) /\ string_eq 5 [97; 98; 0; 0] [97; 98; 0] 0 2 0 2 = Ok (Some true) /\
  string_lt 5 [97; 98; 0; 0] [97; 99; 0; 0] 0 2 0 2 = Ok (Some true) /\
  string_eq 5 [97; 0; 98; 0] [97; 0; 99; 0] 0 3 0 3 = Ok (Some true).
Proof.
  repeat split; try (cbn; lia); try (intros i x; do 4 (destruct i as [|i]; [cbn; congruence|]); cbn; destruct i; discriminate).
  - left. cbn. lia.
  - right. repeat split; try (repeat constructor; lia). right. cbn. lia.
Qed.

(** ** C108: find, rfind *)
Theorem find_finds_first_partial : forall d m ms b N len s cs ys, holds m b N len cs -> block ms s ys -> ~ In 0 ys ->
  (depth_bound (length ys) <= d)%nat -> forall r pos, (len < r)%nat ->
  exists o, find_impl r d m ms b len s pos (length ys) = Ok o /\ first_from (occurs cs ys) pos o.
Proof. exact @find_string_lemma. Qed.
Print Assumptions find_finds_first_partial.
Theorem rfind_finds_last_partial : forall d m ms b N len s cs ys, holds m b N len cs -> block ms s ys -> ~ In 0 ys ->
  (depth_bound (length ys) <= d)%nat -> forall r pos, (len < r)%nat ->
  exists o, rfind_impl r d m ms b len s pos (length ys) = Ok o /\ last_upto (occurs cs ys) pos o.
Proof. exact @rfind_string_lemma. Qed.
Print Assumptions rfind_finds_last_partial.
(** a pattern that begins with a null character matches at every null character *)
Theorem rfind_refuted : forall r d m ms b N len s cs ys zs, holds m b N len cs -> block ms s ys -> ys = 0 :: zs ->
  (depth_bound (length ys) <= d)%nat -> (0 < r)%nat -> (length ys <= len)%nat -> nth_error cs (len - length ys) = Some 0 ->
  rfind_impl r d m ms b len s len (length ys) = Ok (Some (len - length ys)%nat).
Proof. exact @rfind_nul_lemma. Qed.
Print Assumptions rfind_refuted.
Theorem find_character : forall m b N len cs, holds m b N len cs -> forall d c pos, (depth_bound len <= d)%nat ->
  exists o, find_c_impl d m b len c pos = Ok o /\ first_from (char_at (eq c) cs) pos o.
Proof. exact @find_c_lemma. Qed.
Print Assumptions find_character.
Theorem rfind_character : forall m b N len cs, holds m b N len cs -> forall r c pos, (len < r)%nat ->
  exists o, rfind_c_impl r m b len c pos = Ok o /\ last_upto (char_at (eq c) cs) pos o.
Proof. exact @rfind_c_lemma. Qed.
Print Assumptions rfind_character.
(** "abab": 97 98 97 98 *)
Example find_ex : holds [97; 98; 97; 98; 0] 0 4 4 [97; 98; 97; 98] /\ block [98] 0 [98] /\
  find_impl 5 5 [97; 98; 97; 98; 0] [97; 98] 0 4 0 1 2 = Ok (Some 2%nat) /\ find_impl 5 5 [97; 98; 97; 98; 0] [97; 98] 0 4 0 3 2 = Ok None /\
  find_impl 5 5 [97; 98; 97; 98; 0] [] 0 4 0 4 0 = Ok (Some 4%nat) /\
  rfind_impl 5 5 [97; 98; 97; 98; 0] [97; 98] 0 4 0 1 2 = Ok (Some 0%nat) /\ rfind_impl 5 5 [97; 98; 97; 98; 0] [97; 98] 0 4 0 9 2 = Ok (Some 2%nat) /\
  rfind_impl 5 5 [97; 98; 0; 99; 0] [0; 100] 0 4 0 4 2 = Ok (Some 2%nat) /\
  find_c_impl 5 [97; 98; 97; 98; 0] 0 4 98 2 = Ok (Some 3%nat) /\ rfind_c_impl 5 [97; 98; 97; 98; 0] 0 4 98 2 = Ok (Some 1%nat) /\
  rfind_c_impl 5 [97; 98; 97; 98; 0] 0 4 99 2 = Ok None.
Proof.
  repeat split; try (cbn; lia); try (intros i x; do 5 (destruct i as [|i]; [cbn; congruence|]); cbn; destruct i; discriminate).
Qed.

(** ** C109: searches for characters of a set *)
Theorem find_first_of_finds : forall m b N len cs, holds m b N len cs -> forall d ms s xs, block ms s xs -> (depth_bound (length xs) <= d)%nat ->
  forall r pos, (len < r)%nat ->
  exists o, find_first_of_impl r d m ms b len s pos (length xs) = Ok o /\ first_from (char_at (fun x => In x xs) cs) pos o.
Proof. exact @find_first_of_lemma. Qed.
Print Assumptions find_first_of_finds.
Theorem find_first_not_of_finds : forall m b N len cs, holds m b N len cs -> forall d ms s xs, block ms s xs -> (depth_bound (length xs) <= d)%nat ->
  forall r pos, (len < r)%nat ->
  exists o, find_first_not_of_impl r d m ms b len s pos (length xs) = Ok o /\ first_from (char_at (fun x => ~ In x xs) cs) pos o.
Proof. exact @find_first_not_of_lemma. Qed.
Print Assumptions find_first_not_of_finds.
Theorem find_last_of_finds : forall m b N len cs, holds m b N len cs -> forall d ms s xs, block ms s xs -> (depth_bound (length xs) <= d)%nat ->
  forall r pos, (len < r)%nat ->
  exists o, find_last_of_impl r d m ms b len s pos (length xs) = Ok o /\ last_upto (char_at (fun x => In x xs) cs) pos o.
Proof. exact @find_last_of_lemma. Qed.
Print Assumptions find_last_of_finds.
Theorem find_last_not_of_finds : forall m b N len cs, holds m b N len cs -> forall d ms s xs, block ms s xs -> (depth_bound (length xs) <= d)%nat ->
  forall r pos, (len < r)%nat ->
  exists o, find_last_not_of_impl r d m ms b len s pos (length xs) = Ok o /\ last_upto (char_at (fun x => ~ In x xs) cs) pos o.
Proof. exact @find_last_not_of_lemma. Qed.
Print Assumptions find_last_not_of_finds.
Theorem find_first_not_of_character : forall m b N len cs, holds m b N len cs -> forall r c pos, (len < r)%nat ->
  exists o, find_first_not_of_c_impl r m b len c pos = Ok o /\ first_from (char_at (fun x => x <> c) cs) pos o.
Proof. exact @find_first_not_of_c_lemma. Qed.
Print Assumptions find_first_not_of_character.
Theorem find_last_not_of_character : forall m b N len cs, holds m b N len cs -> forall r c pos, (len < r)%nat ->
  exists o, find_last_not_of_c_impl r m b len c pos = Ok o /\ last_upto (char_at (fun x => x <> c) cs) pos o.
Proof. exact @find_last_not_of_c_lemma. Qed.
Print Assumptions find_last_not_of_character.
(** "abcab" and the set "bc" *)
Example find_of_ex : holds [97; 98; 99; 97; 98; 0] 0 5 5 [97; 98; 99; 97; 98] /\
  find_first_of_impl 6 5 [97; 98; 99; 97; 98; 0] [98; 99] 0 5 0 0 2 = Ok (Some 1%nat) /\
  find_first_not_of_impl 6 5 [97; 98; 99; 97; 98; 0] [98; 99] 0 5 0 1 2 = Ok (Some 3%nat) /\
  find_last_of_impl 6 5 [97; 98; 99; 97; 98; 0] [98; 99] 0 5 0 3 2 = Ok (Some 2%nat) /\
  find_last_not_of_impl 6 5 [97; 98; 99; 97; 98; 0] [98; 99] 0 5 0 9 2 = Ok (Some 3%nat) /\
  find_last_not_of_impl 6 5 [97; 98; 99; 97; 98; 0] [97; 98; 99] 0 5 0 9 3 = Ok None /\
  find_first_not_of_c_impl 6 [97; 98; 99; 97; 98; 0] 0 5 97 0 = Ok (Some 1%nat) /\
  find_last_not_of_c_impl 6 [97; 98; 99; 97; 98; 0] 0 5 98 9 = Ok (Some 3%nat).
Proof.
  repeat split; try (cbn; lia); intros i x; do 6 (destruct i as [|i]; [cbn; congruence|]); cbn; destruct i; discriminate.
Qed.

(** ** C110: operator+, operator<<, shrink *)
Theorem concatenation : forall N1 N2 l1 l2 xs ys, block l1 0 xs -> block l2 0 ys -> (length xs <= N1)%nat -> (length ys <= N2)%nat ->
  concat N1 N2 l1 (length xs) l2 (length ys) = Ok (image (N1 + N2) (xs ++ ys), (length xs + length ys)%nat).
Proof. exact @concat_lemma. Qed.
Print Assumptions concatenation.
Theorem shift_concatenation : forall N l1 l2 xs ys, block l1 0 xs -> block l2 0 ys ->
  shift_concat N l1 (length xs) l2 (length ys) = built N (xs ++ ys).
Proof. exact @shift_concat_lemma. Qed.
Print Assumptions shift_concatenation.
Theorem shrink_truncates : forall N N2 l len cs, holds l 0 N len cs -> shrink N N2 l len = built N2 (firstn N2 cs).
Proof. exact @shrink_lemma. Qed.
Print Assumptions shrink_truncates.
Example concat_ex : block [97; 98; 0] 0 [97; 98] /\ holds [97; 98; 0; 0] 0 3 2 [97; 98] /\
  concat 2 1 [97; 98; 0] 2 [99; 0] 1 = Ok ([97; 98; 99; 0], 3%nat) /\ concat 2 1 [97; 0; 0] 1 [99; 0] 1 = Ok ([97; 99; 0; 0], 2%nat) /\
  shift_concat 2 [97; 98; 0] 2 [99; 0] 1 = Ok None /\ shift_concat 2 [97; 0; 0] 1 [99; 0] 1 = Ok (Some ([97; 99; 0], 2%nat)) /\
  shrink 3 1 [97; 98; 0; 0] 2 = Ok (Some ([97; 0], 1%nat)) /\ shrink 3 4 [97; 98; 0; 0] 2 = Ok (Some ([97; 98; 0; 0; 0], 2%nat)).
Proof.
  repeat split; try (cbn; lia).
  - intros i x. do 2 (destruct i as [|i]; [cbn; congruence|]). destruct i; discriminate.
  - intros i x. do 4 (destruct i as [|i]; [cbn; congruence|]). destruct i; discriminate.
Qed.
