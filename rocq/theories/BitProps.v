(** Theorems about the bit functions (C42-C48, C62).

    [il] is the lg of int's size in bytes, [md] selects the C++20 rules for signed left shifts and
    [bi] says whether the compiler's builtins are used; the theorems hold for all of them unless
    they say otherwise.  The condition [wid t <= tmax (int_t il)] says that int can hold the
    number of bits of [t]. *)
From Coq Require Import List Arith ZArith Bool Lia.
From Verif Require Import Base BitModel BitSpec BitProof2 BitProof3 BitProof4 BitProof5 BitProof6.
Import ListNotations.
Open Scope Z_scope.

(** ** C42 *)
Theorem popcount_correct : forall il bi t d x,
  wid t <= tmax (int_t il) -> wid t < Z.of_nat d ->
  popcount il bi t d x = Ok (ones_in t x).
Proof. exact @popcount_lemma. Qed.
Print Assumptions popcount_correct.

Example popcount_example : popcount 2 false (Ity true 2) 33 (-2) = Ok 31.
Proof. vm_compute. reflexivity. Qed.

Theorem parity_correct : forall il bi t x, parity il bi t x = Ok (ones_in t x mod 2).
Proof. exact @parity_lemma. Qed.
Print Assumptions parity_correct.

Example parity_example : parity 2 false (Ity true 3) (-2) = Ok 1 /\ parity 2 false (Ity false 0) 3 = Ok 0.
Proof. split; vm_compute; reflexivity. Qed.

(** ** C43 *)
Theorem leading_trailing_zeros : forall il md bi t x, is_val t x ->
  (exists c, clz il md bi t x = Ok c /\ cntl0 il md bi t x = Ok c /\ leading false t x c) /\
  (exists c, ctz il bi t x = Ok c /\ cntt0 il bi t x = Ok c /\ trailing false t x c).
Proof. exact @zeros_lemma. Qed.
Print Assumptions leading_trailing_zeros.

Example leading_trailing_zeros_example :
  clz 2 false false (Ity false 0) 24 = Ok 3 /\ ctz 2 false (Ity true 2) (-24) = Ok 3 /\ clz 2 false true (Ity false 3) 0 = Ok 64.
Proof. repeat split; vm_compute; reflexivity. Qed.

(** cntl1 with the builtins: __builtin_clrsb counts the copies of the top bit that follow it, so
    the answer for 0 is 31 instead of 0, and for all ones 31 instead of 32.  For the types
    narrower than int, ~x is an int. *)
Theorem cntl1_refuted :
  cntl1 2 false true (Ity false 2) 0 = Ok 31 /\ leading true (Ity false 2) 0 0 /\
  cntl1 2 false false (Ity false 0) 255 = Ok 0 /\ leading true (Ity false 0) 255 8 /\
  cntl1 2 false false (Ity true 0) (-1) = Ok 32 /\ leading true (Ity true 0) (-1) 8.
Proof. exact cntl1_refuted_lemma. Qed.
Print Assumptions cntl1_refuted.

(** What cntl1 computes: correct for types at least as wide as int without the builtin (all signed
    ones, and unsigned ones in builds without builtins) and for non-negative values of signed
    narrow types.  Missing: all other cases, where the result is wrong as stated. *)
Theorem cntl1_partial : forall il md bi t x, is_val t x ->
  exists c z, leading true t x c /\ leading false t x z /\
    cntl1 il md bi t x =
      Ok (if Nat.ltb (lg t) il then
            (if sgn t then (if x <? 0 then c + (wid (int_t il) - wid t) else c) else 0)
          else if has_builtin il bi t then
            (if Z.testbit x (wid t - 1) then c - 1 else z - 1)
          else c).
Proof. exact @cntl1_partial_lemma. Qed.
Print Assumptions cntl1_partial.

Example cntl1_example : cntl1 2 false true (Ity true 2) (-16) = Ok 28.
Proof. vm_compute. reflexivity. Qed.

Theorem cntt1_refuted :
  cntt1 2 true (Ity true 0) (-1) = Ok 32 /\ trailing true (Ity true 0) (-1) 8.
Proof. exact cntt1_refuted_lemma. Qed.
Print Assumptions cntt1_refuted.

(** Missing: -1 in a signed type narrower than int, for which the width of int is returned. *)
Theorem cntt1_partial : forall il bi t x, is_val t x ->
  exists c, trailing true t x c /\
    cntt1 il bi t x = Ok (if Nat.ltb (lg t) il && sgn t && (x =? -1) then wid (int_t il) else c).
Proof. exact @cntt1_partial_lemma. Qed.
Print Assumptions cntt1_partial.

Example cntt1_example : cntt1 2 true (Ity false 0) 255 = Ok 8 /\ cntt1 2 true (Ity true 2) 23 = Ok 3.
Proof. split; vm_compute; reflexivity. Qed.

(** ** C44 *)
Theorem bit_length_correct : forall il t x, is_val t x -> 0 <= x ->
  exists n, bit_length il t x = Ok n /\ 0 <= n <= wid t /\ x < 2 ^ n /\ forall m, 0 <= m -> x < 2 ^ m -> n <= m.
Proof. exact @bit_length_lemma. Qed.
Print Assumptions bit_length_correct.

Theorem bit_length_negative : forall il t x, is_val t x -> x < 0 -> bit_length il t x = Ok (wid t).
Proof. exact @bit_length_neg. Qed.
Print Assumptions bit_length_negative.

Example bit_length_example : bit_length 2 (Ity true 3) 1000 = Ok 10 /\ bit_length 2 (Ity true 0) (-3) = Ok 8.
Proof. split; vm_compute; reflexivity. Qed.

Theorem bit_reverse_correct : forall il md t x,
  exists r, bit_reverse il md t x = Ok r /\ has_bits t r (fun i => Z.testbit x (wid t - 1 - i) = true).
Proof. exact @bit_reverse_lemma. Qed.
Print Assumptions bit_reverse_correct.

Theorem bit_reverse_involutive : forall il md t x, is_val t x ->
  exists r, bit_reverse il md t x = Ok r /\ bit_reverse il md t r = Ok x.
Proof. exact @bit_reverse_involutive_lemma. Qed.
Print Assumptions bit_reverse_involutive.

Theorem bit_reverse_in_correct : forall il md t x n, 0 < n <= wid t ->
  exists r, bit_reverse_in il md t x n = Ok r /\ has_bits t r (fun i => i < n /\ Z.testbit x (n - 1 - i) = true).
Proof. exact @bit_reverse_in_lemma. Qed.
Print Assumptions bit_reverse_in_correct.

(** Outside the range of the property: length 0. *)
Theorem bit_reverse_in_zero : forall il md t x,
  bit_reverse_in il md t x 0 = if Nat.ltb (lg t) il then Ok 0 else UB.
Proof. exact @bit_reverse_in_0. Qed.
Print Assumptions bit_reverse_in_zero.

Example bit_reverse_example :
  bit_reverse 2 false (Ity false 2) 1 = Ok 2147483648 /\ bit_reverse 2 false (Ity true 2) 1 = Ok (-2147483648) /\
  bit_reverse_in 2 false (Ity false 2) 12 5 = Ok 6.
Proof. repeat split; vm_compute; reflexivity. Qed.

(** ** C45 *)
Theorem rot_refuted :
  rotl 2 true (Ity false 2) 5 0 = UB /\ rotr 2 true (Ity false 2) 5 0 = UB /\ rotl 2 false (Ity true 2) (-1) 1 = UB.
Proof. exact rot_refuted_lemma. Qed.
Print Assumptions rot_refuted.

(** Missing: a shift of 0 for types at least as wide as int, undefined for every x; and, before
    C++20, signed operands whose left shift is undefined. *)
Theorem rot_partial : forall il md t x s, is_val t x ->
  (0 < s < wid t -> shl_defined il md t x s ->
    exists r, rotl il md t x s = Ok r /\ has_bits t r (fun i => Z.testbit x ((i - s) mod wid t) = true)) /\
  (0 < s < wid t -> shl_defined il md t x (wid t - s) ->
    exists r, rotr il md t x s = Ok r /\ has_bits t r (fun i => Z.testbit x ((i + s) mod wid t) = true)) /\
  (0 < s < wid t -> sgn t = false \/ md = true ->
    (exists y, rotl il md t x s = Ok y /\ rotr il md t y s = Ok x) /\
    (exists y, rotr il md t x s = Ok y /\ rotl il md t y s = Ok x)) /\
  ((il <= lg t)%nat -> rotl il md t x 0 = UB /\ rotr il md t x 0 = UB) /\
  ((lg t < il)%nat -> shl_defined il md t x 0 -> shl_defined il md t x (wid t) ->
    rotl il md t x 0 = Ok x /\ rotr il md t x 0 = Ok x).
Proof. exact @rot_partial_lemma. Qed.
Print Assumptions rot_partial.

Example rot_example :
  rotl 2 false (Ity false 2) 3221225473 2 = Ok 7 /\ rotr 2 false (Ity false 0) 6 2 = Ok 129.
Proof. split; vm_compute; reflexivity. Qed.

(** ** C46 *)
Theorem single_bit_correct : forall il md t x b, is_val t x -> 0 <= b < wid t ->
  (exists r, setbit il md t x b = Ok r /\ has_bits t r (fun i => Z.testbit x i = true \/ i = b)) /\
  (exists r, rstbit il md t x b = Ok r /\ has_bits t r (fun i => Z.testbit x i = true /\ i <> b)) /\
  (exists r, flipbit il md t x b = Ok r /\
     has_bits t r (fun i => if i =? b then Z.testbit x i = false else Z.testbit x i = true)) /\
  testbit il md t x b = Ok (Z.testbit x b).
Proof. exact @single_bit_lemma. Qed.
Print Assumptions single_bit_correct.

Theorem bit_range_refuted :
  setbitsle 2 false (Ity false 2) 0 31 = UB /\ rstbitsle 2 false (Ity true 2) 7 30 = UB /\
  flipbitsge 2 false (Ity true 2) 0 31 = UB.
Proof. exact bit_range_refuted_lemma. Qed.
Print Assumptions bit_range_refuted.

(** Missing: the positions for which (1 << b) - 1 or (1 << (b + 1)) - 1 is undefined, as stated;
    they do not occur in types narrower than int. *)
Theorem bit_range_partial : forall il md t x b, is_val t x -> 0 <= b < wid t ->
  (if b <? digits (promote il t) then
    (exists r, setbitsge il md t x b = Ok r /\ has_bits t r (fun i => Z.testbit x i = true \/ b <= i)) /\
    (exists r, rstbitsge il md t x b = Ok r /\ has_bits t r (fun i => Z.testbit x i = true /\ i < b)) /\
    (exists r, flipbitsge il md t x b = Ok r /\
       has_bits t r (fun i => if b <=? i then Z.testbit x i = false else Z.testbit x i = true))
   else setbitsge il md t x b = UB /\ rstbitsge il md t x b = UB /\ flipbitsge il md t x b = UB) /\
  (if b + 1 <? digits (promote il t) then
    (exists r, setbitsle il md t x b = Ok r /\ has_bits t r (fun i => Z.testbit x i = true \/ i <= b)) /\
    (exists r, rstbitsle il md t x b = Ok r /\ has_bits t r (fun i => Z.testbit x i = true /\ b < i)) /\
    (exists r, flipbitsle il md t x b = Ok r /\
       has_bits t r (fun i => if i <=? b then Z.testbit x i = false else Z.testbit x i = true))
   else setbitsle il md t x b = UB /\ rstbitsle il md t x b = UB /\ flipbitsle il md t x b = UB) /\
  ((lg t < il)%nat -> b + 1 < digits (promote il t)).
Proof. exact @bit_range_partial_lemma. Qed.
Print Assumptions bit_range_partial.

Example bit_ops_example :
  setbit 2 false (Ity true 2) 5 31 = Ok (-2147483643) /\ rstbitsge 2 false (Ity false 2) 4294967295 8 = Ok 255 /\
  flipbitsle 2 false (Ity false 0) 15 7 = Ok 240.
Proof. repeat split; vm_compute; reflexivity. Qed.

(** ** C47, for signed operands as well where nothing overflows *)
Theorem rightmost_correct : forall il t x, is_val t x ->
  (no_overflow il t (x - 1) ->
    (exists r, rstls1b il t x = Ok r /\ has_bits t r (fun i => Z.testbit x i = true /\ ~ below false x i)) /\
    (exists r, sett0 il t x = Ok r /\ has_bits t r (fun i => Z.testbit x i = true \/ below false x i)) /\
    (exists r, maskt0 il t x = Ok r /\ has_bits t r (fun i => below false x (i + 1))) /\
    (exists r, maskt0ls1b il t x = Ok r /\ has_bits t r (fun i => below false x i))) /\
  (no_overflow il t (x + 1) ->
    (exists r, isols0b il t x = Ok r /\ has_bits t r (fun i => Z.testbit x i = false /\ below true x i)) /\
    (exists r, setls0b il t x = Ok r /\ has_bits t r (fun i => Z.testbit x i = true \/ below true x i)) /\
    (exists r, rstt1 il t x = Ok r /\ has_bits t r (fun i => Z.testbit x i = true /\ ~ below true x i)) /\
    (exists r, maskt1 il t x = Ok r /\ has_bits t r (fun i => below true x (i + 1))) /\
    (exists r, maskt1ls0b il t x = Ok r /\ has_bits t r (fun i => below true x i))) /\
  (no_overflow il t (- x) ->
    exists r, isols1b il t x = Ok r /\ has_bits t r (fun i => Z.testbit x i = true /\ below false x i)).
Proof. exact @rightmost_lemma. Qed.
Print Assumptions rightmost_correct.

Example rightmost_example :
  let t := Ity false 2 in let x := 2996 (* 101110110100b *) in
  rstls1b 2 t x = Ok 2992 /\ sett0 2 t x = Ok 2999 /\ maskt0 2 t x = Ok 3 /\ maskt0ls1b 2 t x = Ok 7 /\
  isols1b 2 t x = Ok 4 /\ isols0b 2 t 2999 = Ok 8 /\ setls0b 2 t 2999 = Ok 3007 /\ rstt1 2 t 2999 = Ok 2992 /\
  maskt1 2 t 2999 = Ok 7 /\ maskt1ls0b 2 t 2999 = Ok 15 /\ no_overflow 2 t (x - 1).
Proof. repeat split; try (vm_compute; reflexivity). left; reflexivity. Qed.

(** ** C48 *)
Theorem carry_to_exp2_unsigned : forall il md bi t d x,
  sgn t = false -> wid t <= tmax (int_t il) -> wid t < Z.of_nat d -> is_val t x ->
  exists r, carry_to_exp2 il md bi t d x = Ok r /\
    (x = 0 -> r = 0) /\ (0 < x <= 2 ^ (wid t - 1) -> next_pow2 x r) /\ (2 ^ (wid t - 1) < x -> r = 0).
Proof. exact @carry_unsigned_lemma. Qed.
Print Assumptions carry_to_exp2_unsigned.

(** -0x50000000 as int: the negation of INT_MIN overflows *)
Theorem carry_to_exp2_signed_refuted :
  carry_to_exp2 2 true true (Ity true 2) 33 (-1342177280) = UB.
Proof. exact carry_refuted_lemma. Qed.
Print Assumptions carry_to_exp2_signed_refuted.

(** Missing: x strictly between MIN and MIN / 2 in types at least as wide as int, undefined. *)
Theorem carry_to_exp2_signed_partial : forall il md bi t d x,
  sgn t = true -> wid (promote il t) <= tmax (int_t il) -> wid (promote il t) < Z.of_nat d -> is_val t x ->
  let h := 2 ^ (wid t - 2) in
  (0 <= x -> exists r, carry_to_exp2 il md bi t d x = Ok r /\
    (x = 0 -> r = 0) /\ (0 < x <= h -> next_pow2 x r) /\ (h < x -> r = tmin t)) /\
  (- h <= x < 0 -> exists r, carry_to_exp2 il md bi t d x = Ok r /\ next_pow2 (- x) (- r)) /\
  (tmin t < x < - h -> carry_to_exp2 il md bi t d x = if Nat.ltb (lg t) il then Ok (tmin t) else UB) /\
  (x = tmin t -> carry_to_exp2 il md bi t d x = Ok x).
Proof. exact @carry_signed_lemma. Qed.
Print Assumptions carry_to_exp2_signed_partial.

Example carry_to_exp2_example :
  carry_to_exp2 2 false true (Ity false 2) 33 1000 = Ok 1024 /\ carry_to_exp2 2 false true (Ity true 2) 33 (-5) = Ok (-8) /\
  carry_to_exp2 2 false true (Ity true 0) 33 100 = Ok (-128).
Proof. repeat split; vm_compute; reflexivity. Qed.

(** ** C62 *)
Theorem shift_correct : forall il md t x s, is_val t x -> 0 <= s < wid t ->
  (exists r, shll il md t x s = Ok r /\ shal il md t x s = Ok r /\
     has_bits t r (fun i => s <= i /\ Z.testbit x (i - s) = true)) /\
  (exists r, shlr il t x s = Ok r /\ has_bits t r (fun i => i + s < wid t /\ Z.testbit x (i + s) = true)) /\
  (exists r, shar il t x s = Ok r /\ has_bits t r (fun i => Z.testbit x (Z.min (i + s) (wid t - 1)) = true)).
Proof. exact @shift_correct_lemma. Qed.
Print Assumptions shift_correct.

Example shift_example :
  shll 2 false (Ity true 2) (-1) 31 = Ok (-2147483648) /\ shlr 2 (Ity true 2) (-1) 28 = Ok 15 /\
  shar 2 (Ity true 0) (-128) 7 = Ok (-1).
Proof. repeat split; vm_compute; reflexivity. Qed.
