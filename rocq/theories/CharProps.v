(** C61, C68-C70: character classes, reading and writing integers. *)
From Coq Require Import List Arith ZArith Lia.
From Verif Require Import Base BitModel BitSpec ShaModel StrSpec CharModel CharSpec CharProof CharProof2.
Import ListNotations.
Open Scope Z_scope.

(** ** C61 *)

(** As in C, for strings that do not start with 0x unless the base is 0 or 16, and do not denote
    minus the maximum of the type. *)
Theorem str_to_int_signed_partial : forall il t base m s p r, sgn t = true -> base_ok base -> Forall character s -> cstr m p s ->
  (length s + 1 < r)%nat -> base = 0 \/ base = 16 \/ zero_x (tail_of s) = false -> denotes base s <> (true, tmax t) ->
  str_to_int il t r m p base = Ok (c_strtol t base s).
Proof. exact str_to_int_signed_lemma. Qed.
Print Assumptions str_to_int_signed_partial.

(** Minus the maximum is taken for an overflow. *)
Theorem str_to_int_minus_max_refuted : forall il t base m s p r, sgn t = true -> base_ok base -> Forall character s -> cstr m p s ->
  (length s + 1 < r)%nat -> base = 0 \/ base = 16 \/ zero_x (tail_of s) = false -> denotes base s = (true, tmax t) ->
  str_to_int il t r m p base = Ok (tmin t) /\ c_strtol t base s = - tmax t /\ tmin t <> - tmax t.
Proof. exact str_to_int_minus_max_lemma. Qed.
Print Assumptions str_to_int_minus_max_refuted.

(** 0x is skipped whatever the base. *)
Theorem str_to_int_zero_x_refuted : forall il t base m c p r, 2 <= base <= 33 -> base <> 16 -> character c ->
  is_dig base c = true -> weight c <> 0 -> cstr m p [48; 120; c] -> (4 < r)%nat ->
  str_to_int il t r m p base = Ok (weight c) /\ c_strtol t base [48; 120; c] = 0 /\ c_strtoul t base [48; 120; c] = 0.
Proof. exact str_to_int_zero_x_lemma. Qed.
Print Assumptions str_to_int_zero_x_refuted.

(** Unsigned types: as in C for strings without a minus sign. *)
Theorem str_to_int_unsigned_partial : forall il t base m s p r, sgn t = false -> base_ok base -> Forall character s -> cstr m p s ->
  (length s + 1 < r)%nat -> base = 0 \/ base = 16 \/ zero_x (tail_of s) = false -> fst (denotes base s) = false ->
  str_to_int il t r m p base = Ok (c_strtoul t base s).
Proof. exact str_to_int_unsigned_lemma. Qed.
Print Assumptions str_to_int_unsigned_partial.

(** A minus sign is taken for the end of the number, where strtoul negates. *)
Theorem str_to_int_unsigned_minus_refuted : forall il t base m s p r, sgn t = false -> base_ok base -> Forall character s ->
  cstr m p (45 :: s) -> (length s + 2 < r)%nat -> str_to_int il t r m p base = Ok 0.
Proof. exact str_to_int_unsigned_minus_lemma. Qed.
Print Assumptions str_to_int_unsigned_minus_refuted.

(** ascii_to_int (atoi, atol, atoll) is base 10 and has no prefix. *)
Theorem ascii_to_int_signed_partial : forall il t m s p r, sgn t = true -> Forall character s -> cstr m p s ->
  (length s + 1 < r)%nat -> denotes 10 s <> (true, tmax t) ->
  ascii_to_int il t r m p = Ok (c_strtol t 10 s).
Proof. exact ascii_to_int_signed_lemma. Qed.
Print Assumptions ascii_to_int_signed_partial.
Theorem ascii_to_int_minus_max_refuted : forall il t m s p r, sgn t = true -> Forall character s -> cstr m p s ->
  (length s + 1 < r)%nat -> denotes 10 s = (true, tmax t) ->
  ascii_to_int il t r m p = Ok (tmin t) /\ c_strtol t 10 s = - tmax t.
Proof. exact ascii_to_int_minus_max_lemma. Qed.
Print Assumptions ascii_to_int_minus_max_refuted.
Theorem ascii_to_int_unsigned_partial : forall il t m s p r, sgn t = false -> Forall character s -> cstr m p s ->
  (length s + 1 < r)%nat -> fst (denotes 10 s) = false ->
  ascii_to_int il t r m p = Ok (c_strtoul t 10 s).
Proof. exact ascii_to_int_unsigned_lemma. Qed.
Print Assumptions ascii_to_int_unsigned_partial.

(** " -0x1f;" as short; "-128" and "-127" as signed char; "0x1" in base 10; "-1" as unsigned char *)
Example c61_case :
  let m1 := [32; 45; 48; 120; 49; 102; 59; 0] in
  denotes 0 [32; 45; 48; 120; 49; 102; 59] = (true, 31) /\ cstr m1 0 [32; 45; 48; 120; 49; 102; 59] /\
  str_to_int 2 (Ity true 1) 20 m1 0 0 = Ok (-31) /\
  str_to_int 2 (Ity true 0) 20 [45; 49; 50; 56; 0] 0 10 = Ok (-128) /\
  denotes 10 [45; 49; 50; 55] = (true, tmax (Ity true 0)) /\
  str_to_int 2 (Ity true 0) 20 [45; 49; 50; 55; 0] 0 10 = Ok (-128) /\
  c_strtol (Ity true 0) 10 [45; 49; 50; 55] = -127 /\
  str_to_int 2 (Ity true 0) 20 [49; 50; 57; 0] 0 10 = Ok 127 /\
  str_to_int 2 (Ity true 2) 20 [48; 120; 49; 0] 0 10 = Ok 1 /\ c_strtol (Ity true 2) 10 [48; 120; 49] = 0 /\
  str_to_int 2 u8 20 [45; 49; 0] 0 10 = Ok 0 /\ c_strtoul u8 10 [45; 49] = 255 /\
  str_to_int 2 u8 20 [43; 49; 50; 0] 0 0 = Ok 12 /\
  ascii_to_int 2 (Ity true 2) 20 [9; 45; 49; 50; 46; 0] 0 = Ok (-12) /\
  ascii_to_int 2 u8 20 [51; 48; 48; 0] 0 = Ok 255.
Proof.
  cbv zeta. repeat apply conj; try reflexivity; [|cbn; lia].
  intros i x. do 8 (destruct i as [|i]; [cbn; intros H; exact H || discriminate|]). cbn. destruct i; discriminate.
Qed.

(** ** C68 *)
Theorem isalnum_correct : forall c, character c -> isalnum c = true <-> Alnum c.
Proof. exact isalnum_lemma. Qed.
Print Assumptions isalnum_correct.
Theorem isalpha_correct : forall c, character c -> isalpha c = true <-> Alpha c.
Proof. exact isalpha_lemma. Qed.
Print Assumptions isalpha_correct.
Theorem isblank_correct : forall c, character c -> isblank c = true <-> Blank c.
Proof. exact isblank_lemma. Qed.
Print Assumptions isblank_correct.
Theorem iscntrl_correct : forall c, character c -> iscntrl c = true <-> Cntrl c.
Proof. exact iscntrl_lemma. Qed.
Print Assumptions iscntrl_correct.
Theorem isdigit_correct : forall c, character c -> isdigit c = true <-> Digit c.
Proof. exact isdigit_lemma. Qed.
Print Assumptions isdigit_correct.
Theorem isgraph_correct : forall c, character c -> isgraph c = true <-> Graph c.
Proof. exact isgraph_lemma. Qed.
Print Assumptions isgraph_correct.
Theorem islower_correct : forall c, character c -> islower c = true <-> Lower c.
Proof. exact islower_lemma. Qed.
Print Assumptions islower_correct.
Theorem isprint_correct : forall c, character c -> isprint c = true <-> Print c.
Proof. exact isprint_lemma. Qed.
Print Assumptions isprint_correct.
Theorem ispunct_correct : forall c, character c -> ispunct c = true <-> Punct c.
Proof. exact ispunct_lemma. Qed.
Print Assumptions ispunct_correct.
Theorem isspace_correct : forall c, character c -> isspace c = true <-> Space c.
Proof. exact isspace_lemma. Qed.
Print Assumptions isspace_correct.
Theorem isupper_correct : forall c, character c -> isupper c = true <-> Upper c.
Proof. exact isupper_lemma. Qed.
Print Assumptions isupper_correct.
Theorem isxdigit_correct : forall c, character c -> isxdigit c = true <-> Xdigit c.
Proof. exact isxdigit_lemma. Qed.
Print Assumptions isxdigit_correct.
Theorem tolower_correct : forall ct c, character c -> (Upper c -> tolower ct c = c + 32) /\ (~ Upper c -> tolower ct c = c).
Proof. exact tolower_lemma. Qed.
Print Assumptions tolower_correct.
Theorem toupper_correct : forall ct c, character c -> (Lower c -> toupper ct c = c - 32) /\ (~ Lower c -> toupper ct c = c).
Proof. exact toupper_lemma. Qed.
Print Assumptions toupper_correct.

(** isclassified(m, c) tests [m | x] instead of [m & x]: whatever the values of the masks, it is
    true of every ASCII character and every m, even m = 0 *)
Theorem isclassified_refuted : forall cm m c, length cm = 12%nat -> Forall (fun x => 0 < x) cm -> 0 <= m ->
  0 <= c < 128 -> isclassified cm m c = true.
Proof. exact isclassified_always_lemma. Qed.
Print Assumptions isclassified_refuted.

Example c68_case : character (-1) /\ isalpha (-1) = false /\ character 65 /\ isalpha 65 = true /\ isxdigit 71 = false /\
  tolower (Ity true 0) 65 = 97 /\ toupper (Ity true 0) 97 = 65 /\ toupper (Ity true 0) (-31) = -31 /\
  isclassified [3; 1; 2; 4; 8; 16; 32; 64; 128; 256; 512; 1024] 0 65 = true.
Proof. unfold character. repeat apply conj; reflexivity || lia. Qed.

(** ** C69 *)

(** in the bases 2 .. 10 the numeral is written, followed by at least one zero; the most negative
    value only in base 10 *)
Theorem int_to_string_partial : forall il ct t r base v, std_type t -> 2 <= base <= 10 -> is_val t v ->
  base = 10 \/ v <> tmin t \/ sgn t = false -> (65 < r)%nat ->
  exists s k, int_to_string il ct t r base v = Ok (length s, s ++ repeat 0 (S k)) /\ numeral base v s.
Proof. exact int_to_string_lemma'. Qed.
Print Assumptions int_to_string_partial.

(** the binary numeral of the most negative value has one digit more than provided for *)
Theorem int_to_string_min_refuted : forall ct t r, sgn t = true -> std_type t -> (70 < r)%nat ->
  int_to_string 2 ct t r 2 (tmin t) = UB.
Proof. exact to_string_min_lemma. Qed.
Print Assumptions int_to_string_min_refuted.

(** digits above 9 fail an assertion, though the bases up to 16 are provided for *)
Theorem int_to_string_letters_refuted : forall il ct t r base v, std_type t -> 11 <= base <= 16 -> 10 <= v < base -> (1 < r)%nat ->
  int_to_string il ct t r base v = UB.
Proof. exact to_string_letters_lemma. Qed.
Print Assumptions int_to_string_letters_refuted.

(** str_to_int reads back what int_to_string wrote, except for minus the maximum *)
Theorem int_to_string_round_trip_partial : forall il ct t r base v, std_type t -> 2 <= base <= 10 -> is_val t v ->
  base = 10 \/ v <> tmin t \/ sgn t = false -> v <> - tmax t -> (70 < r)%nat ->
  exists n m, int_to_string il ct t r base v = Ok (n, m) /\ str_to_int il t r m 0 base = Ok v.
Proof. exact round_trip_lemma'. Qed.
Print Assumptions int_to_string_round_trip_partial.
Theorem int_to_string_round_trip_refuted : forall il ct t r base, sgn t = true -> std_type t -> 2 <= base <= 10 -> (70 < r)%nat ->
  exists n m, int_to_string il ct t r base (- tmax t) = Ok (n, m) /\ str_to_int il t r m 0 base = Ok (tmin t) /\ tmin t <> - tmax t.
Proof. exact round_trip_minus_max_lemma'. Qed.
Print Assumptions int_to_string_round_trip_refuted.

Example c69_case : is_val (Ity true 0) (-128) /\ std_type (Ity true 0) /\
  int_to_string 2 (Ity true 0) (Ity true 0) 80 10 (-128) = Ok (4%nat, [45; 49; 50; 56; 0]) /\
  int_to_string 2 (Ity true 0) (Ity true 0) 80 10 0 = Ok (1%nat, [48; 0; 0; 0; 0]) /\
  int_to_string 2 (Ity true 0) u8 80 2 5 = Ok (3%nat, [49; 48; 49; 0; 0; 0; 0; 0; 0]) /\
  int_to_string 2 (Ity true 0) u8 80 16 10 = UB /\
  int_to_string 2 (Ity true 0) (Ity true 0) 80 2 (-128) = UB /\
  int_to_string 2 (Ity true 0) (Ity true 0) 80 2 (-127) = Ok (8%nat, [45; 49; 49; 49; 49; 49; 49; 49; 0]).
Proof. split; [vm_compute; split; congruence|]. split; [unfold std_type; cbn; lia|]. repeat apply conj; reflexivity. Qed.

(** ** C70 *)
Theorem digits_to_int_partial : forall cs, Forall Digit cs -> (1 <= length cs <= 2)%nat -> digits_to_int cs = value 10 cs.
Proof. exact digits_to_int_short_lemma. Qed.
Print Assumptions digits_to_int_partial.

(** numerals of three and more digits come out too small, unless the first digit is 0 *)
Theorem digits_to_int_refuted : forall cs, Forall Digit cs -> cs <> [] ->
  digits_to_int cs <= value 10 cs /\ ((3 <= length cs)%nat -> hd 48 cs <> 48 -> digits_to_int cs < value 10 cs).
Proof. exact digits_to_int_le. Qed.
Print Assumptions digits_to_int_refuted.

Example c70_case : Forall Digit [49; 50; 51] /\ digits_to_int [49; 50; 51] = 33 /\ value 10 [49; 50; 51] = 123 /\ digits_to_int [49; 50] = 12.
Proof. split; [repeat constructor; unfold Digit; lia|]. repeat apply conj; reflexivity. Qed.
