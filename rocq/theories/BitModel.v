(** Model of sprout/bit and sprout/integer/carry_to_exp2.hpp.  Nothing is proved here.

    C++ integers are mathematical integers ([Z]) together with a type.  Types are two's
    complement with 8 * 2^lg bits.  The integer promotions are modelled: an operand of a type
    narrower than int is computed with as int.  [il] is the [lg] of int (2 in practice).

    Conversions to an integer type that cannot represent the value are modulo 2^width and the
    right shift of a negative number is arithmetic: both are implementation-defined before
    C++20 and so in every compiler Sprout supports.

    Left shifts of signed operands are undefined before C++20 if the operand is negative or if
    the product does not fit the corresponding unsigned type (C++11 5.8/2 with CWG 1457); since
    C++20 they are modulo 2^width.  [md = true] selects the C++20 rule. *)
From Coq Require Import List Arith ZArith Bool.
From Verif Require Import Base.
Import ListNotations.
Open Scope Z_scope.

Record ity : Type := Ity { sgn : bool; lg : nat }.

Definition bytes (t : ity) : Z := 2 ^ Z.of_nat (lg t).
Definition wid (t : ity) : Z := 8 * bytes t.

(** std::make_unsigned, std::make_signed *)
Definition uns (t : ity) : ity := Ity false (lg t).
Definition sig (t : ity) : ity := Ity true (lg t).

Definition tmin (t : ity) : Z := if sgn t then - 2 ^ (wid t - 1) else 0.
Definition tmax (t : ity) : Z := if sgn t then 2 ^ (wid t - 1) - 1 else 2 ^ wid t - 1.

(** static_cast<t>(z) *)
Definition conv (t : ity) (z : Z) : Z :=
  let u := z mod 2 ^ wid t in
  if sgn t && (2 ^ (wid t - 1) <=? u) then u - 2 ^ wid t else u.

Section Bits.
  Variable il : nat.      (* lg of int *)
  Variable md : bool.     (* C++20 rules for signed left shifts *)
  Variable bi : bool.     (* SPROUT_USE_BUILTIN_BIT_OPERATION *)

  Definition int_t : ity := Ity true il.

  (** integral promotions, C++11 4.5 *)
  Definition promote (t : ity) : ity := if Nat.ltb (lg t) il then int_t else t.

  (** The operators of a promoted type [p].  &, |, ^ need no check. *)
  Definition arith (p : ity) (z : Z) : res Z :=
    if sgn p then (if (tmin p <=? z) && (z <=? tmax p) then Ok z else UB) else Ok (conv p z).
  Definition cpl (p : ity) (x : Z) : Z := conv p (Z.lnot x).
  Definition shl (p : ity) (x s : Z) : res Z :=
    if (0 <=? s) && (s <? wid p) then
      if sgn p && negb md && ((x <? 0) || (2 ^ wid p <=? x * 2 ^ s)) then UB
      else Ok (conv p (x * 2 ^ s))
    else UB.
  Definition shr (p : ity) (x s : Z) : res Z :=
    if (0 <=? s) && (s <? wid p) then Ok (Z.shiftr x s) else UB.

  (** bit/shll.hpp 20-27, bit/shlr.hpp 20-27, bit/shal.hpp 20-26, bit/shar.hpp 20-27 *)
  Definition shll (t : ity) (x s : Z) : res Z :=
    r <- shl (promote (uns t)) (conv (uns t) x) s ;; Ok (conv t r).
  Definition shlr (t : ity) (x s : Z) : res Z :=
    r <- shr (promote (uns t)) (conv (uns t) x) s ;; Ok (conv t r).
  Definition shal (t : ity) (x s : Z) : res Z := shll t x s.
  Definition shar (t : ity) (x s : Z) : res Z :=
    r <- shr (promote (sig t)) (conv (sig t) x) s ;; Ok (conv t r).

  (** ** The compiler's builtins, by their documentation.  They are overloads for unsigned,
      unsigned long and unsigned long long only. *)
  Definition has_builtin (t : ity) : bool := bi && negb (sgn t) && Nat.leb il (lg t).

  (** number of i in [0, n) with bit i set *)
  Fixpoint count_ones (x : Z) (n : nat) : Z :=
    match n with
    | O => 0
    | S n => count_ones x n + (if Z.testbit x (Z.of_nat n) then 1 else 0)
    end.
  (** length of the run of bits equal to b at n-1, n-2, ... *)
  Fixpoint lead (b : bool) (x : Z) (n : nat) : Z :=
    match n with
    | O => 0
    | S n => if Bool.eqb (Z.testbit x (Z.of_nat n)) b then 1 + lead b x n else 0
    end.
  (** length of the run of bits equal to b at i, i+1, ..., i+n-1 *)
  Fixpoint trail (b : bool) (x : Z) (i n : nat) : Z :=
    match n with
    | O => 0
    | S n => if Bool.eqb (Z.testbit x (Z.of_nat i)) b then 1 + trail b x (S i) n else 0
    end.
  Definition widn (t : ity) : nat := Z.to_nat (wid t).
  Definition builtin_popcount (t : ity) (x : Z) : Z := count_ones x (widn t).
  Definition builtin_parity (t : ity) (x : Z) : Z := count_ones x (widn t) mod 2.
  Definition builtin_clz (t : ity) (x : Z) : Z := lead false x (widn t).
  Definition builtin_ctz (t : ity) (x : Z) : Z := trail false x 0 (widn t).
  (** the number of bits following the most significant bit that are identical to it *)
  Definition builtin_clrsb (t : ity) (x : Z) : Z :=
    lead (Z.testbit x (wid t - 1)) x (widn t) - 1.

  (** ** bit/popcount.hpp 18-61.  [d] bounds the recursion. *)
  Fixpoint popcount_rec (t : ity) (d : nat) (n : Z) : res Z :=
    match d with
    | O => Fuel
    | S d =>
        if n =? 0 then Ok 0
        else
          n1 <- arith (promote t) (n - 1) ;;
          c <- popcount_rec t d (conv t (Z.land n n1)) ;;
          arith int_t (1 + c)
    end.
  Definition popcount (t : ity) (d : nat) (n : Z) : res Z :=
    let t' := uns t in
    let n := conv t' n in
    if has_builtin t' then Ok (builtin_popcount t' n) else popcount_rec t' d n.

  (** ** bit/parity.hpp 18-96.  x ^ shlr(x, s) has the promoted type, with which the next
      template is instantiated; each template converts its result back to its own type. *)
  Definition parity_bits4 (t : ity) (x : Z) : res Z := y <- shlr t x 4 ;; Ok (conv t (Z.lxor x y)).
  Definition parity_bits2 (t : ity) (x : Z) : res Z :=
    y <- shlr t x 2 ;; r <- parity_bits4 (promote t) (Z.lxor x y) ;; Ok (conv t r).
  Definition parity_bits1 (t : ity) (x : Z) : res Z :=
    y <- shlr t x 1 ;; r <- parity_bits2 (promote t) (Z.lxor x y) ;; Ok (conv t r).
  (** parity_bytes<2^k> *)
  Fixpoint parity_bytes (k : nat) (t : ity) (x : Z) : res Z :=
    match k with
    | O => Ok x
    | S k =>
        y <- shlr t x (8 * 2 ^ Z.of_nat k) ;;
        r <- parity_bytes k (promote t) (Z.lxor x y) ;; Ok (conv t r)
    end.
  Definition parity (t : ity) (x : Z) : res Z :=
    if has_builtin t then Ok (builtin_parity t x)
    else
      y <- parity_bits1 t x ;;
      r <- parity_bytes (lg t) t y ;;
      Ok (Z.land (conv int_t r) 1).

  (** ** bit/clz.hpp 18-112; clz_bytes<2^k> *)
  Fixpoint clz_bytes (k : nat) (t : ity) (x n : Z) : res (Z * Z) :=
    match k with
    | O => Ok (x, n)
    | S k =>
        let h := 8 * 2 ^ Z.of_nat k in
        y <- shlr t x (wid t - h) ;;
        if negb (y =? 0) then clz_bytes k t x n
        else z <- shll t x h ;; clz_bytes k t z (n + h)
    end.
  Definition clz_bits1 (t : ity) (x n : Z) : res Z := y <- shlr t x (wid t - 1) ;; Ok (n - y).
  Definition clz_bits2 (t : ity) (x n : Z) : res Z :=
    y <- shlr t x (wid t - 2) ;;
    if negb (y =? 0) then clz_bits1 t x n else z <- shll t x 2 ;; clz_bits1 t z (n + 2).
  Definition clz_bits4 (t : ity) (x n : Z) : res Z :=
    y <- shlr t x (wid t - 4) ;;
    if negb (y =? 0) then clz_bits2 t x n else z <- shll t x 4 ;; clz_bits2 t z (n + 4).
  Definition clz_non0 (t : ity) (x : Z) : res Z :=
    if has_builtin t then Ok (builtin_clz t x)
    else '(y, n) <- clz_bytes (lg t) t x 1 ;; clz_bits4 t y n.
  Definition clz (t : ity) (x : Z) : res Z := if x =? 0 then Ok (wid t) else clz_non0 t x.

  (** ** bit/ctz.hpp 20-115; ctz_bytes<2^k> *)
  Fixpoint ctz_bytes (k : nat) (t : ity) (x n : Z) : res (Z * Z) :=
    match k with
    | O => Ok (x, n)
    | S k =>
        let h := 8 * 2 ^ Z.of_nat k in
        if negb (Z.land x (conv t (2 ^ h - 1)) =? 0) then ctz_bytes k t x n
        else z <- shlr t x h ;; ctz_bytes k t z (n + h)
    end.
  Definition ctz_bits1 (t : ity) (x n : Z) : res Z := Ok (if negb (Z.land x (conv t 1) =? 0) then n else n + 1).
  Definition ctz_bits2 (t : ity) (x n : Z) : res Z :=
    if negb (Z.land x (conv t 3) =? 0) then ctz_bits1 t x n else z <- shlr t x 2 ;; ctz_bits1 t z (n + 2).
  Definition ctz_bits4 (t : ity) (x n : Z) : res Z :=
    if negb (Z.land x (conv t 15) =? 0) then ctz_bits2 t x n else z <- shlr t x 4 ;; ctz_bits2 t z (n + 4).
  Definition ctz_non0 (t : ity) (x : Z) : res Z :=
    if has_builtin t then Ok (builtin_ctz t x)
    else '(y, n) <- ctz_bytes (lg t) t x 0 ;; ctz_bits4 t y n.
  Definition ctz (t : ity) (x : Z) : res Z := if x =? 0 then Ok (wid t) else ctz_non0 t x.

  (** ** bit/clrsb.hpp 18-47: ~x has the promoted type, with which clz is instantiated *)
  Definition clrsb (t : ity) (x : Z) : res Z :=
    if has_builtin t then Ok (builtin_clrsb t x) else clz (promote t) (cpl (promote t) x).

  (** bit/cntl0.hpp, cntl1.hpp, cntt0.hpp, cntt1.hpp 20-26 *)
  Definition cntl0 (t : ity) (x : Z) : res Z := clz t x.
  Definition cntl1 (t : ity) (x : Z) : res Z := clrsb t x.
  Definition cntt0 (t : ity) (x : Z) : res Z := ctz t x.
  Definition cntt1 (t : ity) (x : Z) : res Z := ctz (promote t) (cpl (promote t) x).

  (** ** bit/bit_length.hpp 18-77.  The table *)
  Definition bit_len_8_table : list Z := [
    0; 1; 2; 2; 3; 3; 3; 3; 4; 4; 4; 4; 4; 4; 4; 4;
    5; 5; 5; 5; 5; 5; 5; 5; 5; 5; 5; 5; 5; 5; 5; 5;
    6; 6; 6; 6; 6; 6; 6; 6; 6; 6; 6; 6; 6; 6; 6; 6;
    6; 6; 6; 6; 6; 6; 6; 6; 6; 6; 6; 6; 6; 6; 6; 6;
    7; 7; 7; 7; 7; 7; 7; 7; 7; 7; 7; 7; 7; 7; 7; 7;
    7; 7; 7; 7; 7; 7; 7; 7; 7; 7; 7; 7; 7; 7; 7; 7;
    7; 7; 7; 7; 7; 7; 7; 7; 7; 7; 7; 7; 7; 7; 7; 7;
    7; 7; 7; 7; 7; 7; 7; 7; 7; 7; 7; 7; 7; 7; 7; 7;
    8; 8; 8; 8; 8; 8; 8; 8; 8; 8; 8; 8; 8; 8; 8; 8;
    8; 8; 8; 8; 8; 8; 8; 8; 8; 8; 8; 8; 8; 8; 8; 8;
    8; 8; 8; 8; 8; 8; 8; 8; 8; 8; 8; 8; 8; 8; 8; 8;
    8; 8; 8; 8; 8; 8; 8; 8; 8; 8; 8; 8; 8; 8; 8; 8;
    8; 8; 8; 8; 8; 8; 8; 8; 8; 8; 8; 8; 8; 8; 8; 8;
    8; 8; 8; 8; 8; 8; 8; 8; 8; 8; 8; 8; 8; 8; 8; 8;
    8; 8; 8; 8; 8; 8; 8; 8; 8; 8; 8; 8; 8; 8; 8; 8;
    8; 8; 8; 8; 8; 8; 8; 8; 8; 8; 8; 8; 8; 8; 8; 8].
  (** bit_len<n + 1> *)
  Fixpoint bit_len (n : nat) (t : ity) (x : Z) : res Z :=
    match n with
    | O => r <- rd bit_len_8_table (Z.to_nat (Z.land x 255)) ;; Ok (conv t r)
    | S n' =>
        y <- shr (promote t) x (8 * Z.of_nat n) ;;
        r <- rd bit_len_8_table (Z.to_nat (Z.land y 255)) ;;
        if negb (r =? 0) then Ok (conv t (r + 8 * Z.of_nat n)) else bit_len n' t x
    end.
  Definition bit_length (t : ity) (x : Z) : res Z := bit_len (Z.to_nat (bytes t) - 1) t x.

  (** ** bit/bit_reverse.hpp 18-87.  The table *)
  Definition bit_rev_8_table : list Z := [
    0; 128; 64; 192; 32; 160; 96; 224; 16; 144; 80; 208; 48; 176; 112; 240; 8; 136; 72; 200;
    40; 168; 104; 232; 24; 152; 88; 216; 56; 184; 120; 248; 4; 132; 68; 196; 36; 164; 100; 228;
    20; 148; 84; 212; 52; 180; 116; 244; 12; 140; 76; 204; 44; 172; 108; 236; 28; 156; 92; 220;
    60; 188; 124; 252; 2; 130; 66; 194; 34; 162; 98; 226; 18; 146; 82; 210; 50; 178; 114; 242;
    10; 138; 74; 202; 42; 170; 106; 234; 26; 154; 90; 218; 58; 186; 122; 250; 6; 134; 70; 198;
    38; 166; 102; 230; 22; 150; 86; 214; 54; 182; 118; 246; 14; 142; 78; 206; 46; 174; 110; 238;
    30; 158; 94; 222; 62; 190; 126; 254; 1; 129; 65; 193; 33; 161; 97; 225; 17; 145; 81; 209;
    49; 177; 113; 241; 9; 137; 73; 201; 41; 169; 105; 233; 25; 153; 89; 217; 57; 185; 121; 249;
    5; 133; 69; 197; 37; 165; 101; 229; 21; 149; 85; 213; 53; 181; 117; 245; 13; 141; 77; 205;
    45; 173; 109; 237; 29; 157; 93; 221; 61; 189; 125; 253; 3; 131; 67; 195; 35; 163; 99; 227;
    19; 147; 83; 211; 51; 179; 115; 243; 11; 139; 75; 203; 43; 171; 107; 235; 27; 155; 91; 219;
    59; 187; 123; 251; 7; 135; 71; 199; 39; 167; 103; 231; 23; 151; 87; 215; 55; 183; 119; 247;
    15; 143; 79; 207; 47; 175; 111; 239; 31; 159; 95; 223; 63; 191; 127; 255].
  (** bit_rev<2^k>; x >> shift_bits has the promoted type, with which the second instance is made *)
  Fixpoint bit_rev (k : nat) (t : ity) (x : Z) : res Z :=
    match k with
    | O => r <- rd bit_rev_8_table (Z.to_nat (Z.land x 255)) ;; Ok (conv t r)
    | S k =>
        let h := 8 * 2 ^ Z.of_nat k in
        a <- bit_rev k t x ;;
        a <- shl (promote t) a h ;;
        y <- shr (promote t) x h ;;
        b <- bit_rev k (promote t) y ;;
        Ok (conv t (Z.lor a b))
    end.
  Definition bit_reverse (t : ity) (x : Z) : res Z :=
    r <- bit_rev (lg t) (uns t) (conv (uns t) x) ;; Ok (conv t r).
  (** SPROUT_ASSERT(length <= width), a failed assertion is UB here; [length] is converted to
      size_t for the comparison, so a negative one fails it *)
  Definition bit_reverse_in (t : ity) (x length : Z) : res Z :=
    if (0 <=? length) && (length <=? wid t) then
      r <- bit_rev (lg t) (uns t) (conv (uns t) x) ;;
      r <- shr (promote (uns t)) r (wid t - length) ;;
      Ok (conv t r)
    else UB.

  (** ** bit/rotl.hpp 21-27, bit/rotr.hpp 21-27 *)
  Definition rotl (t : ity) (x s : Z) : res Z :=
    a <- shl (promote t) x s ;; b <- shlr t x (wid t - s) ;; Ok (conv t (Z.lor a b)).
  Definition rotr (t : ity) (x s : Z) : res Z :=
    a <- shlr t x s ;; b <- shl (promote t) x (wid t - s) ;; Ok (conv t (Z.lor a b)).

  (** ** bit/setbit.hpp, rstbit.hpp, flipbit.hpp, testbit.hpp 19-25 *)
  Definition setbit (t : ity) (x b : Z) : res Z :=
    o <- shl (promote t) 1 b ;; Ok (conv t (Z.lor x o)).
  Definition rstbit (t : ity) (x b : Z) : res Z :=
    o <- shl (promote t) 1 b ;; Ok (conv t (Z.land x (cpl (promote t) o))).
  Definition flipbit (t : ity) (x b : Z) : res Z :=
    o <- shl (promote t) 1 b ;; Ok (conv t (Z.lxor x o)).
  Definition testbit (t : ity) (x b : Z) : res bool :=
    o <- shl (promote t) 1 b ;; Ok (negb (Z.land x o =? 0)).

  (** (Integral(1) << b) - 1 *)
  Definition ones_below (t : ity) (b : Z) : res Z :=
    o <- shl (promote t) 1 b ;; arith (promote t) (o - 1).

  (** bit/setbitsge.hpp, setbitsle.hpp, rstbitsge.hpp, rstbitsle.hpp, flipbitsge.hpp,
      flipbitsle.hpp 19-25 *)
  Definition setbitsge (t : ity) (x b : Z) : res Z :=
    o <- ones_below t b ;; Ok (conv t (Z.lor x (cpl (promote t) o))).
  Definition setbitsle (t : ity) (x b : Z) : res Z :=
    o <- ones_below t (b + 1) ;; Ok (conv t (Z.lor x o)).
  Definition rstbitsge (t : ity) (x b : Z) : res Z :=
    o <- ones_below t b ;; Ok (conv t (Z.land x o)).
  Definition rstbitsle (t : ity) (x b : Z) : res Z :=
    o <- ones_below t (b + 1) ;; Ok (conv t (Z.land x (cpl (promote t) o))).
  Definition flipbitsge (t : ity) (x b : Z) : res Z :=
    o <- ones_below t b ;; Ok (conv t (Z.lxor x (cpl (promote t) o))).
  Definition flipbitsle (t : ity) (x b : Z) : res Z :=
    o <- ones_below t (b + 1) ;; Ok (conv t (Z.lxor x o)).

  (** ** bit/isols1b.hpp, isols0b.hpp, rstls1b.hpp, setls0b.hpp, rstt1.hpp, sett0.hpp,
      maskt0.hpp, maskt1.hpp, maskt0ls1b.hpp, maskt1ls0b.hpp 19-25 *)
  Definition isols1b (t : ity) (x : Z) : res Z :=
    n <- arith (promote t) (- x) ;; Ok (conv t (Z.land x n)).
  Definition isols0b (t : ity) (x : Z) : res Z :=
    n <- arith (promote t) (x + 1) ;; Ok (conv t (Z.land (cpl (promote t) x) n)).
  Definition rstls1b (t : ity) (x : Z) : res Z :=
    n <- arith (promote t) (x - 1) ;; Ok (conv t (Z.land x n)).
  Definition setls0b (t : ity) (x : Z) : res Z :=
    n <- arith (promote t) (x + 1) ;; Ok (conv t (Z.lor x n)).
  Definition rstt1 (t : ity) (x : Z) : res Z :=
    n <- arith (promote t) (x + 1) ;; Ok (conv t (Z.land x n)).
  Definition sett0 (t : ity) (x : Z) : res Z :=
    n <- arith (promote t) (x - 1) ;; Ok (conv t (Z.lor x n)).
  Definition maskt0 (t : ity) (x : Z) : res Z :=
    n <- arith (promote t) (x - 1) ;; Ok (conv t (Z.land (cpl (promote t) x) n)).
  Definition maskt1 (t : ity) (x : Z) : res Z :=
    n <- arith (promote t) (x + 1) ;; Ok (conv t (cpl (promote t) (Z.lor (cpl (promote t) x) n))).
  Definition maskt0ls1b (t : ity) (x : Z) : res Z :=
    n <- arith (promote t) (x - 1) ;; Ok (conv t (Z.lxor n x)).
  Definition maskt1ls0b (t : ity) (x : Z) : res Z :=
    n <- arith (promote t) (x + 1) ;; Ok (conv t (Z.lxor x n)).

  (** ** integer/carry_to_exp2.hpp 20-71 *)
  Definition carry_to_exp2_simpl (t : ity) (d : nat) (x : Z) : res Z :=
    c <- popcount t d x ;;
    if c <=? 1 then Ok x
    else n <- cntl0 t x ;; r <- shl (promote t) 1 (wid t - n) ;; Ok (conv t r).
  Definition carry_to_exp2_uimpl (t : ity) (n : Z) : res Z :=
    if n =? 0 then Ok 0 else r <- shl (promote t) 1 (wid t - n) ;; Ok (conv t r).
  Definition carry_to_exp2 (t : ity) (d : nat) (x : Z) : res Z :=
    if sgn t then
      if x =? tmin t then Ok x
      else if x <? 0 then
        (* -x and the result of simpl have the promoted type *)
        y <- arith (promote t) (- x) ;;
        r <- carry_to_exp2_simpl (promote t) d y ;;
        r <- arith (promote t) (- r) ;;
        Ok (conv t r)
      else carry_to_exp2_simpl t d x
    else
      c <- popcount t d x ;;
      if c <=? 1 then Ok x
      else n <- cntl0 t x ;; carry_to_exp2_uimpl t n.
End Bits.
