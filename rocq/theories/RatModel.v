(** Models of sprout/math/gcd.hpp, sprout/math/lcm.hpp, sprout/cstdlib/abs.hpp and
    sprout/rational/{rational,arithmetic,comparison,values}.hpp.  Nothing is proved here.

    gcd and lcm are modelled for all built-in integer types [t] ([il], [md] as in BitModel).
    rational<IntType> is modelled for signed types at least as wide as int, so that no operand is
    promoted; overflow is undefined.  [r] is the call depth (the functions of gcd.hpp and
    comparison.hpp recurse). *)
From Coq Require Import List Arith ZArith Bool.
From Verif Require Import Base BitModel.
Import ListNotations.
Open Scope Z_scope.

(** x / y and x % y of a promoted type *)
Definition cdiv (p : ity) (x y : Z) : res Z :=
  if (y =? 0) || (sgn p && (x =? tmin p) && (y =? -1)) then UB else Ok (Z.quot x y).
Definition crem (p : ity) (x y : Z) : res Z :=
  if (y =? 0) || (sgn p && (x =? tmin p) && (y =? -1)) then UB else Ok (Z.rem x y).

Section Rat.
  Variable il : nat.
  Variable md : bool.

  (** cstdlib/abs.hpp 22-57: every overload, for a signed type *)
  Definition abs_c (t : ity) (j : Z) : res Z :=
    if j <? 0 then v <- arith (promote il t) (- j) ;; Ok (conv t v) else Ok j.

  (** ** math/gcd.hpp *)

  (** lines 95-130 (the version without the template depth workaround): [two] tells
      gcd_binary_2_2 from gcd_binary_2_1; the array r is ([r0], [r1]); [p] is the promoted type.
      The difference stored back never exceeds the operands. *)
  Fixpoint gcd_binary_2 (p : ity) (d : nat) (two : bool) (shifts r0 r1 : Z) (which : bool) : res Z :=
    match d with
    | O => Fuel
    | S d' =>
        let cur := if which then r1 else r0 in
        let other := if which then r0 else r1 in
        if two then
          if negb (cur =? 0) then gcd_binary_2 p d' false shifts r0 r1 which
          else shl md p other shifts
        else if negb (Z.odd cur) then
          if which then h <- shr p r1 1 ;; gcd_binary_2 p d' false shifts r0 h which
          else h <- shr p r0 1 ;; gcd_binary_2 p d' false shifts h r1 which
        else if cur <? other then
          if negb which then gcd_binary_2 p d' true shifts r0 (r1 - r0) (negb which)
          else gcd_binary_2 p d' true shifts (r0 - r1) r1 (negb which)
        else if which then gcd_binary_2 p d' true shifts r0 (r1 - r0) which
        else gcd_binary_2 p d' true shifts (r0 - r1) r1 which
    end.
  (** lines 132-140 *)
  Fixpoint gcd_binary_1 (p : ity) (r : nat) (u v shifts : Z) : res Z :=
    match r with
    | O => Fuel
    | S r' =>
        if negb (Z.odd u) && negb (Z.odd v) then
          a <- shr p u 1 ;; b <- shr p v 1 ;; gcd_binary_1 p r' a b (shifts + 1)
        else gcd_binary_2 p r' false shifts u v (Z.odd u)
    end.
  (** lines 141-147 *)
  Definition gcd_binary (t : ity) (r : nat) (u v : Z) : res Z :=
    g <- (if negb (u =? 0) && negb (v =? 0) then gcd_binary_1 (promote il t) r u v 0
          else arith (promote il t) (u + v)) ;;
    Ok (conv t g).
  (** lines 173-221, 250-254: unsigned types; signed types through their absolute values *)
  Definition gcd (t : ity) (r : nat) (a b : Z) : res Z :=
    if sgn t then
      x <- abs_c t a ;; y <- abs_c t b ;;
      g <- gcd_binary (uns t) r (conv (uns t) x) (conv (uns t) y) ;; Ok (conv t g)
    else gcd_binary t r a b.

  (** lines 23-30 *)
  Fixpoint gcd_euclidean (t : ity) (r : nat) (a b : Z) : res Z :=
    match r with
    | O => Fuel
    | S r' =>
        if a =? 0 then Ok b
        else
          m <- crem (promote il t) b a ;;
          if m =? 0 then Ok a
          else x <- crem (promote il t) a (conv t m) ;; gcd_euclidean t r' (conv t x) (conv t m)
    end.

  (** ** math/lcm.hpp *)

  (** lines 19-32 *)
  Definition lcm_euclidean (t : ity) (r : nat) (a b : Z) : res Z :=
    temp <- gcd_euclidean t r a b ;;
    if negb (temp =? 0) then
      q <- cdiv (promote il t) a temp ;; v <- arith (promote il t) (q * b) ;; Ok (conv t v)
    else Ok 0.
  (** lines 34-78, 106-110 *)
  Definition lcm (t : ity) (r : nat) (a b : Z) : res Z :=
    x <- lcm_euclidean t r a b ;;
    if sgn t && (x <? 0) then v <- arith (promote il t) (- x) ;; Ok (conv t v) else Ok x.

  (** ** rational/rational.hpp.  A rational is the pair of its numerator and denominator; [None]
      is the exception bad_rational. *)
  Variable t : ity.
  Variable r : nat.
  Definition rat : Type := Z * Z.

  (** lines 92-94 *)
  Definition of_int (n : Z) : rat := (n, 1).
  (** lines 50-52, 71-79, 95-97 *)
  Definition make (n d : Z) : res (option rat) :=
    if d =? 0 then Ok None
    else
      g <- (if n =? 0 then Ok d
            else g <- gcd t r n d ;; q <- cdiv t d g ;; if q <? 0 then arith t (- g) else Ok g) ;;
      a <- cdiv t n g ;; b <- cdiv t d g ;; Ok (Some (a, b)).
  (** lines 120-137: += ([plus] = true) and -=.  [alias] = true: rhs is the object itself, so
      reads of rhs see the updates made so far. *)
  Definition add_assign (plus alias : bool) (x y : rat) : res rat :=
    let rhs s := if alias then s else y in
    g <- gcd t r (snd x) (snd (rhs x)) ;;
    den <- cdiv t (snd x) g ;;
    let s := (fst x, den) in
    e <- cdiv t (snd (rhs s)) g ;;
    u <- arith t (fst s * e) ;; v <- arith t (fst (rhs s) * snd s) ;;
    num <- arith t (if plus then u + v else u - v) ;;
    let s := (num, snd s) in
    g <- gcd t r (fst s) g ;;
    num <- cdiv t (fst s) g ;;
    let s := (num, snd s) in
    f <- cdiv t (snd (rhs s)) g ;;
    den <- arith t (snd s * f) ;;
    Ok (fst s, den).
  (** lines 138-144 *)
  Definition mul_assign (alias : bool) (x y : rat) : res rat :=
    let rhs s := if alias then s else y in
    gcd1 <- gcd t r (fst x) (snd (rhs x)) ;;
    gcd2 <- gcd t r (fst (rhs x)) (snd x) ;;
    a <- cdiv t (fst x) gcd1 ;; b <- cdiv t (fst (rhs x)) gcd2 ;; num <- arith t (a * b) ;;
    let s := (num, snd x) in
    a <- cdiv t (snd s) gcd2 ;; b <- cdiv t (snd (rhs s)) gcd1 ;; den <- arith t (a * b) ;;
    Ok (fst s, den).
  (** lines 145-161 *)
  Definition div_assign (alias : bool) (x y : rat) : res (option rat) :=
    let rhs s := if alias then s else y in
    if fst (rhs x) =? 0 then Ok None
    else if fst x =? 0 then Ok (Some x)
    else
      gcd1 <- gcd t r (fst x) (fst (rhs x)) ;;
      gcd2 <- gcd t r (snd (rhs x)) (snd x) ;;
      a <- cdiv t (fst x) gcd1 ;; b <- cdiv t (snd (rhs x)) gcd2 ;; num <- arith t (a * b) ;;
      let s := (num, snd x) in
      a <- cdiv t (snd s) gcd2 ;; b <- cdiv t (fst (rhs s)) gcd1 ;; den <- arith t (a * b) ;;
      let s := (fst s, den) in
      if snd s <? 0 then n <- arith t (- fst s) ;; d <- arith t (- snd s) ;; Ok (Some (n, d))
      else Ok (Some s).
  (** lines 175-182 *)
  Definition inc (x : rat) : res rat := n <- arith t (fst x + snd x) ;; Ok (n, snd x).
  Definition dec_r (x : rat) : res rat := n <- arith t (fst x - snd x) ;; Ok (n, snd x).

  (** ** rational/arithmetic.hpp *)

  (** lines 26-32; values.hpp 19-27 *)
  Definition neg (x : rat) : res rat := n <- arith t (- fst x) ;; Ok (n, snd x).
  Definition abs_r (x : rat) : res rat := if 0 <=? fst x then Ok x else neg x.
  (** lines 40-96 and 108-164: operator+ ([plus] = true) and operator- *)
  Definition add (plus : bool) (lhs rhs : rat) : res rat :=
    g <- gcd t r (snd lhs) (snd rhs) ;;
    den <- cdiv t (snd lhs) g ;;
    e <- cdiv t (snd rhs) g ;;
    u <- arith t (fst lhs * e) ;; v <- arith t (fst rhs * den) ;;
    num <- arith t (if plus then u + v else u - v) ;;
    g <- gcd t r num g ;;
    n <- cdiv t num g ;;
    f <- cdiv t (snd rhs) g ;;
    d <- arith t (den * f) ;;
    Ok (n, d).
  (** lines 176-198 *)
  Definition mul (lhs rhs : rat) : res rat :=
    gcd1 <- gcd t r (fst lhs) (snd rhs) ;;
    gcd2 <- gcd t r (fst rhs) (snd lhs) ;;
    a <- cdiv t (fst lhs) gcd1 ;; b <- cdiv t (fst rhs) gcd2 ;; n <- arith t (a * b) ;;
    a <- cdiv t (snd lhs) gcd2 ;; b <- cdiv t (snd rhs) gcd1 ;; d <- arith t (a * b) ;;
    Ok (n, d).
  (** lines 210-243 *)
  Definition div (lhs rhs : rat) : res (option rat) :=
    if fst rhs =? 0 then Ok None
    else if fst lhs =? 0 then Ok (Some lhs)
    else
      gcd1 <- gcd t r (fst lhs) (fst rhs) ;;
      gcd2 <- gcd t r (snd rhs) (snd lhs) ;;
      a <- cdiv t (fst lhs) gcd1 ;; b <- cdiv t (snd rhs) gcd2 ;; num <- arith t (a * b) ;;
      a <- cdiv t (snd lhs) gcd2 ;; b <- cdiv t (fst rhs) gcd1 ;; den <- arith t (a * b) ;;
      if den <? 0 then n <- arith t (- num) ;; d <- arith t (- den) ;; Ok (Some (n, d))
      else Ok (Some (num, den)).

  (** ** rational/comparison.hpp *)

  (** lines 19-33 *)
  Definition eq_rr (x y : rat) : bool := (fst x =? fst y) && (snd x =? snd y).
  Definition eq_ri (x : rat) (n : Z) : bool := (snd x =? 1) && (fst x =? n).
  (** lines 57-77; [reverse] is 0 or 1 *)
  Fixpoint less_impl_2 (k : nat) (d1 q1 r1 d2 q2 r2 : Z) (reverse : bool) : res bool :=
    match k with
    | O => Fuel
    | S k' =>
        if negb (q1 =? q2) then Ok (if reverse then q2 <? q1 else q1 <? q2)
        else if (r1 =? 0) || (r2 =? 0) then
          Ok (if r1 =? r2 then false else negb (Bool.eqb (negb (r1 =? 0)) (negb reverse)))
        else
          q1' <- cdiv t d1 r1 ;; r1' <- crem t d1 r1 ;;
          q2' <- cdiv t d2 r2 ;; r2' <- crem t d2 r2 ;;
          less_impl_2 k' r1 q1' r1' r2 q2' r2' (negb reverse)
    end.
  (** lines 78-97 *)
  Fixpoint less_impl_1 (k : nat) (d1 q1 r1 d2 q2 r2 : Z) : res bool :=
    match k with
    | O => Fuel
    | S k' =>
        if r2 <? 0 then q <- arith t (q2 - 1) ;; s <- arith t (r2 + d2) ;; less_impl_1 k' d1 q1 r1 d2 q s
        else less_impl_2 k' d1 q1 r1 d2 q2 r2 false
    end.
  (** lines 98-115 *)
  Fixpoint less_impl (k : nat) (rhs : rat) (d1 q1 r1 : Z) : res bool :=
    match k with
    | O => Fuel
    | S k' =>
        if r1 <? 0 then q <- arith t (q1 - 1) ;; s <- arith t (r1 + d1) ;; less_impl k' rhs d1 q s
        else
          q2 <- cdiv t (fst rhs) (snd rhs) ;; r2 <- crem t (fst rhs) (snd rhs) ;;
          less_impl_1 k' d1 q1 r1 (snd rhs) q2 r2
    end.
  (** lines 132-139 *)
  Definition less_rr (lhs rhs : rat) : res bool :=
    q <- cdiv t (fst lhs) (snd lhs) ;; s <- crem t (fst lhs) (snd lhs) ;; less_impl r rhs (snd lhs) q s.
  (** lines 117-130: the recursive call passes [r + lhs.denominator()] for [q] and [q - 1] for [r] *)
  Fixpoint less_impl_ri (k : nat) (lhs : rat) (rhs q s : Z) : res bool :=
    match k with
    | O => Fuel
    | S k' =>
        if s <? 0 then a <- arith t (s + snd lhs) ;; b <- arith t (q - 1) ;; less_impl_ri k' lhs rhs a b
        else Ok (q <? rhs)
    end.
  (** lines 140-147 *)
  Definition less_ri (lhs : rat) (rhs : Z) : res bool :=
    q <- cdiv t (fst lhs) (snd lhs) ;; s <- crem t (fst lhs) (snd lhs) ;; less_impl_ri r lhs rhs q s.
  (** lines 148-152 *)
  Definition less_ir (lhs : Z) (rhs : rat) : res bool :=
    if negb (eq_ri rhs lhs) then b <- less_ri rhs lhs ;; Ok (negb b) else Ok false.
  (** lines 154-200: the other operators *)
  Definition greater_rr (x y : rat) : res bool := less_rr y x.
  Definition le_rr (x y : rat) : res bool := b <- less_rr y x ;; Ok (negb b).
  Definition ge_rr (x y : rat) : res bool := b <- less_rr x y ;; Ok (negb b).
  Definition greater_ri (x : rat) (n : Z) : res bool := less_ir n x.
  Definition le_ri (x : rat) (n : Z) : res bool := b <- less_ir n x ;; Ok (negb b).
  Definition ge_ri (x : rat) (n : Z) : res bool := b <- less_ri x n ;; Ok (negb b).
End Rat.
