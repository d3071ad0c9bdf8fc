(** Models of sprout/random/detail/const_mod.hpp, linear_congruential.hpp,
    inversive_congruential.hpp, additive_combine.hpp and shuffle_order.hpp.
    Nothing is proved here.

    An engine is its state; operator() maps a state to the new state (and the value returned).
    The const overload returns a random_result with the same value and the next engine, so one
    function models both.  Streams and seed sequences are not modelled.  A failed SPROUT_ASSERT
    is [UB].  [il] is the lg of int as in BitModel; [r] is the call depth. *)
From Coq Require Import List Arith ZArith Bool.
From Verif Require Import Base BitModel RatModel ShaModel.
Import ListNotations.
Open Scope Z_scope.

(** std::uintmax_t, 64 bits *)
Definition umax : ity := Ity false 3.

Section Mod.
  Variable il : nat.
  (** const_mod<IntType, m>; m <> 0 (static_assert at lines 30-31) *)
  Variable t : ity.
  Variable m : Z.

  Let p := promote il t.
  Let u := promote il (uns t).
  (** an expression of the promoted type, passed or returned as IntType *)
  Let ex (z : Z) : res Z := v <- arith p z ;; Ok (conv t v).

  (** ((unsigned_m() - 1) & unsigned_m()) == 0; unsigned_m() is m here, lines 60-62 *)
  Definition pow2 : bool := Z.land (m - 1) m =? 0.
  (** an expression of the unsigned type, masked with unsigned_m() - 1 *)
  Let masked (z : res Z) : res Z := v <- z ;; Ok (conv t (Z.land v (m - 1))).

  (** detail/const_mod.hpp 57-59 *)
  Definition cm_sub (a b : Z) : res Z :=
    if a <? b then d <- arith p (b - a) ;; ex (m - d) else ex (a - b).
  (** lines 39-41 *)
  Definition cm_small (a x : Z) : res Z :=
    v <- arith p (a * x) ;; w <- crem p v m ;; Ok (conv t w).
  (** lines 42-49 *)
  Definition cm_schrage (a value : Z) : res Z :=
    q <- cdiv p m a ;; r <- crem p m a ;;
    if r <? q then
      v <- crem p value q ;; y <- ex (a * v) ;;
      w <- cdiv p value q ;; z <- ex (r * w) ;;
      cm_sub y z
    else UB.
  (** lines 50-56; modulus is converted to uintmax_t *)
  Definition cm_general (a b : Z) : res Z :=
    if conv umax m <=? Z.quot (tmax umax) (conv umax m) then
      v <- arith umax (conv umax a * conv umax b) ;;
      w <- crem umax v (conv umax m) ;; Ok (conv t w)
    else UB.
  (** lines 179-185 *)
  Definition cm_add (x c : Z) : res Z :=
    if pow2 then masked (arith u (conv (uns t) x + conv (uns t) c))
    else if c =? 0 then Ok x
    else
      d <- arith p (m - c) ;;
      if x <? d then ex (x + c) else ex (x - d).
  (** lines 186-194 *)
  Definition cm_mult (a x : Z) : res Z :=
    if pow2 then masked (arith u (conv (uns t) a * conv (uns t) x))
    else if a =? 0 then Ok 0
    else if a =? 1 then Ok x
    else
      q <- cdiv p (tmax t) a ;;
      if m <=? q then cm_small a x
      else
        b <- (if sgn t then x <- crem p m a ;; y <- cdiv p m a ;; Ok (x <? y) else Ok false) ;;
        if b then cm_schrage a x else cm_general a x.
  (** lines 195-201 *)
  Definition cm_mult_add (a x c : Z) : res Z :=
    if pow2 then
      masked (v <- arith u (conv (uns t) a * conv (uns t) x) ;; arith u (v + conv (uns t) c))
    else if a =? 0 then Ok c
    else
      d <- arith p (tmax t - c) ;;
      q <- cdiv p d a ;;
      if m <=? q then
        v <- arith p (a * x) ;; w <- arith p (v + c) ;; y <- crem p w m ;; Ok (conv t y)
      else v <- cm_mult a x ;; cm_add v c.
  (** lines 33-38, 202-204: the exponent is a uintmax_t *)
  Fixpoint cm_pow_1 (r : nat) (a exponent result : Z) : res Z :=
    match r with
    | O => Fuel
    | S r =>
        if negb (exponent =? 0) then
          a2 <- cm_mult a a ;;
          v <- (if exponent mod 2 =? 1 then cm_mult result a else Ok result) ;;
          cm_pow_1 r a2 (exponent / 2) v
        else Ok result
    end.
  Definition cm_pow (r : nat) (a exponent : Z) : res Z := cm_pow_1 r a exponent 1.

  (** lines 138-151: invert_euclidian_1, _2, _3 for m <> 0.  [r] counts the rounds of three calls. *)
  Fixpoint invert_1 (r : nat) (l1 l2 n q : Z) : res Z :=
    match r with
    | O => Fuel
    | S r =>
        k <- cdiv p q n ;;
        v <- arith p (k * l2) ;; l1 <- ex (l1 + v) ;;
        w <- arith p (k * n) ;; q <- ex (q - w) ;;
        if q =? 0 then Ok l2
        else
          k <- cdiv p n q ;;
          v <- arith p (k * l1) ;; l2 <- ex (l2 + v) ;;
          w <- arith p (k * q) ;; n <- ex (n - w) ;;
          if n =? 0 then ex (m - l1) else invert_1 r l1 l2 n q
    end.
  Definition invert_e (r : nat) (c : Z) : res Z :=
    if 0 <? c then (if c =? 1 then Ok 1 else invert_1 r 0 1 c m) else UB.
  (** lines 205-210 *)
  Definition invert (r : nat) (x : Z) : res Z := if x =? 0 then Ok 0 else invert_e r x.

  (** ** linear_congruential.hpp: linear_congruential_engine<UIntType, a, c, m> *)
  Variable a c : Z.
  (** lines 47-52 *)
  Definition lcg_min : Z := if c =? 0 then 1 else 0.
  Definition lcg_max : Z := m - 1.
  (** lines 54-65; inversive_congruential.hpp 48-59 is the same text *)
  Definition init_seed (x0 : Z) : res Z :=
    x <- crem p x0 m ;;
    let x := conv t x in
    x <- (if (x <=? 0) && negb (x =? 0) then ex (x + m) else Ok x) ;;
    let x := if (c =? 0) && (x =? 0) then 1 else x in
    if (lcg_min <=? x) && (x <=? lcg_max) then Ok x else UB.
  (** lines 204-210 *)
  Definition lcg_step (x : Z) : res Z := cm_mult_add a x c.

  (** lines 103-124: one turn of the loop on (a_zm1_over_gcd, a_km1_over_gcd) *)
  Fixpoint discard_loop (r : nat) (exponent g az ak : Z) : res Z :=
    match r with
    | O => Fuel
    | S r =>
        if negb (exponent =? 0) then
          az' <- (if exponent mod 2 =? 1 then
                    v <- cm_mult az ak ;; w <- cm_add az ak ;; cm_mult_add g v w
                  else Ok az) ;;
          v <- cm_mult ak ak ;; w <- cm_add ak ak ;; ak <- cm_mult_add g v w ;;
          discard_loop r (exponent / 2) g az' ak
        else Ok az
    end.
  (** lines 125-162, 211-248: discard(z), z an unsigned long long *)
  Definition discard (r : nat) (z x : Z) : res Z :=
    b <- arith p (a - 1) ;;
    b_inv <- invert r (conv t b) ;;
    b_gcd <- cm_mult (conv t b) b_inv ;;
    if b_gcd =? 1 then
      a_z <- cm_pow r a z ;;
      v <- cm_mult c b_inv ;; w <- ex (a_z - 1) ;; y <- cm_mult v w ;;
      cm_mult_add a_z x y
    else
      k <- cdiv p b b_gcd ;;
      az <- discard_loop r z b_gcd 0 (conv t k) ;;
      v <- cm_mult_add b_gcd az 1 ;;
      i <- invert r (conv t k) ;; w <- cm_mult c az ;; y <- cm_mult i w ;;
      cm_mult_add v x y.

  (** ** inversive_congruential.hpp 126-134; [m] is the template's p, [c] its b *)
  Definition inversive_step (r : nat) (x : Z) : res Z := v <- invert r x ;; cm_mult_add a v c.
End Mod.

(** linear_congruential.hpp 292-293.
    std::uint_fast32_t has 64 bits on the usual 64-bit platforms; both sizes are covered. *)
Definition minstd_rand0 (il : nat) (t : ity) : Z -> res Z := lcg_step il t 2147483647 16807 0.
Definition minstd_rand (il : nat) (t : ity) : Z -> res Z := lcg_step il t 2147483647 48271 0.

(** inversive_congruential.hpp 178 *)
Definition hellekalek1995 (il : nat) (t : ity) (r : nat) : Z -> res Z :=
  inversive_step il t 2147483647 9102 (2147483647 - 36884165) r.

(** ** linear_congruential.hpp 298-373: rand48 *)
Definition rand48_a : Z := Z.lor 3740067437 (5 * 2 ^ 32).
Definition rand48_step (il : nat) (x : Z) : res Z := lcg_step il u64 (2 ^ 48) rand48_a 11 x.
(** lines 316-318; then the constructor of lcf_ *)
Definition rand48_seed (il : nat) (x0 : Z) : res Z :=
  v <- shl true u64 (conv u64 x0) 16 ;; init_seed il u64 (2 ^ 48) 11 (Z.lor v 13070).
(** lines 325-331, 345-350: the value returned and the next state *)
Definition rand48 (il : nat) (x : Z) : res (Z * Z) :=
  y <- rand48_step il x ;; v <- shr u32 (conv u32 y) 17 ;; Ok (conv u32 v, y).

(** ** additive_combine.hpp 53-65, 125-135.  Both engines have the unsigned result type [t], not
    narrower than int. *)
Definition additive_combine (t : ity) (m1 : Z) (step1 step2 : Z -> res Z) (s : Z * Z) : res (Z * (Z * Z)) :=
  val1 <- step1 (fst s) ;; val2 <- step2 (snd s) ;;
  v <- (if val2 <? val1 then arith t (val1 - val2)
        else x <- arith t (val1 - val2) ;; y <- arith t (x + m1) ;; arith t (y - 1)) ;;
  Ok (v, (val1, val2)).
(** lines 169-172 *)
Definition ecuyer1988 (il : nat) (t : ity) : Z * Z -> res (Z * (Z * Z)) :=
  additive_combine t 2147483563 (lcg_step il t 2147483563 40014 0) (lcg_step il t 2147483399 40692 0).

(** ** shuffle_order.hpp over any base engine with states [S], unsigned result type [t] not
    narrower than int, and bounds [bmin], [bmax].  std::size_t has 64 bits. *)
Section Shuffle.
  Variable S : Type.
  Variable step : S -> res (Z * S).
  Variable t : ity.
  Variable bmin bmax : Z.
  Variable k : nat.

  (** lines 82-139: the table is filled with k values, and one more becomes y_ *)
  Fixpoint fill (n : nat) (s : S) : res (list Z * S) :=
    match n with
    | O => Ok ([], s)
    | Datatypes.S n => x <- step s ;; l <- fill n (snd x) ;; Ok (fst x :: fst l, snd l)
    end.
  Definition shuffle_init (s : S) : res (S * list Z * Z) :=
    l <- fill k s ;; x <- step (snd l) ;; Ok (snd x, fst l, fst x).
  (** lines 226-240 (and 153-178, the same arithmetic in the const overload) *)
  Definition shuffle_index (brange off : Z) : res Z :=
    let kz := Z.of_nat k in
    if kz =? 1 then Ok 0
    else if brange <? Z.quot (tmax t) kz then
      v <- arith u64 (kz * off) ;; b <- arith t (brange + 1) ;; w <- cdiv u64 v b ;; Ok (conv t w)
    else if brange <? Z.quot (tmax umax) kz then
      v <- arith umax (off * kz) ;; b <- arith umax (brange + 1) ;; w <- cdiv umax v b ;; Ok (conv t w)
    else UB.
  Definition shuffle_step (e : S * list Z * Z) : res (Z * (S * list Z * Z)) :=
    let '(s, v, y) := e in
    brange <- arith t (bmax - bmin) ;;
    off <- arith t (y - bmin) ;;
    j <- shuffle_index brange off ;;
    y <- rd v (Z.to_nat j) ;;
    x <- step s ;;
    v <- wr v (Z.to_nat j) (fst x) ;;
    Ok (y, (snd x, v, y)).
End Shuffle.
