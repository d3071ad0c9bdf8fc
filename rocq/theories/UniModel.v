(** Model of sprout/random/detail/signed_unsigned_tools.hpp, uniform_int_distribution.hpp and
    uniform_smallint.hpp over an engine with an integral result type.  Nothing is proved here.

    The result type [t] of the distribution and the result type [b] of the engine are not narrower
    than int, so no operand is promoted.  The engine is a step function that returns a value and
    its new state, with bounds [bmin] and [bmax].  The template recursion limit of the const path
    under SPROUT_WORKAROUND_NOT_TERMINATE_RECURSIVE_CONSTEXPR_FUNCTION_TEMPLATE, engines of
    floating-point results, and the streaming operators are not modelled. *)
From Coq Require Import List Arith ZArith Bool.
From Verif Require Import Base BitModel RatModel.
Import ListNotations.
Open Scope Z_scope.

(** signed_unsigned_tools.hpp 18-40; the result is of type uns t *)
Definition subtract (t : ity) (x y : Z) : res Z :=
  if sgn t then
    if 0 <=? y then arith (uns t) (conv (uns t) x - conv (uns t) y)
    else if 0 <=? x then
      y1 <- arith t (y + 1) ;; y2 <- arith t (- y1) ;;
      z <- arith (uns t) (conv (uns t) x + conv (uns t) y2) ;; arith (uns t) (z + 1)
    else z <- arith t (x - y) ;; Ok (conv (uns t) z)
  else arith t (x - y).
(** lines 42-64; [t1] is unsigned *)
Definition add_to (t1 t2 : ity) (x y : Z) : res Z :=
  if sgn t2 then
    if 0 <=? y then arith t2 (conv t2 x + y)
    else
      y1 <- arith t2 (y + 1) ;; y2 <- arith t2 (- y1) ;;
      if conv t1 y2 <=? x then
        z <- arith t1 (x - conv t1 y2) ;; z <- arith t1 (z - 1) ;; Ok (conv t2 z)
      else arith t2 (conv t2 x + y)
  else arith t2 (conv t2 x + y).

Section Uniform.
  Variable St : Type.
  Variable step : St -> res (Z * St).
  Variable b : ity.             (* Engine::result_type *)
  Variables bmin bmax : Z.      (* eng.min(), eng.max() *)
  Let B := uns b.

  (** one draw: subtract<base_result>(static_cast<base_result>(eng()), bmin) *)
  Definition draw_off (s : St) : res (Z * St) :=
    o <- step s ;; d <- subtract b (conv b (fst o)) bmin ;; Ok (d, snd o).

  (** ** uniform_int_distribution.hpp *)

  Section At.
    Variable t : ity.           (* T *)
    Let R := uns t.
    Variables lo range brange : Z.

    (** lines 58-66, and in the const path generate_uniform_int_true_2 *)
    Definition wide_limit : res Z :=
      b1 <- arith R (conv R brange + 1) ;;
      if range =? tmax R then
        q <- cdiv R range b1 ;; m <- crem R range b1 ;;
        if m =? conv R brange then arith R (q + 1) else Ok q
      else r1 <- arith R (range + 1) ;; cdiv R r1 b1.
    (** lines 69-75, and generate_uniform_int_true_2_1, _2_1_1; [true] is the return in line 72 *)
    Fixpoint digits (k : nat) (limit result mult : Z) (s : St) : res (bool * Z * Z * St) :=
      match k with
      | O => Fuel
      | S k =>
        if mult <=? limit then
          o <- draw_off s ;;
          let c := Ity false (Nat.max (lg b) (lg t)) in
          p <- arith c (fst o * mult) ;;
          result <- arith R (result + conv R p) ;;
          l <- arith R (mult * conv R brange) ;;
          h <- arith R (range - mult) ;; h <- arith R (h + 1) ;;
          if l =? h then Ok (true, result, mult, snd o)
          else
            b1 <- arith R (conv R brange + 1) ;;
            mult <- arith R (mult * b1) ;;
            digits k limit result mult (snd o)
        else Ok (false, result, mult, s)
      end.
    (** lines 57-94, and generate_uniform_int_true_2 .. _2_4; [rec] is the recursive call *)
    Fixpoint wide (rec : ity -> Z -> Z -> St -> res (Z * St)) (k : nat) (s : St) : res (Z * St) :=
      match k with
      | O => Fuel
      | S k1 =>
        limit <- wide_limit ;;
        o <- digits k limit 0 1 s ;;
        let '(ret, result, mult, s) := o in
        if ret : bool then Ok (conv t result, s)
        else
          q <- cdiv R range mult ;;
          i <- rec R 0 (conv R q) s ;;
          mx <- cdiv R (tmax R) mult ;;
          if mx <? fst i then wide rec k1 (snd i)
          else
            inc <- arith R (fst i * mult) ;;
            result <- arith R (result + inc) ;;
            if (result <? inc) || (range <? result) then wide rec k1 (snd i)
            else x <- add_to R t result lo ;; Ok (x, snd i)
      end.
    (** lines 96-104, and generate_uniform_int_true_3 *)
    Definition bucket_size : res Z :=
      r1 <- arith B (conv B range + 1) ;;
      if brange =? tmax B then
        q <- cdiv B brange r1 ;; m <- crem B brange r1 ;;
        if m =? conv B range then arith B (q + 1) else Ok q
      else b1 <- arith B (brange + 1) ;; cdiv B b1 r1.
    (** lines 105-110, and generate_uniform_int_true_3_1, _3_1_1 *)
    Fixpoint bucket (k : nat) (size : Z) (s : St) : res (Z * St) :=
      match k with
      | O => Fuel
      | S k =>
        o <- draw_off s ;;
        result <- cdiv B (fst o) size ;;
        if result <=? conv B range then x <- add_to B t result lo ;; Ok (x, snd o)
        else bucket k size (snd o)
      end.
  End At.

  (** lines 35-112 with [cst] = false; the const path, generate_uniform_int with std::true_type,
      with [cst] = true: it differs in lines 51-55, where the former draws twice.
      [r] bounds the depth of the recursion, [k] the turns of the loops. *)
  Fixpoint uniform_int (cst : bool) (r k : nat) (t : ity) (lo hi : Z) (s : St) : res (Z * St) :=
    match r with
    | O => Fuel
    | S r =>
      range <- subtract t hi lo ;;
      brange <- subtract b bmax bmin ;;
      if range =? 0 then Ok (lo, s)
      else if brange =? range then
        s <- (if cst then Ok s else o <- draw_off s ;; Ok (snd o)) ;;
        o <- draw_off s ;;
        x <- add_to B t (fst o) lo ;; Ok (x, snd o)
      else if brange <? range then wide t lo range brange (uniform_int cst r k) k s
      else size <- bucket_size range brange ;; bucket t lo range k size s
    end.

  (** ** uniform_smallint.hpp 95-111 ([cst] = false), 128-182 ([cst] = true).  The bounds of the
      engine are converted to the result type of the distribution by the call of subtract. *)
  Definition smallint (cst : bool) (t : ity) (lo hi : Z) (s : St) : res (Z * St) :=
    let R := uns t in
    range <- subtract t hi lo ;;
    base_range <- subtract t (conv t bmax) (conv t bmin) ;;
    o <- draw_off s ;;
    if conv B base_range <=? range then
      x <- add_to R t (conv R (fst o)) lo ;; Ok (x, snd o)
    else
      n <- (if cst then arith B (conv B range + 1) else n <- arith b (conv b range + 1) ;; Ok (conv B n)) ;;
      v <- crem B (fst o) n ;;
      x <- add_to R t (conv R v) lo ;; Ok (x, snd o).
End Uniform.
