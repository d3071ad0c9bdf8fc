(** Model of the floating-point functions of sprout/math that need no transcendental
    function: the code used when the compiler's built-in mathematical functions are switched
    off (SPROUT_CONFIG_DISABLE_BUILTIN_CMATH_FUNCTION and its relatives) or, for several of
    the functions, always.  Nothing is proved here.

    A binary floating-point number is a NaN, an infinity or a sign and a magnitude; the
    magnitude is an integer counting units of 2^-u for a fixed u large enough for every type
    at hand, so that 1.0 is 2^u units.  A type is [Fmt p lo hi]: p bits of precision, 2^lo
    units the smallest positive number and every number below 2^hi units.  Arithmetic is
    IEEE 754: the exact result rounded to nearest, ties to even, overflowing to an infinity;
    expressions are evaluated in the type of their operands (FLT_EVAL_METHOD 0).  The sign of
    a NaN produced by an invalid operation is not specified by IEEE 754; here it is that of
    x86.  [f] is the type of the argument, [c] the type float_compute chooses for it
    (math/detail/float_compute.hpp 17-20: double for float and double, long double for long
    double). *)
From Coq Require Import List Arith ZArith Bool.
From Verif Require Import Base BitModel.
Import ListNotations.
Open Scope Z_scope.

Record fmt : Type := Fmt { prec : Z; lo : Z; hi : Z }.

Inductive fl : Type :=
| Nan (neg : bool)
| Inf (neg : bool)
| Fin (neg : bool) (n : Z).

(** a / b rounded to the nearest integer, ties to even *)
Definition rne (a b : Z) : Z :=
  let q := a / b in
  let r := a mod b in
  if 2 * r <? b then q
  else if b <? 2 * r then q + 1
  else if Z.even q then q else q + 1.

(** The exponent of the last place of the numbers of type [f] near a / b (not negative). *)
Definition exq (f : fmt) (a b : Z) : Z := Z.max (lo f) (Z.log2 (a / b) + 1 - prec f).

(** a / b (not negative) rounded to [f] as if there were no largest number *)
Definition round_q (f : fmt) (a b : Z) : Z :=
  let k := exq f a b in rne a (b * 2 ^ k) * 2 ^ k.

Definition mk (f : fmt) (neg : bool) (a b : Z) : fl :=
  let n := round_q f a b in
  if 2 ^ hi f <=? n then Inf neg else Fin neg n.

(** The value of a finite number, in units. *)
Definition sg (neg : bool) (n : Z) : Z := if neg then - n else n.

(** unary minus *)
Definition fneg (x : fl) : fl :=
  match x with
  | Nan s => Nan (negb s)
  | Inf s => Inf (negb s)
  | Fin s n => Fin (negb s) n
  end.

Definition isneg (x : fl) : bool :=
  match x with Nan s | Inf s | Fin s _ => s end.

Definition bad : fl := Nan true.

(** x + y *)
Definition fadd (f : fmt) (x y : fl) : fl :=
  match x, y with
  | Nan s, _ => Nan s
  | _, Nan s => Nan s
  | Inf s, Inf t => if Bool.eqb s t then Inf s else bad
  | Inf s, Fin _ _ => Inf s
  | Fin _ _, Inf t => Inf t
  | Fin s n, Fin t m =>
      let z := sg s n + sg t m in
      if z =? 0 then Fin (s && t) 0 else mk f (z <? 0) (Z.abs z) 1
  end.

(** x - y *)
Definition fsub (f : fmt) (x y : fl) : fl :=
  match y with
  | Nan t => match x with Nan s => Nan s | _ => Nan t end
  | _ => fadd f x (fneg y)
  end.

(** x == y, x < y, x <= y *)
Definition feq (x y : fl) : bool :=
  match x, y with
  | Inf s, Inf t => Bool.eqb s t
  | Fin s n, Fin t m => sg s n =? sg t m
  | _, _ => false
  end.

Definition flt (x y : fl) : bool :=
  match x, y with
  | Nan _, _ | _, Nan _ => false
  | Inf s, Inf t => s && negb t
  | Inf s, Fin _ _ => s
  | Fin _ _, Inf t => negb t
  | Fin s n, Fin t m => sg s n <? sg t m
  end.

Definition fle (x y : fl) : bool := flt x y || feq x y.

(** static_cast between floating-point types: to [f] *)
Definition fcast (f : fmt) (x : fl) : fl :=
  match x with
  | Fin s n => mk f s n 1
  | _ => x
  end.

Section Flt.
  Variable u : Z.      (* 1.0 is 2^u units *)

  Definition one : Z := 2 ^ u.

  (** x * y *)
  Definition fmul (f : fmt) (x y : fl) : fl :=
    match x, y with
    | Nan s, _ => Nan s
    | _, Nan s => Nan s
    | Inf s, Inf t => Inf (xorb s t)
    | Inf s, Fin t m => if m =? 0 then bad else Inf (xorb s t)
    | Fin s n, Inf t => if n =? 0 then bad else Inf (xorb s t)
    | Fin s n, Fin t m => mk f (xorb s t) (n * m) one
    end.

  (** x / y *)
  Definition fdiv (f : fmt) (x y : fl) : fl :=
    match x, y with
    | Nan s, _ => Nan s
    | _, Nan s => Nan s
    | Inf _, Inf _ => bad
    | Inf s, Fin t _ => Inf (xorb s t)
    | Fin s _, Inf t => Fin (xorb s t) 0
    | Fin s n, Fin t m =>
        if m =? 0 then if n =? 0 then bad else Inf (xorb s t)
        else mk f (xorb s t) (n * one) m
    end.

  (** static_cast<f>(z) of an integer z *)
  Definition of_int (f : fmt) (z : Z) : fl := mk f (z <? 0) (Z.abs z * one) 1.

  (** static_cast<t>(x) to an integer type: truncation, undefined if the truncated value does
      not fit. *)
  Definition to_int (t : ity) (x : fl) : res Z :=
    match x with
    | Fin s n =>
        let z := sg s (n / one) in
        if (tmin t <=? z) && (z <=? tmax t) then Ok z else UB
    | _ => UB
    end.

  (** z computed in the integer type t: signed overflow is undefined, an unsigned type wraps.
      t is not narrower than int. *)
  Definition ari (t : ity) (z : Z) : res Z :=
    if sgn t then if (tmin t <=? z) && (z <=? tmax t) then Ok z else UB
    else Ok (conv t z).

  Definition zero : fl := Fin false 0.
  Definition inf : fl := Inf false.
  Definition ninf : fl := Inf true.
  Definition qnan : fl := Nan false.      (* quiet_NaN *)
  Definition f1 : fl := Fin false one.
  Definition f2 : fl := Fin false (2 * one).
  Definition half : fl := Fin false (2 ^ (u - 1)).
  (* numeric_limits<f>::epsilon() and numeric_limits<f>::min() *)
  Definition epsilon (f : fmt) : fl := Fin false (2 ^ (u + 1 - prec f)).
  Definition fl_min (f : fmt) : fl := Fin false (2 ^ (lo f + prec f - 1)).

  (** ** Classification *)

  (** math/isnan.hpp 35-42 *)
  Definition isnan (x : fl) : bool := negb (feq x x).

  (** math/isinf.hpp 36-44 *)
  Definition isinf (x : fl) : bool := feq x inf || feq x ninf.

  (** math/isfinite.hpp 37-44 *)
  Definition isfinite (x : fl) : bool := negb (isnan x || isinf x).

  (** math/iszero.hpp 25-26 *)
  Definition iszero (x : fl) : bool := feq x zero.

  (** math/issubnormal.hpp 29-33; [g] is double whatever the type of x *)
  Definition issubnormal_or_zero (g : fmt) (x : fl) : bool :=
    if flt zero x then flt x (fl_min g) else flt (fneg (fl_min g)) x.

  (** math/issubnormal.hpp 44-48 *)
  Definition issubnormal (g : fmt) (x : fl) : bool :=
    negb (isnan x) && negb (iszero x) && issubnormal_or_zero g x.

  (** math/isnormal.hpp 38-47 *)
  Definition isnormal (g : fmt) (x : fl) : bool :=
    negb (isnan x) && negb (isinf x) && negb (issubnormal_or_zero g x).

  Inductive fpc : Type := FP_NAN | FP_INFINITE | FP_ZERO | FP_SUBNORMAL | FP_NORMAL.

  (** math/fpclassify.hpp 40-51 *)
  Definition fpclassify (g : fmt) (x : fl) : fpc :=
    if isnan x then FP_NAN
    else if isinf x then FP_INFINITE
    else if iszero x then FP_ZERO
    else if issubnormal_or_zero g x then FP_SUBNORMAL
    else FP_NORMAL.

  (** math/copysign.hpp 38-39 *)
  Definition broken_signbit (x : fl) : bool := negb (isnan x) && flt x zero.

  (** math/signbit.hpp 43-52 *)
  Definition signbit (x : fl) : bool := broken_signbit x.

  (** math/copysign.hpp 57-73 *)
  Definition copysign (x y : fl) : fl :=
    if feq x zero then
      if feq y zero then y else if broken_signbit y then fneg zero else zero
    else if isnan x then
      if isnan y then y else if broken_signbit y then fneg qnan else qnan
    else if negb (Bool.eqb (broken_signbit y) (broken_signbit x)) then fneg x
    else x.

  (** math/fabs.hpp 44-53 *)
  Definition fabs (x : fl) : fl :=
    if isnan x then qnan
    else if feq x zero then zero
    else copysign x zero.

  (** ** Comparison *)

  (** math/isgreater.hpp 37-44 *)
  Definition isgreater (x y : fl) : bool := negb (isnan x) && negb (isnan y) && flt y x.

  (** math/isgreaterequal.hpp 37-44 *)
  Definition isgreaterequal (x y : fl) : bool := negb (isnan x) && negb (isnan y) && fle y x.

  (** math/isless.hpp 37-44 *)
  Definition isless (x y : fl) : bool := negb (isnan x) && negb (isnan y) && flt x y.

  (** math/islessequal.hpp 37-44 (the code has x < y) *)
  Definition islessequal (x y : fl) : bool := negb (isnan x) && negb (isnan y) && flt x y.

  (** math/islessgreater.hpp 37-44 *)
  Definition islessgreater (x y : fl) : bool :=
    negb (isnan x) && negb (isnan y) && (flt x y || flt y x).

  (** math/isunordered.hpp 37-44 *)
  Definition isunordered (x y : fl) : bool := isnan x || isnan y.

  (** math/fmin.hpp 45-58 *)
  Definition fmin (x y : fl) : fl :=
    if isnan y then x
    else if isnan x then y
    else if feq x ninf then x
    else if feq y inf then x
    else if feq y ninf then y
    else if feq x inf then y
    else if flt y x then y else x.

  (** math/fmax.hpp 45-58 *)
  Definition fmax (x y : fl) : fl :=
    if isnan y then x
    else if isnan x then y
    else if feq y ninf then x
    else if feq x inf then x
    else if feq x ninf then y
    else if feq y inf then y
    else if flt x y then y else x.

  (** math/fdim.hpp 45-57 *)
  Definition fdim (f : fmt) (x y : fl) : fl :=
    if isnan y then y
    else if isnan x then x
    else if feq x inf then inf
    else if feq x ninf then zero
    else if feq y inf then zero
    else if feq y ninf then inf
    else if flt y x then fsub f x y else zero.

  (** math/fma.hpp 47-60 *)
  Definition fma (f : fmt) (x y z : fl) : fl :=
    if isnan x then x
    else if isnan y then y
    else if isnan z then z
    else if isinf x && feq y zero then qnan
    else if isinf y && feq x zero then qnan
    else if (isinf x || isinf y) && isinf z
            && xorb (xorb (signbit x) (signbit y)) (signbit z) then qnan
    else fadd f (fmul f x y) z.

  (** sprout::max (algorithm/max.hpp) and math/equal_to.hpp 24-25 *)
  Definition max2 (x y : fl) : fl := if flt x y then y else x.
  Definition max3 (x y z : fl) : fl := max2 (max2 x y) z.

  (** math/equal_to.hpp 30-34 *)
  Definition equal_to (f : fmt) (x y : fl) : bool :=
    feq x y
    || fle (fabs (fsub f x y)) (fmul f (epsilon f) (max3 (fabs x) (fabs y) f1)).

  (** math/greater_equal.hpp 29-30, math/less_equal.hpp 29-30 *)
  Definition greater_equal (f : fmt) (x y : fl) : bool := equal_to f x y || flt y x.
  Definition less_equal (f : fmt) (x y : fl) : bool := equal_to f x y || flt x y.

  (** ** Rounding

      The outcome [Ok None] is the exception SPROUT_MATH_THROW_LARGE_FLOAT_ROUNDING throws;
      [ne] is SPROUT_NOERROR_LARGE_FLOAT_ROUNDING, with which it is its second argument
      instead (math/detail/config.hpp 23-27, config/suffix.hpp 254-261). *)
  Variable ne : bool.

  Definition um : ity := Ity false 3.      (* std::uintmax_t *)

  (** numeric_limits<t>::max() < x, numeric_limits<t>::min() > x: the integer is converted *)
  Definition above (f : fmt) (t : ity) (x : fl) : bool := flt (of_int f (tmax t)) x.
  Definition below (f : fmt) (t : ity) (x : fl) : bool := flt x (of_int f (tmin t)).

  (** math/floor.hpp 42-45 *)
  Definition floor_impl_1 (c : fmt) (x x0 : fl) : fl :=
    if equal_to c x x0 then x0 else fsub c x0 f1.

  (** math/floor.hpp 49-52 *)
  Definition floor_impl (c : fmt) (x : fl) : res fl :=
    if flt x zero then
      n <- to_int um (fneg x) ;; Ok (floor_impl_1 c x (fneg (of_int c n)))
    else n <- to_int um x ;; Ok (of_int c n).

  (** The frame floor, ceil and round share: math/floor.hpp 63-75, math/ceil.hpp 63-75,
      math/round.hpp 69-81. *)
  Definition rounding (f c : fmt) (impl : fl -> res fl) (x : fl) : res (option fl) :=
    if isnan x then Ok (Some x)
    else if feq x inf then Ok (Some inf)
    else if feq x ninf then Ok (Some ninf)
    else if feq x zero then Ok (Some x)
    else if above f um x || above f um (fneg x) then Ok (if ne then Some x else None)
    else y <- impl (fcast c x) ;; Ok (Some (fcast f y)).

  Definition floor (f c : fmt) (x : fl) : res (option fl) := rounding f c (floor_impl c) x.

  (** math/ceil.hpp 42-45 *)
  Definition ceil_impl_1 (c : fmt) (x x0 : fl) : fl :=
    if equal_to c x x0 then x0 else fadd c x0 f1.

  (** math/ceil.hpp 49-52 *)
  Definition ceil_impl (c : fmt) (x : fl) : res fl :=
    if flt x zero then n <- to_int um (fneg x) ;; Ok (fneg (of_int c n))
    else n <- to_int um x ;; Ok (ceil_impl_1 c x (of_int c n)).

  Definition ceil (f c : fmt) (x : fl) : res (option fl) := rounding f c (ceil_impl c) x.

  (** math/round.hpp 41-51 *)
  Definition round_impl_positive (c : fmt) (x x0 : fl) : fl :=
    if flt (fsub c x x0) half then x0 else fadd c x0 f1.
  Definition round_impl_nagative (c : fmt) (x x0 : fl) : fl :=
    if flt (fsub c x0 x) half then x0 else fsub c x0 f1.

  (** math/round.hpp 55-58 *)
  Definition round_impl (c : fmt) (x : fl) : res fl :=
    if flt x zero then
      n <- to_int um (fneg x) ;; Ok (round_impl_nagative c x (fneg (of_int c n)))
    else n <- to_int um x ;; Ok (round_impl_positive c x (of_int c n)).

  Definition round (f c : fmt) (x : fl) : res (option fl) := rounding f c (round_impl c) x.

  (** math/trunc.hpp 46-59 *)
  Definition trunc (f : fmt) (x : fl) : res (option fl) :=
    if isnan x then Ok (Some x)
    else if feq x inf then Ok (Some inf)
    else if feq x ninf then Ok (Some ninf)
    else if feq x zero then Ok (Some x)
    else if above f um x || above f um (fneg x) then Ok (if ne then Some x else None)
    else if flt x zero then n <- to_int um (fneg x) ;; Ok (Some (fneg (of_int f n)))
    else n <- to_int um x ;; Ok (Some (of_int f n)).

  (** math/integer_part.hpp 29-35 *)
  Definition integer_part (f : fmt) (x : fl) : res (option fl) :=
    if isnan x then Ok (Some x)
    else if feq x inf then Ok (Some inf)
    else if feq x ninf then Ok (Some ninf)
    else if feq x zero then Ok (Some x)
    else trunc f x.

  (** math/fractional_part.hpp 25-44 *)
  Definition fractional_part (f : fmt) (x : fl) : res (option fl) :=
    if isnan x then Ok (Some x)
    else if feq x inf || feq x ninf then Ok (Some (copysign zero x))
    else if feq x zero then Ok (Some x)
    else
      i <- integer_part f x ;;
      Ok (match i with
          | None => None
          | Some i => Some (if feq x i then fmul f zero x else copysign (fsub f x i) x)
          end).

  (** math/frac_int.hpp 26-45 *)
  Definition frac_int (f : fmt) (x : fl) : res (option (fl * fl)) :=
    i <- integer_part f x ;;
    Ok (match i with
        | None => None
        | Some i =>
            Some (if isnan x then (x, i)
                  else if feq x inf || feq x ninf then (copysign zero x, i)
                  else if feq x zero then (x, i)
                  else if feq x i then (fmul f zero x, i)
                  else (copysign (fsub f x i) x, i))
        end).

  (** math/is_integer.hpp 22-37 *)
  Definition is_integer (f : fmt) (x : fl) : res (option bool) :=
    if isfinite x then
      t <- trunc f x ;;
      Ok (match t with None => None | Some t => Some (feq x t) end)
    else Ok (Some false).

  (** The frame of the functions with an integer result of type [t]: math/ifloor.hpp 71-77,
      math/iceil.hpp 71-77, math/iround.hpp 78-85, math/itrunc.hpp 60-66.  With [ne] the value
      instead of the exception is static_cast<To>(x), undefined for such an x (for iround it is
      x converted to To on return, the same). *)
  Definition irounding (f : fmt) (t : ity) (impl : fl -> Z -> res Z) (x : fl) : res (option Z) :=
    if isnan x || isinf x then Ok (Some (tmin t))
    else if feq x zero then Ok (Some 0)
    else if above f t x || below f t x then
      if ne then z <- to_int t x ;; Ok (Some z) else Ok None
    else x0 <- to_int t x ;; z <- impl x x0 ;; Ok (Some z).

  Definition itrunc (f : fmt) (t : ity) : fl -> res (option Z) :=
    irounding f t (fun _ x0 => Ok x0).

  (** math/ifloor.hpp 56-59 *)
  Definition ifloor (f : fmt) (t : ity) : fl -> res (option Z) :=
    irounding f t (fun x x0 =>
      if greater_equal f x (of_int f x0) then Ok x0 else ari t (x0 - 1)).

  (** math/iceil.hpp 56-59 *)
  Definition iceil (f : fmt) (t : ity) : fl -> res (option Z) :=
    irounding f t (fun x x0 =>
      if less_equal f x (of_int f x0) then Ok x0 else ari t (x0 + 1)).

  (** math/iround.hpp 56-66 *)
  Definition iround (f : fmt) (t : ity) : fl -> res (option Z) :=
    irounding f t (fun x x0 =>
      if flt x zero then
        if flt (fsub f (of_int f x0) x) half then Ok x0 else ari t (x0 - 1)
      else if flt (fsub f x (of_int f x0)) half then Ok x0 else ari t (x0 + 1)).

  (** ** Powers of two *)

  (** detail/pow.hpp 42-47 with 20-23 (n is positive; n / 2 and n % 2 are its binary digits) *)
  Fixpoint pow_n_impl (f : fmt) (x : fl) (n : positive) : fl :=
    match n with
    | xH => x
    | xI m => let y := pow_n_impl f x m in fmul f x (fmul f y y)
    | xO m => let y := pow_n_impl f x m in fmul f y y
    end.

  (** detail/pow.hpp 59-67 *)
  Definition pow_n (f : fmt) (x : fl) (n : Z) : fl :=
    match n with
    | Z0 => f1
    | Zpos m => pow_n_impl f x m
    | Zneg m => fdiv f f1 (pow_n_impl f x m)
    end.

  (** math/scalbn.hpp 40-64 and math/ldexp.hpp 40-64 (the radix is 2) *)
  Definition scalbn (f c : fmt) (x : fl) (e : Z) : fl :=
    if isnan x then x
    else if feq x inf then inf
    else if feq x ninf then ninf
    else if e =? 0 then x
    else if feq x zero then x
    else fcast f (fmul c (fcast c x) (pow_n c f2 e)).
  Definition ldexp (f c : fmt) (x : fl) (e : Z) : fl := scalbn f c x e.

  (** math/logb.hpp 45-78 (and logb2.hpp 55-88).  The versions for x < 1 and x >= 1 have the
      same body.  [k] bounds the number of nested calls.  exp is a T in the code; it is an
      integer of small magnitude, so exp - 1 and exp + 1 are exact, and it is a Z here. *)
  Fixpoint logb_lo (k : nat) (c : fmt) (x x0 base : fl) (exp : Z) : res Z :=
    match k with
    | O => Fuel
    | S k' =>
        if flt base f1 then
          logb_lo k' c x (fmul c x0 f2) (fdiv c x (fdiv c x0 f2)) (exp - 1)
        else Ok exp
    end.
  Fixpoint logb_hi (k : nat) (c : fmt) (x x0 base : fl) (exp : Z) : res Z :=
    match k with
    | O => Fuel
    | S k' =>
        if negb (flt base f2) then
          logb_hi k' c x (fdiv c x0 f2) (fdiv c x (fmul c x0 f2)) (exp + 1)
        else Ok exp
    end.

  (** math/logb.hpp 81-103 *)
  Definition logb_impl_3 (k : nat) (c : fmt) (x x0 base : fl) (exp : Z) : res Z :=
    if flt base f1 then
      logb_lo k c x (fmul c x0 f2) (fdiv c x (fdiv c x0 f2)) (exp - 1)
    else if negb (flt base f2) then
      logb_hi k c x (fdiv c x0 f2) (fdiv c x (fmul c x0 f2)) (exp + 1)
    else Ok exp.

  (** math/logb.hpp 106-118.  [lg x] stands for itrunc<intmax_t>(trunc(log_a(2, x))): the
      logarithm itself is not modelled. *)
  Definition logb_impl (lg : fl -> Z) (k : nat) (c : fmt) (x : fl) : res Z :=
    let y := if flt x zero then fneg x else x in
    let x0 := pow_n c f2 (lg y) in
    logb_impl_3 k c y x0 (fdiv c y x0) (lg y).

  (** math/logb.hpp 127-141 with the result as an integer, for a finite x other than zero *)
  Definition logb_fin (lg : fl -> Z) (k : nat) (c : fmt) (x : fl) : res Z :=
    logb_impl lg k c (fcast c x).

  (** math/ilogb.hpp 49-58 and ilogb2.hpp 52-57.  FP_ILOGB0 and FP_ILOGBNAN are INT_MIN. *)
  Definition int : ity := Ity true 2.
  Definition ilogb (lg : fl -> Z) (k : nat) (c : fmt) (x : fl) : res Z :=
    if iszero x then Ok (tmin int)
    else if isinf x then Ok (tmax int)
    else if isnan x then Ok (tmin int)
    else e <- logb_fin lg k c x ;;
         if (tmin int <=? e) && (e <=? tmax int) then Ok e else UB.

  (** math/float2_sig_exp.hpp 26-46 (frexp) *)
  Definition float2_sig_exp (lg : fl -> Z) (k : nat) (f c : fmt) (x : fl) : res (fl * Z) :=
    if isnan x then Ok (x, 0)
    else if feq x inf then Ok (inf, 0)
    else if feq x ninf then Ok (ninf, 0)
    else if feq x zero then Ok (x, 0)
    else e <- ilogb lg k c x ;; Ok (fdiv f x (pow_n f f2 (e + 1)), e + 1).

  (** ** Remainders *)

  (** math/fmod.hpp 29-33 *)
  Definition fmod_impl_6 (c : fmt) (x y x1 : fl) : fl :=
    if fle y x1 then if flt x zero then fneg (fsub c x1 y) else fsub c x1 y
    else if flt x zero then fneg x1 else x1.

  (** math/fmod.hpp 37-43: [n] is idiff - i *)
  Fixpoint fmod_impl_5 (n : nat) (c : fmt) (x y x1 y1 z : fl) (iscy : Z) : fl :=
    match n with
    | O => fmod_impl_6 c x y (scalbn c c x1 iscy)
    | S n' =>
        if fle zero z then
          let w := fadd c z z in fmod_impl_5 n' c x y w y1 (fsub c w y1) iscy
        else
          let w := fadd c x1 x1 in fmod_impl_5 n' c x y w y1 (fsub c w y1) iscy
    end.

  (** math/fmod.hpp 47-74.  The loop counts up to idiff, so for idiff < 0 it would run until
      the counter overflows. *)
  Definition fmod_impl (lg : fl -> Z) (k : nat) (c : fmt) (x y : fl) : res fl :=
    let y := fabs y in
    let x1 := fabs x in
    if flt x1 y then Ok x
    else
      iscx <- ilogb lg k c x1 ;;
      iscy <- ilogb lg k c y ;;
      let idiff := iscx - iscy in
      if idiff =? 0 then Ok (fmod_impl_6 c x y x1)
      else if idiff <? 0 then UB
      else
        let x1 := scalbn c c x1 (- iscx) in
        let y1 := scalbn c c y (- iscy) in
        Ok (fmod_impl_5 (Z.to_nat idiff) c x y x1 y1 (fsub c x1 y1) iscy).

  (** math/fmod.hpp 87-102 *)
  Definition fmod (lg : fl -> Z) (k : nat) (f c : fmt) (x y : fl) : res fl :=
    if isnan y then
      if isnan x then Ok (if signbit y || signbit x then fneg qnan else qnan) else Ok y
    else if isnan x then Ok x
    else if feq x inf || feq x ninf || feq y zero then Ok (fneg qnan)
    else if feq x zero then Ok x
    else if feq y inf || feq y ninf then Ok x
    else r <- fmod_impl lg k c (fcast c x) (fcast c y) ;; Ok (fcast f r).

  (** math/is_odd.hpp 22-37, math/is_even.hpp 22-37 *)
  Definition is_odd (lg : fl -> Z) (k : nat) (f c : fmt) (x : fl) : res bool :=
    if isfinite x then
      r <- fmod lg k f c (if flt x zero then fneg x else x) f2 ;; Ok (feq r f1)
    else Ok false.
  Definition is_even (lg : fl -> Z) (k : nat) (f c : fmt) (x : fl) : res bool :=
    if isfinite x then r <- fmod lg k f c x f2 ;; Ok (feq r zero) else Ok false.

  (** math/rem_quo.hpp 37-42: iquo is an R, [t] here; iquo & 7 is the remainder modulo 8 *)
  Definition rem_quo_impl_7 (c : fmt) (t : ity) (x y : fl) (kk iquo : Z) (x1 z : fl)
    : res (fl * Z) :=
    if flt y z || (feq z y && negb (iquo mod 2 =? 0)) then
      q <- ari t (iquo + 1) ;;
      Ok (if flt x zero then fneg (fsub c x1 y) else fsub c x1 y, q mod 8 * kk)
    else Ok (if flt x zero then fneg x1 else x1, iquo mod 8 * kk).

  (** math/rem_quo.hpp 46-51 *)
  Definition rem_quo_impl_6 (c : fmt) (t : ity) (x y : fl) (kk iquo : Z) (x1 : fl)
    : res (fl * Z) :=
    if fle y x1 then
      q <- ari t (iquo + 1) ;;
      let w := fsub c x1 y in rem_quo_impl_7 c t x y kk q w (fadd c w w)
    else rem_quo_impl_7 c t x y kk iquo x1 (fadd c x1 x1).

  (** math/rem_quo.hpp 54-61: [n] is idiff - i *)
  Fixpoint rem_quo_impl_5 (n : nat) (c : fmt) (t : ity) (x y : fl) (kk iquo : Z)
      (x1 y1 z : fl) (iscy : Z) : res (fl * Z) :=
    match n with
    | O => rem_quo_impl_6 c t x y kk iquo (scalbn c c x1 iscy)
    | S n' =>
        q <- ari t (iquo + iquo) ;;
        if fle zero z then
          q <- ari t (q + 2) ;;
          let w := fadd c z z in rem_quo_impl_5 n' c t x y kk q w y1 (fsub c w y1) iscy
        else
          let w := fadd c x1 x1 in rem_quo_impl_5 n' c t x y kk q w y1 (fsub c w y1) iscy
    end.

  (** math/rem_quo.hpp 64-90 *)
  Definition rem_quo_impl (lg : fl -> Z) (k : nat) (c : fmt) (t : ity) (x y : fl)
    : res (fl * Z) :=
    let kk := if xorb (signbit x) (signbit y) then -1 else 1 in
    let y := fabs y in
    let x1 := fabs x in
    iscx <- ilogb lg k c x1 ;;
    iscy <- ilogb lg k c y ;;
    let idiff := iscx - iscy in
    if idiff <? 0 then rem_quo_impl_7 c t x y kk 0 x1 (fadd c x1 x1)
    else if idiff =? 0 then rem_quo_impl_6 c t x y kk 0 x1
    else
      let x1 := scalbn c c x1 (- iscx) in
      let y1 := scalbn c c y (- iscy) in
      rem_quo_impl_5 (Z.to_nat idiff) c t x y kk 0 x1 y1 (fsub c x1 y1) iscy.

  (** math/rem_quo.hpp 105-122; remainder (remainder.hpp 51-68) and quotient (quotient.hpp
      32-40) are its two components *)
  Definition rem_quo (lg : fl -> Z) (k : nat) (f c : fmt) (t : ity) (x y : fl)
    : res (fl * Z) :=
    if feq y zero then Ok (fneg qnan, 0)
    else if isnan y then
      if isnan x then Ok (if signbit y && signbit x then fneg qnan else qnan, 0) else Ok (y, 0)
    else if isnan x then Ok (x, 0)
    else if feq x inf || feq x ninf then Ok (fneg qnan, 0)
    else if feq x zero then Ok (x, 0)
    else if feq y inf || feq y ninf then Ok (x, 0)
    else
      '(r, q) <- rem_quo_impl lg k c t (fcast c x) (fcast c y) ;; Ok (fcast f r, q).

End Flt.
