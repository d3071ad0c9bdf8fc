(** sprout/cstdlib/str_to_float.hpp: reading floating-point numbers, as strtod and atof do. The arithmetic
    of the floating type is taken to be exact (rationals), long to be unbounded
    (so that exponent - num_decimals, computed as unsigned and converted back, is the difference). Nothing is proved in
    this file. *)
From Coq Require Import List ZArith Bool QArith.
From Verif Require Import Base CharModel.
Import ListNotations.

(** A finite value or HUGE_VAL. *)
Inductive fval := Fin (q : Q) | Huge.

Section Read.
  (** The characters, numeric_limits<FloatType>::min_exponent and max_exponent, and the recursion limit. *)
  Variable m : list Z.
  Variables (min_exponent max_exponent : Z).
  Variable D : nat.
  Local Open Scope Z_scope.

  (** 24-49 *)
  Fixpoint scale (d : nat) (number : Q) (exponent n : Z) (p10 : Q) : res Q :=
    match d with
    | O => Fuel
    | S d =>
        if n =? 0 then Ok number
        else scale d (if Z.odd n then (if exponent <? 0 then number / p10 else number * p10)%Q else number)
               exponent (Z.shiftr n 1) (p10 * p10)%Q
    end.

  (** 50-74 *)
  Definition exponent_2 (number : Q) (exponent : Z) : res fval :=
    if (min_exponent <=? exponent) && (exponent <=? max_exponent) then
      q <- scale D number exponent (if exponent <? 0 then - exponent else exponent) (inject_Z 10) ;; Ok (Fin q)
    else Ok Huge.

  (** 75-107 *)
  Fixpoint exponent_1 (d : nat) (str : nat) (negative : bool) (number : Q) (exponent n : Z) : res fval :=
    match d with
    | O => Fuel
    | S d =>
        c <- rd m str ;;
        if isdigit c then exponent_1 d (S str) negative number exponent (n * 10 + (c - 48))
        else exponent_2 number (if negative then exponent + n else exponent - n)
    end.

  (** 108-147; 'e' and 'E', '-' *)
  Definition exponent_0 (str : nat) (number : Q) (exponent : Z) : res fval :=
    c <- rd m str ;;
    if (c =? 101) || (c =? 69) then
      s <- rd m (S str) ;;
      if s =? 45 then exponent_1 D (str + 2) true number exponent 0 else exponent_1 D (str + 2) false number exponent 0
    else exponent_2 number exponent.

  (** 148-169 *)
  Definition decimal_1 (str : nat) (negative : bool) (number : Q) (num_digits : nat) (exponent : Z) : res fval :=
    if (num_digits =? 0)%nat then Ok (Fin 0)
    else exponent_0 str (if negative then - number else number)%Q exponent.

  (** 170-200 *)
  Fixpoint decimal (d : nat) (str : nat) (negative : bool) (number : Q) (num_digits num_decimals : nat) (exponent : Z) : res fval :=
    match d with
    | O => Fuel
    | S d =>
        c <- rd m str ;;
        if isdigit c then
          decimal d (S str) negative (number * inject_Z 10 + inject_Z (c - 48))%Q (num_digits + 1) (num_decimals + 1) exponent
        else decimal_1 str negative number num_digits (exponent - Z.of_nat num_decimals)
    end.

  (** 202-232 *)
  Fixpoint impl (d : nat) (str : nat) (negative : bool) (number : Q) (num_digits : nat) : res fval :=
    match d with
    | O => Fuel
    | S d =>
        c <- rd m str ;;
        if isdigit c then impl d (S str) negative (number * inject_Z 10 + inject_Z (c - 48))%Q (num_digits + 1)
        else if c =? 46 then decimal D (S str) negative number num_digits 0 0
        else decimal_1 str negative number num_digits 0
    end.

  (** 233-245; endptr is null in 246-291, strtod.hpp 19-33, atof.hpp 18-22 *)
  Fixpoint str_to_float (d : nat) (str : nat) : res fval :=
    match d with
    | O => Fuel
    | S d =>
        c <- rd m str ;;
        if isspace c then str_to_float d (S str)
        else if c =? 45 then impl D (S str) true (inject_Z 0) 0
        else if c =? 43 then impl D (S str) false (inject_Z 0) 0
        else impl D str false (inject_Z 0) 0
    end.

  Definition strtod : res fval := str_to_float D 0.
End Read.
