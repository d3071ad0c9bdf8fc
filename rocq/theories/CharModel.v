(** Models of sprout/ctype/ascii.hpp, sprout/detail/char_conversion.hpp,
    sprout/cstdlib/str_to_int.hpp and ascii_to_int.hpp, sprout/detail/math/int.hpp,
    sprout/integer/integer_digits.hpp and sprout/string/int_to_string.hpp.  Nothing is proved
    here.

    A character is its value (negative for a plain char with the top bit set).  Null terminated
    iterators are positions of an array as in StrModel.  [r] is the call depth: these functions
    recurse once per character.  The overloads with a non-null endptr call the C library and are
    not modelled; with a null endptr they are the ones below. *)
From Coq Require Import List Arith ZArith Bool.
From Verif Require Import Base BitModel ShaModel.
Import ListNotations.
Open Scope Z_scope.

(** ** ctype/ascii.hpp *)

(** lines 24-34 *)
Definition m_alpha : Z := 1.
Definition m_blank : Z := 2.
Definition m_cntrl : Z := 4.
Definition m_digit : Z := 8.
Definition m_graph : Z := 16.
Definition m_lower : Z := 32.
Definition m_print : Z := 64.
Definition m_punct : Z := 128.
Definition m_space : Z := 256.
Definition m_upper : Z := 512.
Definition m_xdigit : Z := 1024.
Definition masks (l : list Z) : Z := fold_left Z.lor l 0.

(** lines 36-165, one entry per character 0x00 .. 0x7f, with names for the ten values in use *)
Definition table : list Z :=
  let CT := masks [m_cntrl] in
  let BCS := masks [m_blank; m_cntrl; m_space] in
  let CS := masks [m_cntrl; m_space] in
  let BPS := masks [m_blank; m_print; m_space] in
  let PU := masks [m_graph; m_print; m_punct] in
  let DG := masks [m_digit; m_graph; m_print; m_xdigit] in
  let UX := masks [m_alpha; m_graph; m_print; m_upper; m_xdigit] in
  let UP := masks [m_alpha; m_graph; m_print; m_upper] in
  let LX := masks [m_alpha; m_graph; m_lower; m_print; m_xdigit] in
  let LO := masks [m_alpha; m_graph; m_lower; m_print] in
  [
   CT; CT; CT; CT; CT; CT; CT; CT; CT; BCS; CS; CS; CS; CS; CT; CT;
   CT; CT; CT; CT; CT; CT; CT; CT; CT; CT; CT; CT; CT; CT; CT; CT;
   BPS; PU; PU; PU; PU; PU; PU; PU; PU; PU; PU; PU; PU; PU; PU; PU;
   DG; DG; DG; DG; DG; DG; DG; DG; DG; DG; PU; PU; PU; PU; PU; PU;
   PU; UX; UX; UX; UX; UX; UX; UP; UP; UP; UP; UP; UP; UP; UP; UP;
   UP; UP; UP; UP; UP; UP; UP; UP; UP; UP; UP; PU; PU; PU; PU; PU;
   PU; LX; LX; LX; LX; LX; LX; LO; LO; LO; LO; LO; LO; LO; LO; LO;
   LO; LO; LO; LO; LO; LO; LO; LO; LO; LO; LO; PU; PU; PU; PU; CT
  ].

(** lines 166-190: std::size_t has 64 bits *)
Definition get_value (c : Z) : Z :=
  if conv u64 c <? 128 then nth (Z.to_nat (conv u64 c)) table 0 else 0.
(** [get_value(c) & m] as a condition *)
Definition has (c m : Z) : bool := negb (Z.land (get_value c) m =? 0).

(** lines 195-242 *)
Definition isalnum (c : Z) : bool := has c (Z.lor m_alpha m_digit).
Definition isalpha (c : Z) : bool := has c m_alpha.
Definition isblank (c : Z) : bool := has c m_blank.
Definition iscntrl (c : Z) : bool := has c m_cntrl.
Definition isdigit (c : Z) : bool := has c m_digit.
Definition isgraph (c : Z) : bool := has c m_graph.
Definition islower (c : Z) : bool := has c m_lower.
Definition isprint (c : Z) : bool := has c m_print.
Definition ispunct (c : Z) : bool := has c m_punct.
Definition isspace (c : Z) : bool := has c m_space.
Definition isupper (c : Z) : bool := has c m_upper.
Definition isxdigit (c : Z) : bool := has c m_xdigit.
(** lines 243-250; [ct] is the character type *)
Definition tolower (ct : ity) (c : Z) : Z := if has c m_upper then conv ct (c + 32) else c.
Definition toupper (ct : ity) (c : Z) : Z := if has c m_lower then conv ct (c - 32) else c.

(** lines 251-266.  The enumerators of sprout::ctypes::mask (ctype/mask.hpp 20-37) are those of
    std::ctype_base, whose values the implementation chooses: [cm] lists them in the order of the
    lines.  [m | x && y] groups as [(m | x) && y]. *)
Definition class_masks : list Z :=
  [Z.lor m_alpha m_digit; m_alpha; m_blank; m_cntrl; m_digit; m_graph; m_lower; m_print; m_punct; m_space; m_upper; m_xdigit].
Definition isclassified (cm : list Z) (m c : Z) : bool :=
  existsb (fun p : Z * Z => negb (Z.lor m (fst p) =? 0) && has c (snd p)) (combine cm class_masks).

(** ** detail/char_conversion.hpp *)

(** lines 41-52 *)
Definition char_to_int (t : ity) (c base : Z) : Z :=
  if isdigit c && (c - 48 <? base) then conv t (c - 48)
  else if islower c && (c - 97 + 10 <? base) then conv t (c - 97 + 10)
  else if isupper c && (c - 65 + 10 <? base) then conv t (c - 65 + 10)
  else conv t (-1).
(** lines 32-39; a failing assertion is undefined *)
Definition int_to_char (ct : ity) (val : Z) : res Z :=
  if (0 <=? val) && (val <? 10) then Ok (conv ct (48 + val)) else UB.

Section Conv.
  Variable il : nat.      (* lg of int *)

  (** ** cstdlib/str_to_int.hpp *)

  (** lines 30-44 *)
  Fixpoint str_to_int_impl_1 (t : ity) (r : nat) (m : list Z) (str : nat) (base val x : Z) (negative : bool) : res Z :=
    match r with
    | O => Fuel
    | S r' =>
        if x =? conv t (-1) then
          if negative then v <- arith (promote il t) (-1 * val) ;; Ok (conv t v) else Ok val
        else
          a <- arith (promote il t) (tmax t - x) ;;
          b <- arith (promote il t) (a - (if negative then 1 else 0)) ;;
          if Z.quot b base <? val then Ok (if negative then tmin t else tmax t)
          else
            v <- arith (promote il t) (val * base) ;;
            v <- arith (promote il t) (v + x) ;;
            c <- rd m (S str) ;;
            str_to_int_impl_1 t r' m (S str) base (conv t v) (char_to_int t c base) negative
    end.
  (** lines 45-74 *)
  Definition str_to_int_impl (t : ity) (r : nat) (m : list Z) (str : nat) (base : Z) (negative : bool) : res Z :=
    c <- rd m str ;;
    if c =? 48 then
      c1 <- rd m (S str) ;;
      if (c1 =? 120) || (c1 =? 88) then
        let b := if base =? 0 then 16 else base in
        c2 <- rd m (str + 2)%nat ;;
        str_to_int_impl_1 t r m (str + 2) b 0 (char_to_int t c2 b) negative
      else
        let b := if base =? 0 then 8 else base in
        str_to_int_impl_1 t r m (S str) b 0 (char_to_int t c1 b) negative
    else
      let b := if base =? 0 then 10 else base in
      str_to_int_impl_1 t r m str b 0 (char_to_int t c b) negative.
  (** lines 75-104: the overload for signed types looks for a minus sign as well *)
  Fixpoint str_to_int (t : ity) (r : nat) (m : list Z) (str : nat) (base : Z) : res Z :=
    match r with
    | O => Fuel
    | S r' =>
        c <- rd m str ;;
        if isspace c then str_to_int t r' m (S str) base
        else if sgn t && (c =? 45) then str_to_int_impl t r' m (S str) base true
        else if c =? 43 then str_to_int_impl t r' m (S str) base false
        else str_to_int_impl t r' m str base false
    end.

  (** ** cstdlib/ascii_to_int.hpp *)

  (** lines 27-42 *)
  Fixpoint ascii_to_int_impl (t : ity) (r : nat) (m : list Z) (str : nat) (val : Z) (negative : bool) : res Z :=
    match r with
    | O => Fuel
    | S r' =>
        c <- rd m str ;;
        if negb (isdigit c) then
          if negative then v <- arith (promote il t) (- val) ;; Ok (conv t v) else Ok val
        else
          a <- arith (promote il t) (tmax t - (c - 48)) ;;
          b <- arith (promote il t) (a - (if negative then 1 else 0)) ;;
          if Z.quot b 10 <? val then Ok (if negative then tmin t else tmax t)
          else
            v <- arith (promote il t) (val * 10) ;;
            v <- arith (promote il t) (v + (c - 48)) ;;
            ascii_to_int_impl t r' m (S str) (conv t v) negative
    end.
  (** lines 43-72 *)
  Fixpoint ascii_to_int (t : ity) (r : nat) (m : list Z) (str : nat) : res Z :=
    match r with
    | O => Fuel
    | S r' =>
        c <- rd m str ;;
        if isspace c then ascii_to_int t r' m (S str)
        else if sgn t && (c =? 45) then ascii_to_int_impl t r' m (S str) 0 true
        else if c =? 43 then ascii_to_int_impl t r' m (S str) 0 false
        else ascii_to_int_impl t r' m str 0 false
    end.

  (** ** detail/math/int.hpp *)

  (** lines 46-55 *)
  Fixpoint int_pow (t : ity) (base : Z) (exponent : nat) : res Z :=
    match exponent with
    | O => Ok 1
    | S e => p <- int_pow t base e ;; v <- arith (promote il t) (base * p) ;; Ok (conv t v)
    end.
  (** lines 60-75; the count does not reach the limits of int *)
  Fixpoint int_digits_impl (r : nat) (base val : Z) : res nat :=
    match r with
    | O => Fuel
    | S r' => if val =? 0 then Ok 0%nat else n <- int_digits_impl r' base (Z.quot val base) ;; Ok (S n)
    end.
  Definition int_digits (r : nat) (base val : Z) : res nat :=
    if val =? 0 then Ok 1%nat else n <- int_digits_impl r base (Z.quot val base) ;; Ok (S n).
  (** lines 80-100: both overloads; a value of an unsigned type is not negative *)
  Definition int_digit_at (t : ity) (base val : Z) (digits : nat) : res Z :=
    p <- int_pow t base digits ;;
    Ok (if val <? 0 then - Z.rem (Z.quot val p) base else Z.rem (Z.quot val p) base).

  (** ** integer/integer_digits.hpp *)

  (** lines 20-27; CHAR_BIT * sizeof(IntType) - is_signed is the number of value bits *)
  Definition integer_digits_impl (t : ity) (n d : Z) : Z :=
    let b := wid t - (if sgn t then 1 else 0) in
    b * n / d + (if b * n mod d =? 0 then 0 else 1).
  (** lines 33-95: specialised for the bases 2 .. 16 only *)
  Definition digit_ratios : list (Z * Z) :=
    [(1, 1); (630, 1000); (1, 2); (430, 1000); (386, 1000); (356, 1000); (1, 3); (315, 1000);
     (301, 1000); (289, 1000); (278, 1000); (270, 1000); (262, 1000); (255, 1000); (1, 4)].
  Definition integer_digits (t : ity) (base : Z) : option Z :=
    if (2 <=? base) then
      option_map (fun p => integer_digits_impl t (fst p) (snd p)) (nth_error digit_ratios (Z.to_nat (base - 2)))
    else None.

  (** ** string/int_to_string.hpp *)

  (** the characters of lines 49-51, 55-57, 71-73 for the indexes [i], [i + 1], ..., [i + n - 1] *)
  Fixpoint digit_chars (ct t : ity) (base val : Z) (digits i n : nat) : res (list Z) :=
    match n with
    | O => Ok []
    | S n' =>
        c <- (if Nat.ltb i digits then v <- int_digit_at t base val (digits - 1 - i) ;; int_to_char ct v else Ok 0) ;;
        cs <- digit_chars ct t base val digits (S i) n' ;;
        Ok (c :: cs)
    end.
  (** string/string.hpp 194-205: raw_construct(n, args...) in a string of capacity [cap]: the
      array has one element more and is zero after the arguments *)
  Definition raw_construct (cap : nat) (n : nat) (args : list Z) : nat * list Z :=
    (n, map (fun i => if Nat.ltb i n then nth i args 0 else 0) (seq 0 (length args)) ++ repeat 0 (cap + 1 - length args)).
  (** lines 29-92; the result is the length and the array.  [None] of [integer_digits] is a
      compile-time error, modelled as undefined. *)
  Definition int_to_string (ct t : ity) (r : nat) (base val : Z) : res (nat * list Z) :=
    match integer_digits t base with
    | None => UB
    | Some nd =>
        let nd := Z.to_nat nd in
        let cap := (nd + (if sgn t then 1 else 0))%nat in
        digits <- int_digits r base val ;;
        cs <- digit_chars ct t base val digits 0 nd ;;
        Ok (if val <? 0 then raw_construct cap (digits + 1) (45 :: cs) else raw_construct cap digits cs)
    end.
End Conv.

(** ** detail/digits_to_int.hpp 17-25, for an integer type large enough for the value *)
Fixpoint digits_to_int (cs : list Z) : Z :=
  match cs with
  | [] => 0
  | [c] => c - 48
  | c :: cs => 10 * (c - 48) + digits_to_int cs
  end.
