(** * sprout/net/endian.hpp, sprout/integer/static_pow.hpp, sprout/integer/integer_digits.hpp

    Integer types and their operators are those of BitModel.v ([il]: lg of the size of int,
    [md]: C++20 shifts).  std::uint_fast8_t and std::uint8_t are unsigned char. *)

From Coq Require Import ZArith Bool List.
From Verif Require Import Base BitModel.
Import ListNotations.
Open Scope Z_scope.

Definition u8 : ity := Ity false 0.

(** SPROUT_BIG_ENDIAN, SPROUT_LITTLE_ENDIAN, SPROUT_PDP_ENDIAN *)
Inductive endian : Type := Big | Little | Pdp.

Section Net.
  Variable il : nat.
  Variable md : bool.

  (** net/endian.hpp 26-30, 36-40.  [n * 8] is an int, [val] is promoted, the result is converted
      back. *)
  Definition lshift_by (t : ity) (val n : Z) : res Z :=
    r <- shl md (promote il t) val (n * 8) ;; Ok (conv t r).
  Definition rshift_by (t : ity) (val n : Z) : res Z :=
    r <- shr (promote il t) val (n * 8) ;; Ok (conv t r).

  (** net/endian.hpp 46-50 *)
  Definition mask_at (t : ity) (n : Z) : res Z := lshift_by t (conv t 255) n.

  (** net/endian.hpp 56-62.  [val & mask] has the promoted type, for which rshift_by is
      instantiated. *)
  Definition byte_at (t : ity) (val n : Z) : res Z :=
    m <- mask_at t n ;; r <- rshift_by (promote il t) (Z.land val m) n ;; Ok (conv u8 r).

  (** net/endian.hpp 68-72 *)
  Definition replace_at (t : ity) (val byte_val n : Z) : res Z :=
    m <- mask_at t n ;; s <- lshift_by t (conv t byte_val) n ;;
    Ok (conv t (Z.lor (Z.land val (cpl (promote il t) m)) s)).

  (** net/endian.hpp 78-82 *)
  Definition copy (t : ity) (val from to : Z) : res Z :=
    b <- byte_at t val from ;; replace_at t val b to.

  (** net/endian.hpp 88-92 *)
  Definition swap (t : ity) (val n1 n2 : Z) : res Z :=
    c <- copy t val n1 n2 ;; b <- byte_at t val n2 ;; replace_at t c b n1.

  (** net/endian.hpp 98-102.  [n1 + 1] and [n2 - 1] are ints, converted to uint_fast8_t. *)
  Fixpoint reverse_impl (d : nat) (t : ity) (val n1 n2 : Z) : res Z :=
    match d with
    | O => Fuel
    | S d' =>
        if n2 <? n1 then Ok val
        else v <- swap t val n1 n2 ;; reverse_impl d' t v (conv u8 (n1 + 1)) (conv u8 (n2 - 1))
    end.

  (** net/endian.hpp 108-112 *)
  Definition reverse (d : nat) (t : ity) (val : Z) : res Z :=
    reverse_impl d t val 0 (conv u8 (bytes t - 1)).

  (** net/endian.hpp 118-122 *)
  Fixpoint reverse_words_impl (d : nat) (t : ity) (val n : Z) : res Z :=
    match d with
    | O => Fuel
    | S d' =>
        if n =? 0 then Ok val
        else v <- swap t val (conv u8 (n - 1)) (conv u8 (n - 2)) ;;
             reverse_words_impl d' t v (conv u8 (n - 2))
    end.

  (** net/endian.hpp 128-132 *)
  Definition reverse_words (d : nat) (t : ity) (val : Z) : res Z :=
    reverse_words_impl d t val (conv u8 (bytes t)).

  (** net/endian.hpp 138-150 *)
  Definition hton (e : endian) (d : nat) (t : ity) (host : Z) : res Z :=
    match e with Big => Ok host | Little => reverse d t host | Pdp => reverse_words d t host end.

  (** net/endian.hpp 155-167.  The PDP branch names the undeclared [host] and does not compile;
      it is given here with the argument that must be meant. *)
  Definition ntoh (e : endian) (d : nat) (t : ity) (net : Z) : res Z :=
    match e with Big => Ok net | Little => reverse d t net | Pdp => reverse_words d t net end.

  (** net/endian.hpp 171-195 *)
  Definition htonl (e : endian) (d : nat) (host32 : Z) : res Z := hton e d (Ity false 2) host32.
  Definition htons (e : endian) (d : nat) (host16 : Z) : res Z := hton e d (Ity false 1) host16.
  Definition ntohl (e : endian) (d : nat) (net32 : Z) : res Z := ntoh e d (Ity false 2) net32.
  Definition ntohs (e : endian) (d : nat) (net16 : Z) : res Z := ntoh e d (Ity false 1) net16.

  (** A template argument of type [t]: a value that would change is ill-formed.  [UB] stands for
      a program that does not compile. *)
  Definition narrow (t : ity) (z : Z) : res Z := if (tmin t <=? z) && (z <=? tmax t) then Ok z else UB.

  (** integer/static_pow.hpp 18-21: the literal 1 is an int *)
  Definition static_pow2 (t : ity) (X : Z) : res Z := r <- shl md (int_t il) 1 X ;; narrow t r.

  (** integer/static_pow.hpp 24-41 *)
  Definition static_pow2m1 (t : ity) (X : Z) : res Z :=
    if X =? 0 then narrow t 1
    else
      let p := promote il t in
      s <- arith p (X - 1) ;; a <- shl md p 1 s ;; b <- arith p (a - 1) ;; c <- shl md p b 1 ;;
      r <- arith p (c + 1) ;; narrow t r.

  (** integer/static_pow.hpp 44-73 *)
  Fixpoint static_pow (d : nat) (t : ity) (X Y : Z) : res Z :=
    match d with
    | O => Fuel
    | S d' =>
        let K := if Y <? 3 then Y else 3 in
        let IsOdd := negb (Z.rem Y 2 =? 0) in
        if (K =? 0) && negb IsOdd then narrow t 1
        else if (K =? 1) && IsOdd then narrow t X
        else if (K =? 2) && negb IsOdd then r <- arith (promote il t) (X * X) ;; narrow t r
        else if IsOdd then
          v <- static_pow d' t X (Y - 1) ;; r <- arith (promote il t) (X * v) ;; narrow t r
        else v <- static_pow d' t X (Z.quot Y 2) ;; static_pow d' t v 2
    end.
End Net.

(** integer/integer_digits.hpp 20-27 *)
Definition integer_digits_impl (t : ity) (N D : Z) : Z :=
  let b := wid t - (if sgn t then 1 else 0) in
  b * N / D + (if b * N mod D =? 0 then 0 else 1).

(** integer/integer_digits.hpp 33-95 *)
Definition digits_table : list (Z * (Z * Z)) :=
  [(2, (1, 1)); (3, (630, 1000)); (4, (1, 2)); (5, (430, 1000)); (6, (386, 1000)); (7, (356, 1000)); (8, (1, 3));
   (9, (315, 1000)); (10, (301, 1000)); (11, (289, 1000)); (12, (278, 1000)); (13, (270, 1000)); (14, (262, 1000));
   (15, (255, 1000)); (16, (1, 4))].
Definition integer_digits (t : ity) (base : Z) : res Z :=
  match find (fun e => fst e =? base) digits_table with
  | Some (_, (N, D)) => Ok (integer_digits_impl t N D)
  | None => UB
  end.
