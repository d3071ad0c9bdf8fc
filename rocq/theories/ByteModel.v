(** Models of sprout/endian_traits.hpp and sprout/iterator/bytes_iterator.hpp.  Nothing is proved
    in this file.

    C integers as in BitModel.v: [il] is the lg of sizeof(int), [md] the rule for signed left
    shifts.  [t] is the integer type, std::size_t and std::ptrdiff_t have 64 bits.  UCHAR_MAX is
    an int (unsigned char promotes to it), so the masks are computed in int. *)
From Coq Require Import List Arith ZArith Bool.
From Verif Require Import Base BitModel ShaModel.
Import ListNotations.
Open Scope Z_scope.

Definition i64 : ity := Ity true 3.

Section Endian.
  Variables (il : nat) (md : bool).

  Notation int := (Ity true il).

  (** lines 28-31, 49-52, 77-79, 96-98: size() *)
  Definition esize (t : ity) : Z := bytes t.

  (** [CHAR_BIT * ((size() - 1) - i)] (lines 56, 57, 62, 63) and [CHAR_BIT * i] (101, 102, 107,
      108), in std::size_t *)
  Definition eshift (be : bool) (t : ity) (i : Z) : Z :=
    if be then conv u64 (8 * (esize t - 1 - i)) else conv u64 (8 * i).

  (** lines 32-35 and 53-59 (big), 80-82 and 99-104 (little): the & and >> of the promoted type of
      [t], which is at least int *)
  Definition get_byte (be : bool) (t : ity) (x i : Z) : res Z :=
    if esize t =? 1 then Ok (conv u8 x)
    else
      m <- shl md int 255 (eshift be t i) ;;
      r <- shr (promote il t) (Z.land x (conv (promote il t) m)) (eshift be t i) ;;
      Ok (conv u8 r).

  (** lines 36-39 and 60-64 (big), 83-86 and 105-109 (little) *)
  Definition set_byte (be : bool) (t : ity) (x i value : Z) : res Z :=
    if esize t =? 1 then Ok (conv t value)
    else
      m <- shl md int 255 (eshift be t i) ;;
      let x1 := conv t (Z.land x (conv (promote il t) (cpl int m))) in
      v <- shl md int value (eshift be t i) ;;
      Ok (conv t (Z.lor x1 (conv (promote il t) v))).
End Endian.

(** ** bytes_iterator.  The base iterator is a position in [0, N]; leaving that range is undefined.
    [sz] is traits_type::size(), a std::size_t: the arithmetic of lines 66-83 on the
    std::ptrdiff_t [i] happens in std::size_t and is converted back. *)
Record biter : Type := BIter { it_ : Z; i_ : Z }.

Section BytesIter.
  Variables (sz N : Z).

  Definition udiv (i : Z) : Z := conv u64 i / sz.
  Definition umod (i : Z) : Z := conv u64 i mod sz.
  (** sprout::next(it, n), sprout::next(it), sprout::prev(it); n becomes a std::ptrdiff_t *)
  Definition move (it n : Z) : res Z :=
    let p := it + conv i64 n in if (0 <=? p) && (p <=? N) then Ok p else UB.

  (** lines 66-69: next_tag *)
  Definition biter_next_tag (it i : Z) : res biter :=
    p <- (if udiv i =? 0 then Ok it else move it 1) ;; Ok (BIter p (conv i64 (umod i))).
  (** lines 70-73: prev_tag *)
  Definition biter_prev_tag (it i : Z) : res biter :=
    p <- (if udiv (i + 1 - sz) =? 0 then Ok it else move it (-1)) ;;
    Ok (BIter p (conv i64 (conv u64 (umod i + sz)))).
  (** lines 74-83: ra_tag *)
  Definition biter_ra_tag (it i : Z) : res biter :=
    p <- (if 0 <=? i then move it (udiv i) else move it (udiv (i + 1 - sz))) ;;
    Ok (BIter p (if 0 <=? i then conv i64 (umod i) else conv i64 (conv u64 (umod i + sz)))).

  (** lines 89-91: explicit bytes_iterator(it) *)
  Definition biter_make (it : Z) : biter := BIter it 0.
  (** lines 98-103; ++ (113-117) and -- (123-127) replace the iterator by these *)
  Definition biter_next (b : biter) : res biter := biter_next_tag (it_ b) (i_ b + 1).
  Definition biter_prev (b : biter) : res biter := biter_prev_tag (it_ b) (i_ b - 1).
  (** lines 133-148: + and -, += and -= *)
  Definition biter_plus (b : biter) (n : Z) : res biter := biter_ra_tag (it_ b) (i_ b + n).
  Definition biter_minus (b : biter) (n : Z) : res biter := biter_ra_tag (it_ b) (i_ b - n).
  (** lines 156-158 and 166-168: == and < *)
  Definition biter_eq (a b : biter) : bool := (it_ a =? it_ b) && (i_ a =? i_ b).
  Definition biter_lt (a b : biter) : bool := (it_ a <? it_ b) || ((it_ a =? it_ b) && (i_ a <? i_ b)).
  (** lines 185-188: the difference, computed in std::size_t *)
  Definition biter_diff (a b : biter) : Z :=
    conv i64 (conv u64 (conv u64 ((it_ a - it_ b) * sz) + (i_ a - i_ b))).

  (** a client that increments an iterator [n] times *)
  Fixpoint biter_nexts (n : nat) (b : biter) : res biter :=
    match n with O => Ok b | S n => b1 <- biter_next b ;; biter_nexts n b1 end.
End BytesIter.

(** lines 110-112: operator* of an iterator over the elements [l] *)
Definition biter_get (il : nat) (md be : bool) (t : ity) (l : list Z) (b : biter) : res Z :=
  x <- rd l (Z.to_nat (it_ b)) ;; get_byte il md be t x (i_ b).
