(** Properties C66 and C67: sprout/endian_traits.hpp, sprout/iterator/bytes_iterator.hpp. *)
From Coq Require Import List Arith ZArith Bool.
From Verif Require Import Base BitModel BitSpec ByteModel ByteSpec ByteProof.
Import ListNotations.
Open Scope Z_scope.

(** ** C66: get_byte and set_byte, for types not wider than int (of at most eight bytes) *)
Theorem get_byte_partial : forall il md be t, (il <= 3)%nat -> (lg t <= il)%nat ->
  forall x i, 0 <= i < bytes t -> get_byte il md be t x i = Ok (byte_no (place be t i) x).
Proof. exact @get_byte_ok. Qed.
Print Assumptions get_byte_partial.

Example get_byte_example :
  get_byte 2 false true (Ity true 2) (-2) 0 = Ok 255 /\ get_byte 2 false true (Ity false 1) 0x1234 0 = Ok 0x12 /\
  get_byte 2 false false (Ity false 2) 0xFF000012 3 = Ok 255 /\ byte_no (place true (Ity true 2) 3) (-2) = 254.
Proof. vm_compute. repeat split. Qed.

Theorem set_byte_partial : forall il md be t, (il <= 3)%nat -> (lg t <= il)%nat ->
  forall x i v, is_val t x -> 0 <= i < bytes t -> 0 <= v < 256 ->
  exists y, set_byte il md be t x i v = Ok y /\ is_val t y /\ byte_no (place be t i) y = v /\
    forall j, 0 <= j < bytes t -> j <> i -> byte_no (place be t j) y = byte_no (place be t j) x.
Proof. exact @set_byte_ok. Qed.
Print Assumptions set_byte_partial.

Example set_byte_example :
  set_byte 2 false true (Ity false 2) 0x11223344 1 0xAB = Ok 0x11AB3344 /\
  set_byte 2 false true (Ity true 2) 0 0 0x80 = Ok (- 2 ^ 31).
Proof. vm_compute. split; reflexivity. Qed.

(** Missing: types wider than int.  There the mask UCHAR_MAX << n, computed in int, is undefined
    for every byte whose place is beyond the width of int, so C66 does not hold for them. *)
Theorem get_byte_refuted : forall il md be t x i, (il < lg t)%nat -> (lg t <= 3)%nat -> 0 <= i < bytes t ->
  wid (Ity true il) <= 8 * place be t i -> get_byte il md be t x i = UB.
Proof. exact @get_byte_wide. Qed.
Print Assumptions get_byte_refuted.

(** 32-bit int: the first four bytes of a std::uint64_t *)
Example get_byte_refuted_example :
  map (get_byte 2 true true (Ity false 3) 0x0102030405060708) [0; 1; 2; 3; 4; 5; 6; 7] =
    [UB; UB; UB; UB; Ok 5; Ok 6; Ok 7; Ok 8].
Proof. vm_compute. reflexivity. Qed.

(** ** C67: going forward visits every byte of every element in order, by [n] increments or at
    once, and meets the end iterator exactly after the last byte. *)
Theorem bytes_iterator_forward_correct : forall il md be t l n, (il <= 3)%nat -> (lg t <= il)%nat ->
  Z.of_nat (length l) * bytes t < 2 ^ 63 -> (n <= length (all_bytes be t l))%nat ->
  exists b, biter_nexts (bytes t) (Z.of_nat (length l)) n (biter_make 0) = Ok b /\
    biter_plus (bytes t) (Z.of_nat (length l)) (biter_make 0) (Z.of_nat n) = Ok b /\
    biter_diff (bytes t) b (biter_make 0) = Z.of_nat n /\
    (biter_eq b (biter_make (Z.of_nat (length l))) = true <-> n = length (all_bytes be t l)) /\
    ((n < length (all_bytes be t l))%nat ->
      exists x, biter_get il md be t l b = Ok x /\ nth_error (all_bytes be t l) n = Some x).
Proof. exact @biter_walk_ok. Qed.
Print Assumptions bytes_iterator_forward_correct.

Example bytes_iterator_forward_example :
  all_bytes true (Ity false 1) [0x1234; 0xABCD; 7] = [0x12; 0x34; 0xAB; 0xCD; 0; 7] /\
  biter_nexts 2 3 5 (biter_make 0) = Ok (BIter 2 1).
Proof. vm_compute. split; reflexivity. Qed.

(** Going back within one element works. *)
Theorem bytes_iterator_back_partial : forall sz N it i n, 0 < sz < 2 ^ 62 -> 0 <= it <= N -> 0 <= n <= i -> i < sz ->
  biter_minus sz N (BIter it i) n = Ok (BIter it (i - n)).
Proof. exact @biter_minus_same. Qed.
Print Assumptions bytes_iterator_back_partial.

Example bytes_iterator_back_example : biter_minus 4 9 (BIter 3 2) 2 = Ok (BIter 3 0).
Proof. vm_compute. reflexivity. Qed.

(** But -- never undoes ++, and - never undoes + across an element boundary: the index they leave
    is not below the size. *)
Theorem bytes_iterator_back_refuted : forall sz N it i, 0 < sz < 2 ^ 62 -> 0 <= i < sz ->
  (forall b, biter_next sz N (BIter it i) = Ok b -> biter_prev sz N b <> Ok (BIter it i)) /\
  (forall b n, biter_plus sz N (BIter it i) n = Ok b -> i_ b < n -> biter_minus sz N b n <> Ok (BIter it i)).
Proof. exact @biter_back_never. Qed.
Print Assumptions bytes_iterator_back_refuted.

(** bytes of char: -- goes to the right element with index 1; of a 32-bit type, - leaves the array *)
Example bytes_iterator_back_refuted_example :
  biter_next 1 9 (BIter 3 0) = Ok (BIter 4 0) /\ biter_prev 1 9 (BIter 4 0) = Ok (BIter 3 1) /\
  biter_plus 4 9 (BIter 3 1) 6 = Ok (BIter 4 3) /\ biter_minus 4 9 (BIter 4 3) 6 = UB /\
  biter_next 4 9 (BIter 3 1) = Ok (BIter 3 2) /\ biter_prev 4 9 (BIter 3 2) = Ok (BIter 2 5).
Proof. vm_compute. repeat split. Qed.
