(** Properties C52 and C51 (sum, xor): sprout/checksum/sum.hpp, sprout/checksum/xor.hpp. *)
From Coq Require Import List Arith ZArith Bool.
From Verif Require Import Base SearchSpec BitModel SumModel SumSpec SumProof.
Import ListNotations.
Open Scope Z_scope.

(** ** C52: the sum modulo 2^Bits; [st] is any unsigned type at least as wide as the value type *)
Theorem make_sum_correct : forall st vt c d, sgn st = false -> sgn vt = false -> wid vt <= wid st ->
  forall bytes, (depth_bound (length bytes) <= d)%nat ->
  make_sum st vt c d bytes = Ok (total bytes mod 2 ^ wid vt).
Proof. exact @make_sum_ok. Qed.
Print Assumptions make_sum_correct.

(** sum8, sum16 and sum32 of 300 bytes 255, with a 64-bit std::size_t *)
Example make_sum_example :
  make_sum (Ity false 3) (Ity false 0) true 20 (repeat 255 300) = Ok 212 /\
  make_sum (Ity false 3) (Ity false 1) true 20 (repeat 255 300) = Ok 10964 /\
  make_sum (Ity false 3) (Ity false 2) false 20 (repeat 255 300) = Ok 76500.
Proof. rewrite !make_sum_correct by (vm_compute; (reflexivity || discriminate || (repeat constructor))). repeat split. Qed.

Theorem make_xor8_correct : forall st c d, sgn st = false ->
  forall bytes, (depth_bound (length bytes) <= d)%nat ->
  exists v, make_xor8 st c d bytes = Ok v /\ 0 <= v < 256 /\
    forall i, 0 <= i < 8 -> Z.testbit v i = odd_bit bytes i.
Proof. exact @make_xor8_ok. Qed.
Print Assumptions make_xor8_correct.

Example make_xor8_example : make_xor8 (Ity false 3) true 20 [0x31; 0x32; 0x33; 0xF0] = Ok 0xC0 /\
  map (odd_bit [0x31; 0x32; 0x33; 0xF0]) [0;1;2;3;4;5;6;7] = [false;false;false;false;false;false;true;true].
Proof. vm_compute. split; reflexivity. Qed.

(** ** C51 for sum and xor: any pieces through any mixture of the two interfaces, from any starting
    sum, leave the state that one block with the whole message leaves. *)
Theorem sum_pieces_correct : forall st vt c d, sgn st = false -> sgn vt = false -> wid vt <= wid st ->
  forall s0 ps, 0 <= s0 < 2 ^ wid st -> (depth_bound (length (concat (map sum_piece_bytes ps))) <= d)%nat ->
  exists s, feed_all (sum_feed_piece st c d) s0 ps = Ok s /\
    s = (s0 + total (concat (map sum_piece_bytes ps))) mod 2 ^ wid st /\
    sum_c_process_block st c d s0 (concat (map sum_piece_bytes ps)) = Ok s /\
    sum_checksum vt s = (s0 + total (concat (map sum_piece_bytes ps))) mod 2 ^ wid vt.
Proof. exact @sum_pieces_ok. Qed.
Print Assumptions sum_pieces_correct.

Example sum_pieces_example :
  feed_all (sum_feed_piece (Ity false 3) true 20) 7 [SCByte 200; SMBlock [1; 2; 3]; SMByte 99; SCBlock []] = Ok 312 /\
  sum_checksum (Ity false 0) 312 = 56.
Proof. vm_compute. split; reflexivity. Qed.

Theorem xor_pieces_correct : forall st c d, sgn st = false ->
  forall s0 ps, (depth_bound (length (concat (map sum_piece_bytes ps))) <= d)%nat ->
  exists s, feed_all (xor_feed_piece st c d) s0 ps = Ok s /\
    xor_c_process_block st c d s0 (concat (map sum_piece_bytes ps)) = Ok s /\
    0 <= xor_checksum s < 256 /\
    forall i, 0 <= i < 8 ->
      Z.testbit (xor_checksum s) i = xorb (Z.testbit s0 i) (odd_bit (concat (map sum_piece_bytes ps)) i).
Proof. exact @xor_pieces_ok. Qed.
Print Assumptions xor_pieces_correct.

Example xor_pieces_example :
  feed_all (xor_feed_piece (Ity false 3) true 20) 5 [SCByte 200; SMBlock [1; 2; 3]; SMByte 99; SCBlock []] = Ok 174.
Proof. vm_compute. reflexivity. Qed.
