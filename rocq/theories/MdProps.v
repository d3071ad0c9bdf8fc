(** Properties C50 and C51 (md5): sprout/checksum/md5.hpp. *)
From Coq Require Import List Arith ZArith Bool.
From Verif Require Import Base BitModel MdModel MdSpec MdProof MdProof2.
Import ListNotations.
Open Scope Z_scope.

(** ** C50: [make_md5] is MD5 as RFC 1321 defines it (elements count by their low eight bits). *)
Theorem make_md5_correct : forall md msg, make_md5 md msg = Ok (md5_digest msg).
Proof. exact @make_md5_ok. Qed.
Print Assumptions make_md5_correct.

(** The specification gives digests of the test suite in RFC 1321, A.5: "", "abc" and the digits
    1234567890 eight times (80 bytes, two blocks). *)
Example md5_digest_example :
  md5_digest [] = [0xd4;0x1d;0x8c;0xd9;0x8f;0x00;0xb2;0x04;0xe9;0x80;0x09;0x98;0xec;0xf8;0x42;0x7e] /\
  md5_digest [0x61; 0x62; 0x63] =
    [0x90;0x01;0x50;0x98;0x3c;0xd2;0x4f;0xb0;0xd6;0x96;0x3f;0x7d;0x28;0xe1;0x7f;0x72] /\
  md5_digest (concat (repeat [0x31;0x32;0x33;0x34;0x35;0x36;0x37;0x38;0x39;0x30] 8)) =
    [0x57;0xed;0xf4;0xa2;0x2b;0xe3;0xc9;0x55;0xac;0x49;0xda;0x2e;0x21;0x07;0xb6;0x7a].
Proof. vm_compute. repeat split. Qed.

(** ** C51 for md5: however a message is cut into pieces of bits, bytes or blocks, aligned or not,
    and whichever mixture of the two interfaces is used, the object ends in the state that
    feeding the bits one by one leaves, and its checksum is the digest of the bits.
    [process_bits] with more than 32 bits would shift by more than int has. *)
Theorem md5_pieces_correct : forall md ps,
  (forall x n, In (CBits x n) ps \/ In (MBits x n) ps -> (n <= 32)%nat) ->
  exists s, md_feed_pieces md md5_new ps = Ok s /\
    md_feed_pieces md md5_new (map CBit (concat (map md_piece_bits ps))) = Ok s /\
    md5_checksum md s = Ok (md5_digest_bits (concat (map md_piece_bits ps))).
Proof. exact @md5_pieces_ok. Qed.
Print Assumptions md5_pieces_correct.

(** "abc" fed as three bits, five bits, one unaligned and one aligned byte, the interfaces mixed;
    and an unaligned message *)
Example md5_pieces_example :
  concat (map md_piece_bits [CBits 3 3; MBits 1 5; MByte 0x62; CByte 0x63]) =
    concat (map md_piece_bits [CBlock [0x61; 0x62; 0x63]]) /\
  (s <- md_feed_pieces false md5_new [CBits 3 3; MBits 1 5; MByte 0x62; CByte 0x63] ;; md5_checksum false s) =
    Ok [0x90;0x01;0x50;0x98;0x3c;0xd2;0x4f;0xb0;0xd6;0x96;0x3f;0x7d;0x28;0xe1;0x7f;0x72] /\
  concat (map md_piece_bits [CBit true; MByte 5; CBlock [6]]) =
    [true; false;false;false;false;false;true;false;true; false;false;false;false;false;true;true;false].
Proof. vm_compute. repeat split. Qed.

(** After [reset], whatever was fed before, an object behaves as a new one. *)
Theorem md5_reset_correct : forall md ps s qs,
  md_feed_pieces md md5_new ps = Ok s ->
  md_feed_pieces md (md5_reset s) qs = md_feed_pieces md md5_new qs.
Proof. exact @md5_reset_ok. Qed.
Print Assumptions md5_reset_correct.

Example md5_reset_example : exists s, md_feed_pieces false md5_new [CByte 3; MBit true] = Ok s /\
  s <> md5_new /\ md5_reset s = md5_new.
Proof. eexists. split; [vm_compute; reflexivity|]. split; [discriminate|reflexivity]. Qed.
