(** Properties C49 and C51 (sha1): sprout/checksum/sha1.hpp. *)
From Coq Require Import List Arith ZArith Bool.
From Verif Require Import Base BitModel ShaModel ShaSpec ShaProof ShaProof2.
Import ListNotations.
Open Scope Z_scope.

(** ** C49: [make_sha1] is SHA-1 as RFC 3174 defines it; [2 * length msg + 1] recursive calls of
    process_block_impl are enough. *)
Theorem make_sha1_correct : forall md r msg, Forall is_byte msg -> (2 * length msg < r)%nat ->
  make_sha1 md r msg = Ok (sha1_digest msg).
Proof. exact @make_sha1_ok. Qed.
Print Assumptions make_sha1_correct.

(** The specification gives the digests RFC 3174 and FIPS 180 publish: "abc", the empty message
    and the two-block message of 56 bytes. *)
Example sha1_digest_example :
  sha1_digest [0x61; 0x62; 0x63] =
    [0xA9;0x99;0x3E;0x36; 0x47;0x06;0x81;0x6A; 0xBA;0x3E;0x25;0x71; 0x78;0x50;0xC2;0x6C; 0x9C;0xD0;0xD8;0x9D] /\
  sha1_digest [] =
    [0xDA;0x39;0xA3;0xEE; 0x5E;0x6B;0x4B;0x0D; 0x32;0x55;0xBF;0xEF; 0x95;0x60;0x18;0x90; 0xAF;0xD8;0x07;0x09] /\
  sha1_digest (concat (map (fun i => [0x61 + i; 0x62 + i; 0x63 + i; 0x64 + i]) [0;1;2;3;4;5;6;7;8;9;10;11;12;13])) =
    [0x84;0x98;0x3E;0x44; 0x1C;0x3B;0xD2;0x6E; 0xBA;0xAE;0x4A;0xA1; 0xF9;0x51;0x29;0xE5; 0xE5;0x46;0x70;0xF1].
Proof. vm_compute. repeat split. Qed.

Example make_sha1_example : make_sha1 false 7 [0x61; 0x62; 0x63] =
  Ok [0xA9;0x99;0x3E;0x36; 0x47;0x06;0x81;0x6A; 0xBA;0x3E;0x25;0x71; 0x78;0x50;0xC2;0x6C; 0x9C;0xD0;0xD8;0x9D].
Proof.
  rewrite make_sha1_correct.
  - exact (f_equal Ok (proj1 sha1_digest_example)).
  - now apply bytes_check.
  - now apply Nat.ltb_lt.
Qed.

(** ** C51 for sha1: however a message is cut into pieces, and whichever mixture of the two
    interfaces is used, the object ends in the state that one [process_block] with the whole
    message leaves, and its checksum is the digest of the message. *)
Theorem sha1_pieces_correct : forall md r ps, Forall is_byte (concat (map piece_bytes ps)) ->
  (2 * length (concat (map piece_bytes ps)) < r)%nat ->
  exists s, feed_pieces md r sha1_new ps = Ok s /\
    feed_pieces md r sha1_new [ByBlock (concat (map piece_bytes ps))] = Ok s /\
    checksum md s = Ok (sha1_digest (concat (map piece_bytes ps))).
Proof. exact @sha1_pieces_ok. Qed.
Print Assumptions sha1_pieces_correct.

Example sha1_pieces_example :
  Forall is_byte (concat (map piece_bytes [ByByte 1; MutBlock (repeat 7 70); ByBlock [2; 3]; MutByte 255])) /\
  (2 * length (concat (map piece_bytes [ByByte 1; MutBlock (repeat 7 70); ByBlock [2; 3]; MutByte 255]%Z)) < 149)%nat.
Proof. split; [now apply bytes_check|now apply Nat.ltb_lt]. Qed.

(** After [reset], whatever was fed before, an object behaves as a new one. *)
Theorem sha1_reset_correct : forall md r ps s qs, Forall is_byte (concat (map piece_bytes ps)) ->
  (2 * length (concat (map piece_bytes ps)) < r)%nat ->
  feed_pieces md r sha1_new ps = Ok s ->
  Forall is_byte (concat (map piece_bytes qs)) -> (2 * length (concat (map piece_bytes qs)) < r)%nat ->
  exists s', feed_pieces md r (reset s) qs = Ok s' /\
    checksum md s' = Ok (sha1_digest (concat (map piece_bytes qs))).
Proof. exact @sha1_reset_ok. Qed.
Print Assumptions sha1_reset_correct.

(** The buffer is not cleared by [reset]: the states differ, the digests do not. *)
Example sha1_reset_example :
  (s <- m_process_block false sha1_new [1; 2; 3] ;; Ok (firstn 3 (block_ (reset s)))) = Ok [1; 2; 3] /\
  (s <- m_process_block false sha1_new [1; 2; 3] ;; s <- m_process_byte false (reset s) 9 ;;
   Ok (firstn 3 (block_ s))) = Ok [9; 2; 3].
Proof. vm_compute. split; reflexivity. Qed.
