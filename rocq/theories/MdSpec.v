(** MD5 as RFC 1321 defines it, on sequences of bits.  Bytes are sequences of eight bits, most
    significant first (RFC 1321, 2); words are four bytes, least significant first. *)
From Coq Require Import List Arith ZArith Bool.
From Verif Require Import ShaSpec.
Import ListNotations.
Open Scope Z_scope.

Definition byte_bits (x : Z) : list bool := map (Z.testbit x) [7; 6; 5; 4; 3; 2; 1; 0].
Definition bits_byte (l : list bool) : Z := fold_left (fun a b => 2 * a + Z.b2z b) l 0.
Definition of_le (bs : list Z) : Z := fold_right (fun b a => b + 2 ^ 8 * a) 0 bs.
Definition le32 (w : Z) : list Z := map (fun i => w / 2 ^ (8 * i) mod 2 ^ 8) [0; 1; 2; 3].
Definition le64 (n : Z) : list Z := map (fun i => n / 2 ^ (8 * i) mod 2 ^ 8) [0; 1; 2; 3; 4; 5; 6; 7].

Definition bits_word (l : list bool) : Z := of_le (map bits_byte (blocks 8 l)).
Definition bits_words (l : list bool) : list Z := map bits_word (blocks 32 l).

(** RFC 1321, 3.4 *)
Definition md_f (i : nat) (x y z : Z) : Z :=
  if (i <? 16)%nat then Z.lor (Z.land x y) (Z.land (not32 x) z)
  else if (i <? 32)%nat then Z.lor (Z.land x z) (Z.land y (not32 z))
  else if (i <? 48)%nat then Z.lxor (Z.lxor x y) z
  else Z.lxor y (Z.lor x (not32 z)).
(** which word of the block operation [i] uses *)
Definition md_g (i : nat) : nat :=
  if (i <? 16)%nat then i
  else if (i <? 32)%nat then (5 * i + 1) mod 16
  else if (i <? 48)%nat then (3 * i + 5) mod 16
  else (7 * i) mod 16.
(** by how many bits it rotates *)
Definition md_s (i : nat) : Z :=
  nth (i mod 4) (nth (i / 16) [[7; 12; 17; 22]; [5; 9; 14; 20]; [4; 11; 16; 23]; [6; 10; 15; 21]] []) 0.
(** the integer part of 4294967296 * abs (sin (i + 1)) *)
Definition md_t : list Z :=
  [0xD76AA478; 0xE8C7B756; 0x242070DB; 0xC1BDCEEE; 0xF57C0FAF; 0x4787C62A; 0xA8304613; 0xFD469501;
   0x698098D8; 0x8B44F7AF; 0xFFFF5BB1; 0x895CD7BE; 0x6B901122; 0xFD987193; 0xA679438E; 0x49B40821;
   0xF61E2562; 0xC040B340; 0x265E5A51; 0xE9B6C7AA; 0xD62F105D; 0x02441453; 0xD8A1E681; 0xE7D3FBC8;
   0x21E1CDE6; 0xC33707D6; 0xF4D50D87; 0x455A14ED; 0xA9E3E905; 0xFCEFA3F8; 0x676F02D9; 0x8D2A4C8A;
   0xFFFA3942; 0x8771F681; 0x6D9D6122; 0xFDE5380C; 0xA4BEEA44; 0x4BDECFA9; 0xF6BB4B60; 0xBEBFBC70;
   0x289B7EC6; 0xEAA127FA; 0xD4EF3085; 0x04881D05; 0xD9D4D039; 0xE6DB99E5; 0x1FA27CF8; 0xC4AC5665;
   0xF4292244; 0x432AFF97; 0xAB9423A7; 0xFC93A039; 0x655B59C3; 0x8F0CCC92; 0xFFEFF47D; 0x85845DD1;
   0x6FA87E4F; 0xFE2CE6E0; 0xA3014314; 0x4E0811A1; 0xF7537E82; 0xBD3AF235; 0x2AD7D2BB; 0xEB86D391].

(** One operation; the registers move on by one place, so that after four operations every
    register has been replaced. *)
Definition md_step (x : list Z) (v : Z * Z * Z * Z) (i : nat) : Z * Z * Z * Z :=
  let '(a, b, c, d) := v in
  (d, plus32 b (rol32 (md_s i) (plus32 (plus32 (plus32 a (md_f i b c d)) (nth (md_g i) x 0)) (nth i md_t 0))), b, c).

Definition md_compress (v : Z * Z * Z * Z) (chunk : list bool) : Z * Z * Z * Z :=
  let '(a0, b0, c0, d0) := v in
  let '(a, b, c, d) := fold_left (md_step (bits_words chunk)) (seq 0 64) v in
  (plus32 a0 a, plus32 b0 b, plus32 c0 c, plus32 d0 d).

(** RFC 1321, 3.3 *)
Definition md_init : Z * Z * Z * Z := (0x67452301, 0xEFCDAB89, 0x98BADCFE, 0x10325476).

(** RFC 1321, 3.1, 3.2: a one bit, zeros up to 448 modulo 512, the length in 64 bits *)
Definition md_zeros (len : nat) : nat := Z.to_nat ((447 - Z.of_nat len) mod 512).
Definition md_pad (msg : list bool) : list bool :=
  msg ++ [true] ++ repeat false (md_zeros (length msg)) ++ concat (map byte_bits (le64 (Z.of_nat (length msg)))).

Definition md5_digest_bits (msg : list bool) : list Z :=
  let '(a, b, c, d) := fold_left md_compress (blocks 512 (md_pad msg)) md_init in
  le32 a ++ le32 b ++ le32 c ++ le32 d.

Definition md5_digest (msg : list Z) : list Z := md5_digest_bits (concat (map byte_bits msg)).
