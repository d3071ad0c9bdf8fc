(** SHA-1 after RFC 3174 / FIPS 180-1, for messages consisting of whole bytes.  Independent of
    the model: words are numbers below 2^32, bytes numbers below 2^8. *)
From Coq Require Import List Arith ZArith Bool.
Import ListNotations.
Open Scope Z_scope.

Definition is_byte (x : Z) : Prop := 0 <= x < 2 ^ 8.
Definition is_word (x : Z) : Prop := 0 <= x < 2 ^ 32.

(** Addition modulo 2^32, complement and circular left shift (RFC 3174, 3). *)
Definition plus32 (x y : Z) : Z := (x + y) mod 2 ^ 32.
Definition not32 (x : Z) : Z := 2 ^ 32 - 1 - x.
Definition rol32 (n x : Z) : Z := Z.lor ((x * 2 ^ n) mod 2 ^ 32) (x / 2 ^ (32 - n)).

(** RFC 3174, 5: the functions and constants *)
Definition sha_f (t : nat) (b c d : Z) : Z :=
  if (t <=? 19)%nat then Z.lor (Z.land b c) (Z.land (not32 b) d)
  else if (t <=? 39)%nat then Z.lxor (Z.lxor b c) d
  else if (t <=? 59)%nat then Z.lor (Z.lor (Z.land b c) (Z.land b d)) (Z.land c d)
  else Z.lxor (Z.lxor b c) d.
Definition sha_k (t : nat) : Z :=
  if (t <=? 19)%nat then 0x5A827999
  else if (t <=? 39)%nat then 0x6ED9EBA1
  else if (t <=? 59)%nat then 0x8F1BBCDC
  else 0xCA62C1D6.

(** Big-endian bytes of words and of 64-bit numbers *)
Definition be32 (w : Z) : list Z := map (fun i => w / 2 ^ (8 * i) mod 2 ^ 8) [3; 2; 1; 0].
Definition be64 (n : Z) : list Z := map (fun i => n / 2 ^ (8 * i) mod 2 ^ 8) [7; 6; 5; 4; 3; 2; 1; 0].
Definition of_be32 (bs : list Z) : Z := fold_left (fun a b => a * 2 ^ 8 + b) bs 0.

(** The block of [n] elements number [i] of a list, and all complete blocks *)
Definition block_of {A} (n : nat) (l : list A) (i : nat) : list A := firstn n (skipn (n * i) l).
Definition blocks {A} (n : nat) (l : list A) : list (list A) :=
  map (block_of n l) (seq 0 (length l / n)).

(** RFC 3174, 6.1 (a), (b): the message schedule, 16 words extended to 80 *)
Fixpoint extend (n : nat) (ws : list Z) : list Z :=
  match n with
  | O => ws
  | S n =>
      let t := length ws in
      extend n (ws ++ [rol32 1 (Z.lxor (Z.lxor (Z.lxor (nth (t - 3) ws 0) (nth (t - 8) ws 0))
                                   (nth (t - 14) ws 0)) (nth (t - 16) ws 0))])
  end.
Definition schedule (block : list Z) : list Z := extend 64 (map of_be32 (blocks 4 block)).

(** RFC 3174, 6.1 (c)-(e) *)
Definition sha_step (w : list Z) (v : Z * Z * Z * Z * Z) (t : nat) : Z * Z * Z * Z * Z :=
  let '(a, b, c, d, e) := v in
  (plus32 (plus32 (plus32 (plus32 (rol32 5 a) (sha_f t b c d)) e) (nth t w 0)) (sha_k t),
   a, rol32 30 b, c, d).
Definition compress (h : Z * Z * Z * Z * Z) (block : list Z) : Z * Z * Z * Z * Z :=
  let '(h0, h1, h2, h3, h4) := h in
  let '(a, b, c, d, e) := fold_left (sha_step (schedule block)) (seq 0 80) h in
  (plus32 h0 a, plus32 h1 b, plus32 h2 c, plus32 h3 d, plus32 h4 e).

Definition sha_init : Z * Z * Z * Z * Z :=
  (0x67452301, 0xEFCDAB89, 0x98BADCFE, 0x10325476, 0xC3D2E1F0).

(** RFC 3174, 4: a one bit, zeros up to 64 bits short of a multiple of 512 bits, and the length
    of the message in bits *)
Definition zeros (len : nat) : nat := Z.to_nat ((55 - Z.of_nat len) mod 64).
Definition pad (msg : list Z) : list Z :=
  msg ++ [0x80] ++ repeat 0 (zeros (length msg)) ++ be64 (8 * Z.of_nat (length msg)).

Definition sha1_digest (msg : list Z) : list Z :=
  let '(h0, h1, h2, h3, h4) := fold_left compress (blocks 64 (pad msg)) sha_init in
  be32 h0 ++ be32 h1 ++ be32 h2 ++ be32 h3 ++ be32 h4.
