(** Model of sprout/checksum/md5.hpp.  Nothing is proved in this file.

    C integers as in BitModel.v with 32-bit int ([il] = 2); std::size_t is 64 bits wide, so the
    conversions of std::uint64_t values to std::size_t lose nothing and are left out.  The object
    (lines 233-235) is a record, its arrays are lists.  The input of process_block is the
    sequence of bytes that make_bytes_iterator (line 435) yields; that iterator, make_array and
    fixed::set are not modelled beyond their meaning on arrays.  The recursions of
    process_bits_impl, process_block_impl and process_padding are structural, so they need no
    fuel.  The mutating process_block_impl (lines 364-369) increments a reference to a constant
    iterator and does not compile when it is instantiated; the mutating process_block,
    process_bytes and process_range are therefore not modelled. *)
From Coq Require Import List Arith ZArith Bool.
From Verif Require Import Base BitModel ShaModel.
Import ListNotations.
Open Scope Z_scope.

(** lines 31-46 *)
Definition func_f (x y z : Z) : Z := Z.lor (Z.land x y) (Z.land (cpl u32 x) z).
Definition func_g (x y z : Z) : Z := Z.lor (Z.land x z) (Z.land y (cpl u32 z)).
Definition func_h (x y z : Z) : Z := Z.lxor (Z.lxor x y) z.
Definition func_i (x y z : Z) : Z := Z.lxor y (Z.lor x (cpl u32 z)).

(** lines 135-170: [round_table<N>]: xis, ts, ss *)
Definition table1 : list nat * list Z * list Z :=
  ([0; 1; 2; 3; 4; 5; 6; 7; 8; 9; 10; 11; 12; 13; 14; 15]%nat,
   [0xD76AA478; 0xE8C7B756; 0x242070DB; 0xC1BDCEEE; 0xF57C0FAF; 0x4787C62A; 0xA8304613; 0xFD469501;
    0x698098D8; 0x8B44F7AF; 0xFFFF5BB1; 0x895CD7BE; 0x6B901122; 0xFD987193; 0xA679438E; 0x49B40821],
   [7; 12; 17; 22; 7; 12; 17; 22; 7; 12; 17; 22; 7; 12; 17; 22]).
Definition table2 : list nat * list Z * list Z :=
  ([1; 6; 11; 0; 5; 10; 15; 4; 9; 14; 3; 8; 13; 2; 7; 12]%nat,
   [0xF61E2562; 0xC040B340; 0x265E5A51; 0xE9B6C7AA; 0xD62F105D; 0x02441453; 0xD8A1E681; 0xE7D3FBC8;
    0x21E1CDE6; 0xC33707D6; 0xF4D50D87; 0x455A14ED; 0xA9E3E905; 0xFCEFA3F8; 0x676F02D9; 0x8D2A4C8A],
   [5; 9; 14; 20; 5; 9; 14; 20; 5; 9; 14; 20; 5; 9; 14; 20]).
Definition table3 : list nat * list Z * list Z :=
  ([5; 8; 11; 14; 1; 4; 7; 10; 13; 0; 3; 6; 9; 12; 15; 2]%nat,
   [0xFFFA3942; 0x8771F681; 0x6D9D6122; 0xFDE5380C; 0xA4BEEA44; 0x4BDECFA9; 0xF6BB4B60; 0xBEBFBC70;
    0x289B7EC6; 0xEAA127FA; 0xD4EF3085; 0x04881D05; 0xD9D4D039; 0xE6DB99E5; 0x1FA27CF8; 0xC4AC5665],
   [4; 11; 16; 23; 4; 11; 16; 23; 4; 11; 16; 23; 4; 11; 16; 23]).
Definition table4 : list nat * list Z * list Z :=
  ([0; 7; 14; 5; 12; 3; 10; 1; 8; 15; 6; 13; 4; 11; 2; 9]%nat,
   [0xF4292244; 0x432AFF97; 0xAB9423A7; 0xFC93A039; 0x655B59C3; 0x8F0CCC92; 0xFFEFF47D; 0x85845DD1;
    0x6FA87E4F; 0xFE2CE6E0; 0xA3014314; 0x4E0811A1; 0xF7537E82; 0xBD3AF235; 0x2AD7D2BB; 0xEB86D391],
   [6; 10; 15; 21; 6; 10; 15; 21; 6; 10; 15; 21; 6; 10; 15; 21]).

(** [md5], lines 233-235 *)
Record md5 : Type := Md5 { k_ : list Z; mblock_ : list Z; mbit_count_ : Z }.

(** lines 371-375 and 376-383 *)
Definition md5_new : md5 := Md5 [0x67452301; 0xEFCDAB89; 0x98BADCFE; 0x10325476] (repeat 0 16) 0.
Definition md5_reset (s : md5) : md5 := md5_new.

(** [((byte >> n) & 1) != 0] of a std::uint8_t, promoted to int *)
Definition bit_of (byte n : Z) : res bool :=
  x <- shr i32 byte n ;; Ok (negb (Z.land x 1 =? 0)).

Section Md.
  Variable md : bool.

  (** lines 48-75: [b + rotl(a + f(b, c, d) + x + t, s)] *)
  Definition round_op (f : Z -> Z -> Z -> Z) (a b c d x t s : Z) : res Z :=
    y <- rotl 2 md u32 (add32 (add32 (add32 a (f b c d)) x) t) s ;; Ok (add32 b y).

  (** lines 77-93; [r] bounds the recursion, called with 17 *)
  Fixpoint round_x_impl (r : nat) (f : Z -> Z -> Z -> Z) (tb : list nat * list Z * list Z)
      (a b c d : Z) (x : list Z) (i : nat) : res (list Z) :=
    match r with
    | O => Fuel
    | S r =>
        if (i =? 16)%nat then Ok [a; b; c; d]
        else
          let '(xis, ts, ss) := tb in
          xi <- rd xis i ;; xv <- rd x xi ;; t <- rd ts i ;; s <- rd ss i ;;
          if (i mod 4 =? 0)%nat then a <- round_op f a b c d xv t s ;; round_x_impl r f tb a b c d x (i + 1)
          else if (i mod 4 =? 1)%nat then d <- round_op f d a b c xv t s ;; round_x_impl r f tb a b c d x (i + 1)
          else if (i mod 4 =? 2)%nat then c <- round_op f c d a b xv t s ;; round_x_impl r f tb a b c d x (i + 1)
          else b <- round_op f b c d a xv t s ;; round_x_impl r f tb a b c d x (i + 1)
    end.

  (** lines 94-102 *)
  Definition round_x (f : Z -> Z -> Z -> Z) (tb : list nat * list Z * list Z) (k x : list Z) : res (list Z) :=
    a <- rd k 0 ;; b <- rd k 1 ;; c <- rd k 2 ;; d <- rd k 3 ;; round_x_impl 17 f tb a b c d x 0.

  (** lines 173-223 *)
  Definition round_all (k x : list Z) : res (list Z) :=
    k1 <- round_x func_f table1 k x ;; k2 <- round_x func_g table2 k1 x ;;
    k3 <- round_x func_h table3 k2 x ;; round_x func_i table4 k3 x.

  (** lines 264-275; the two-argument constructor of lines 237-244 clears the block *)
  Definition process_block_k (s : md5) : res md5 :=
    x <- round_all (k_ s) (mblock_ s) ;;
    k0 <- rd (k_ s) 0 ;; k1 <- rd (k_ s) 1 ;; k2 <- rd (k_ s) 2 ;; k3 <- rd (k_ s) 3 ;;
    x0 <- rd x 0 ;; x1 <- rd x 1 ;; x2 <- rd x 2 ;; x3 <- rd x 3 ;;
    Ok (Md5 [add32 k0 x0; add32 k1 x1; add32 k2 x2; add32 k3 x3] (repeat 0 16) (mbit_count_ s)).

  (** lines 254-263 *)
  Definition md5_process (k block : list Z) (bit_count : Z) : res md5 :=
    if negb (bit_count mod (64 * 8) =? 0) then Ok (Md5 k block bit_count)
    else process_block_k (Md5 k block bit_count).

  (** [static_cast<std::uint32_t>(bit) << (offset / 8 * 8 + (7 - offset % 8))] *)
  Definition bit_shl (bit : bool) (offset : Z) : res Z :=
    shl md u32 (Z.b2z bit) (offset / 8 * 8 + (7 - offset mod 8)).

  (** lines 276-286 *)
  Definition process_bit_impl (s : md5) (bit : bool) (index : nat) (offset : Z) : res md5 :=
    w <- rd (mblock_ s) index ;; x <- bit_shl bit offset ;;
    b <- wr (mblock_ s) index (Z.lor w x) ;;
    md5_process (k_ s) b (add64 (mbit_count_ s) 1).

  (** lines 406-412 *)
  Definition c_process_bit (s : md5) (bit : bool) : res md5 :=
    process_bit_impl s bit (Z.to_nat (mbit_count_ s mod (64 * 8) / 32)) (mbit_count_ s mod 32).

  (** lines 287-291, 413-415 *)
  Fixpoint c_process_bits (s : md5) (bits : Z) (i : nat) : res md5 :=
    match i with
    | O => Ok s
    | S j => b <- bit_of bits (Z.of_nat j) ;; s1 <- c_process_bit s b ;; c_process_bits s1 bits j
    end.

  (** lines 292-310 *)
  Definition process_byte_impl (s : md5) (byte : Z) (index : nat) (offset : Z) : res md5 :=
    w <- rd (mblock_ s) index ;;
    b7 <- bit_of byte 7 ;; x7 <- bit_shl b7 offset ;;
    b6 <- bit_of byte 6 ;; x6 <- bit_shl b6 (offset + 1) ;;
    b5 <- bit_of byte 5 ;; x5 <- bit_shl b5 (offset + 2) ;;
    b4 <- bit_of byte 4 ;; x4 <- bit_shl b4 (offset + 3) ;;
    b3 <- bit_of byte 3 ;; x3 <- bit_shl b3 (offset + 4) ;;
    b2 <- bit_of byte 2 ;; x2 <- bit_shl b2 (offset + 5) ;;
    b1 <- bit_of byte 1 ;; x1 <- bit_shl b1 (offset + 6) ;;
    b0 <- bit_of byte 0 ;; x0 <- bit_shl b0 (offset + 7) ;;
    b <- wr (mblock_ s) index
           (Z.lor (Z.lor (Z.lor (Z.lor (Z.lor (Z.lor (Z.lor (Z.lor w x7) x6) x5) x4) x3) x2) x1) x0) ;;
    md5_process (k_ s) b (add64 (mbit_count_ s) 8).

  (** lines 416-431 *)
  Definition md5_c_process_byte (s : md5) (byte : Z) : res md5 :=
    if mbit_count_ s mod 8 =? 0 then
      process_byte_impl s byte (Z.to_nat (mbit_count_ s mod (64 * 8) / 32)) (mbit_count_ s mod 32)
    else
      b <- bit_of byte 7 ;; s <- c_process_bit s b ;; b <- bit_of byte 6 ;; s <- c_process_bit s b ;;
      b <- bit_of byte 5 ;; s <- c_process_bit s b ;; b <- bit_of byte 4 ;; s <- c_process_bit s b ;;
      b <- bit_of byte 3 ;; s <- c_process_bit s b ;; b <- bit_of byte 2 ;; s <- c_process_bit s b ;;
      b <- bit_of byte 1 ;; s <- c_process_bit s b ;; b <- bit_of byte 0 ;; c_process_bit s b.

  (** lines 311-316, 432-438 *)
  Fixpoint md5_c_process_block (s : md5) (bytes : list Z) : res md5 :=
    match bytes with
    | [] => Ok s
    | x :: t => s1 <- md5_c_process_byte s x ;; md5_c_process_block s1 t
    end.

  (** lines 317-319 *)
  Definition pad_size (s : md5) : Z := conv u64 (511 + 448 - mbit_count_ s) mod 512.

  (** lines 320-324 *)
  Fixpoint md5_process_padding (s : md5) (n : nat) : res md5 :=
    match n with
    | O => Ok s
    | S n => s1 <- c_process_bit s false ;; md5_process_padding s1 n
    end.

  (** lines 325-335 *)
  Definition md5_process_length (s : md5) (bit_count : Z) : res md5 :=
    b <- byte_at u64 bit_count 0 ;; s <- md5_c_process_byte s b ;;
    b <- byte_at u64 bit_count 8 ;; s <- md5_c_process_byte s b ;;
    b <- byte_at u64 bit_count 16 ;; s <- md5_c_process_byte s b ;;
    b <- byte_at u64 bit_count 24 ;; s <- md5_c_process_byte s b ;;
    b <- byte_at u64 bit_count 32 ;; s <- md5_c_process_byte s b ;;
    b <- byte_at u64 bit_count 40 ;; s <- md5_c_process_byte s b ;;
    b <- byte_at u64 bit_count 48 ;; s <- md5_c_process_byte s b ;;
    b <- byte_at u64 bit_count 56 ;; md5_c_process_byte s b.

  (** lines 336-355 *)
  Definition le_bytes (w : Z) : res (list Z) :=
    b0 <- byte_at u32 w 0 ;; b1 <- byte_at u32 w 8 ;; b2 <- byte_at u32 w 16 ;; b3 <- byte_at u32 w 24 ;;
    Ok [b0; b1; b2; b3].
  Definition md5_make_value (s : md5) : res (list Z) :=
    k0 <- rd (k_ s) 0 ;; k1 <- rd (k_ s) 1 ;; k2 <- rd (k_ s) 2 ;; k3 <- rd (k_ s) 3 ;;
    v0 <- le_bytes k0 ;; v1 <- le_bytes k1 ;; v2 <- le_bytes k2 ;; v3 <- le_bytes k3 ;;
    Ok (v0 ++ v1 ++ v2 ++ v3).

  (** lines 480-482: on a constant object process_bit is lines 385-387, c_process_bit *)
  Definition md5_checksum (s : md5) : res (list Z) :=
    s1 <- c_process_bit s true ;; s2 <- md5_process_padding s1 (Z.to_nat (pad_size s)) ;;
    s3 <- md5_process_length s2 (mbit_count_ s) ;; md5_make_value s3.

  (** lines 491-495 *)
  Definition make_md5 (bytes : list Z) : res (list Z) :=
    s <- md5_c_process_block md5_new bytes ;; md5_checksum s.

  (** ** The mutating interface *)

  (** lines 356-363: the block is cleared by assign(0) *)
  Definition m_process_block_k (s : md5) : res md5 :=
    x <- round_all (k_ s) (mblock_ s) ;;
    k0 <- rd (k_ s) 0 ;; x0 <- rd x 0 ;; k <- wr (k_ s) 0 (add32 k0 x0) ;;
    k1 <- rd k 1 ;; x1 <- rd x 1 ;; k <- wr k 1 (add32 k1 x1) ;;
    k2 <- rd k 2 ;; x2 <- rd x 2 ;; k <- wr k 2 (add32 k2 x2) ;;
    k3 <- rd k 3 ;; x3 <- rd x 3 ;; k <- wr k 3 (add32 k3 x3) ;;
    Ok (Md5 k (repeat 0 (length (mblock_ s))) (mbit_count_ s)).

  (** lines 448-455 *)
  Definition m_process_bit (s : md5) (bit : bool) : res md5 :=
    let index := Z.to_nat (mbit_count_ s mod (64 * 8) / 32) in
    let offset := mbit_count_ s mod 32 in
    w <- rd (mblock_ s) index ;; x <- bit_shl bit offset ;; b <- wr (mblock_ s) index (Z.lor w x) ;;
    let bc := add64 (mbit_count_ s) 1 in
    if bc mod 512 =? 0 then m_process_block_k (Md5 (k_ s) b bc) else Ok (Md5 (k_ s) b bc).

  (** lines 456-463 *)
  Fixpoint m_process_bits (s : md5) (bits : Z) (bit_count : nat) : res md5 :=
    match bit_count with
    | O => Ok s
    | S j => b <- bit_of bits (Z.of_nat j) ;; s1 <- m_process_bit s b ;; m_process_bits s1 bits j
    end.
  Definition md5_m_process_byte (s : md5) (byte : Z) : res md5 := m_process_bits s byte 8.

  (** A client that feeds a message in pieces through the two interfaces *)
  Inductive md_piece : Type :=
  | CBit (b : bool) | CBits (x : Z) (n : nat) | CByte (x : Z) | CBlock (xs : list Z)
  | MBit (b : bool) | MBits (x : Z) (n : nat) | MByte (x : Z).
  (** the bits a piece stands for, in the order in which they enter *)
  Definition md_piece_bits (p : md_piece) : list bool :=
    let low x n := map (fun i => Z.testbit x (Z.of_nat i)) (rev (seq 0 n)) in
    match p with
    | CBit b => [b] | CBits x n => low x n | CByte x => low x 8%nat | CBlock xs => flat_map (fun x => low x 8%nat) xs
    | MBit b => [b] | MBits x n => low x n | MByte x => low x 8%nat
    end.
  Definition md_feed_piece (s : md5) (p : md_piece) : res md5 :=
    match p with
    | CBit b => c_process_bit s b
    | CBits x n => c_process_bits s x n
    | CByte x => md5_c_process_byte s x
    | CBlock xs => md5_c_process_block s xs
    | MBit b => m_process_bit s b
    | MBits x n => m_process_bits s x n
    | MByte x => md5_m_process_byte s x
    end.
  Fixpoint md_feed_pieces (s : md5) (ps : list md_piece) : res md5 :=
    match ps with
    | [] => Ok s
    | p :: ps => s1 <- md_feed_piece s p ;; md_feed_pieces s1 ps
    end.
End Md.
