(** Model of sprout/checksum/sha1.hpp.  Nothing is proved in this file.

    C integers are modelled as in BitModel.v, with 32-bit int ([il] = 2); [md] selects the
    rule for signed left shifts.  The object state (lines 45-48) is a record, its arrays are
    lists.  The input is the sequence of bytes that make_bytes_iterator (lines 489, 509)
    yields; that iterator itself and make_array, fixed::set, fixed::copy, fixed::fill and sub
    are not modelled beyond their meaning on arrays.  The branch for
    SPROUT_WORKAROUND_NOT_TERMINATE_RECURSIVE_CONSTEXPR_FUNCTION_TEMPLATE (lines 73-213) is
    not modelled. *)
From Coq Require Import List Arith ZArith Bool.
From Verif Require Import Base BitModel.
Import ListNotations.
Open Scope Z_scope.

Definition u8 : ity := Ity false 0.
Definition u32 : ity := Ity false 2.
Definition u64 : ity := Ity false 3.
Definition i32 : ity := Ity true 2.

(** [x + y] of std::uint32_t and std::uint64_t operands *)
Definition add32 (x y : Z) : Z := conv u32 (x + y).
Definition add64 (x y : Z) : Z := conv u64 (x + y).

(** [static_cast<std::uint8_t>((x >> s) & 0xFF)] of a std::uint32_t or std::uint64_t *)
Definition byte_at (t : ity) (x s : Z) : res Z :=
  y <- shr t x s ;; Ok (conv u8 (Z.land y 255)).

(** [for (i = a; i < a + n; ++i) s = f(i, s)] *)
Fixpoint for_up {S : Type} (n : nat) (a : nat) (f : nat -> S -> res S) (s : S) : res S :=
  match n with
  | O => Ok s
  | Datatypes.S n => s1 <- f a s ;; for_up n (Datatypes.S a) f s1
  end.

(** The array [a] with [xs] copied to it from position [i] on: fixed::copy to
    sub(a, i); elements beyond the end of the array are dropped. *)
Definition copy_into (a : list Z) (i : nat) (xs : list Z) : list Z :=
  firstn (length a) (firstn i a ++ xs ++ skipn (i + length xs) a).

(** [sha1], lines 45-48 *)
Record sha1 : Type := Sha1 { h_ : list Z; block_ : list Z; block_byte_index_ : nat; bit_count_ : Z }.

(** lines 447-452 *)
Definition sha1_new : sha1 :=
  Sha1 [0x67452301; 0xEFCDAB89; 0x98BADCFE; 0x10325476; 0xC3D2E1F0] (repeat 0 64) 0 0.

Section Sha.
  Variable md : bool.

  Notation rotl32 := (rotl 2 md u32).

  (** lines 63-66: [(b0 << 24) | (b1 << 16) | (b2 << 8) | b3] with bytes promoted to int,
      converted to std::uint32_t *)
  Definition be_word (b : list Z) (i : nat) : res Z :=
    b0 <- rd b (i * 4) ;; b1 <- rd b (i * 4 + 1) ;; b2 <- rd b (i * 4 + 2) ;; b3 <- rd b (i * 4 + 3) ;;
    x0 <- shl md i32 b0 24 ;; x1 <- shl md i32 b1 16 ;; x2 <- shl md i32 b2 8 ;;
    Ok (conv u32 (Z.lor (Z.lor (Z.lor x0 x1) x2) b3)).

  (** lines 61-72: calc_w; [r] bounds the recursion *)
  Fixpoint calc_w (r : nat) (b : list Z) (i : nat) : res Z :=
    match r with
    | O => Fuel
    | S r =>
        if (i <? 16)%nat then be_word b i
        else
          w3 <- calc_w r b (i - 3) ;; w8 <- calc_w r b (i - 8) ;;
          w14 <- calc_w r b (i - 14) ;; w16 <- calc_w r b (i - 16) ;;
          rotl32 (Z.lxor (Z.lxor (Z.lxor w3 w8) w14) w16) 1
    end.

  (** lines 250-258 and 407-419 *)
  Definition round_f (i : nat) (b c d : Z) : Z :=
    if (i <? 20)%nat then Z.lor (Z.land b c) (Z.land (cpl u32 b) d)
    else if (i <? 40)%nat then Z.lxor (Z.lxor b c) d
    else if (i <? 60)%nat then Z.lor (Z.lor (Z.land b c) (Z.land b d)) (Z.land c d)
    else Z.lxor (Z.lxor b c) d.
  Definition round_k (i : nat) : Z :=
    if (i <? 20)%nat then 0x5A827999
    else if (i <? 40)%nat then 0x6ED9EBA1
    else if (i <? 60)%nat then 0x8F1BBCDC
    else 0xCA62C1D6.

  (** line 261: [{{h_[0] + a, h_[1] + b, h_[2] + c, h_[3] + d, h_[4] + e}}] *)
  Definition add_h (h : list Z) (a b c d e : Z) : res (list Z) :=
    h0 <- rd h 0 ;; h1 <- rd h 1 ;; h2 <- rd h 2 ;; h3 <- rd h 3 ;; h4 <- rd h 4 ;;
    Ok [add32 h0 a; add32 h1 b; add32 h2 c; add32 h3 d; add32 h4 e].

  (** lines 227-267: process_block_2 inlined in process_block_1; [r] bounds the recursion *)
  Fixpoint process_block_1 (r : nat) (s : sha1) (a b c d e : Z) (i : nat) : res sha1 :=
    match r with
    | O => Fuel
    | S r =>
        if (i <? 80)%nat then
          let f := round_f i b c d in
          let k := round_k i in
          a5 <- rotl32 a 5 ;;
          w <- calc_w (S i) (block_ s) i ;;
          b30 <- rotl32 b 30 ;;
          process_block_1 r s (add32 (add32 (add32 (add32 a5 f) e) k) w) a b30 c d (S i)
        else
          h <- add_h (h_ s) a b c d e ;;
          Ok (Sha1 h (block_ s) (block_byte_index_ s) (bit_count_ s))
    end.

  (** lines 271-273: i goes from 0 to 80, so 81 calls *)
  Definition c_process_block0 (s : sha1) : res sha1 :=
    h0 <- rd (h_ s) 0 ;; h1 <- rd (h_ s) 1 ;; h2 <- rd (h_ s) 2 ;; h3 <- rd (h_ s) 3 ;; h4 <- rd (h_ s) 4 ;;
    process_block_1 81 s h0 h1 h2 h3 h4 0.

  (** lines 215-226 *)
  Definition process (h block : list Z) (block_byte_index : nat) (bit_count : Z) : res sha1 :=
    if negb (block_byte_index =? 64)%nat then Ok (Sha1 h block block_byte_index bit_count)
    else c_process_block0 (Sha1 h block 0 bit_count).

  (** lines 274-308: [rest] is [first, last), [args] the parameter pack; [r] bounds the
      recursion *)
  Fixpoint process_block_impl (r : nat) (s : sha1) (args rest : list Z) : res sha1 :=
    match r with
    | O => Fuel
    | S r =>
        let n := length args in
        if (n =? 64)%nat then
          match rest with
          | [] => process (h_ s) args 64 (add64 (bit_count_ s) (64 * 8))
          | _ :: _ =>
              s1 <- process (h_ s) args 64 (add64 (bit_count_ s) (64 * 8)) ;;
              process_block_impl r s1 [] rest
          end
        else
          match rest with
          | [] =>
              process (h_ s) (copy_into (block_ s) (block_byte_index_ s) args)
                (block_byte_index_ s + n) (add64 (bit_count_ s) (Z.of_nat n * 8))
          | x :: rest' =>
              if (block_byte_index_ s + n =? 64)%nat then
                s1 <- process (h_ s) (copy_into (block_ s) (block_byte_index_ s) args)
                        (block_byte_index_ s + n) (add64 (bit_count_ s) (Z.of_nat n * 8)) ;;
                process_block_impl r s1 [] rest
              else process_block_impl r s (args ++ [x]) rest'
          end
    end.

  (** lines 310-317 *)
  Definition process_one (s : sha1) : res sha1 :=
    b <- wr (block_ s) (block_byte_index_ s) 0x80 ;;
    process (h_ s) b (block_byte_index_ s + 1) (bit_count_ s).

  (** lines 318-326 *)
  Definition process_padding_after (s : sha1) : res sha1 :=
    process (h_ s) (repeat 0 64) 56 (bit_count_ s).

  (** lines 327-343 *)
  Definition process_padding (s : sha1) : res sha1 :=
    let i := block_byte_index_ s in
    if (i =? 56)%nat then Ok s
    else if (56 <? i)%nat then
      s1 <- process (h_ s) (copy_into (block_ s) i (repeat 0 (64 - i))) 64 (bit_count_ s) ;;
      process_padding_after s1
    else process (h_ s) (copy_into (block_ s) i (repeat 0 (56 - i))) 56 (bit_count_ s).

  (** lines 344-363 *)
  Definition process_length (s : sha1) : res sha1 :=
    b0 <- byte_at u64 (bit_count_ s) 56 ;; b1 <- byte_at u64 (bit_count_ s) 48 ;;
    b2 <- byte_at u64 (bit_count_ s) 40 ;; b3 <- byte_at u64 (bit_count_ s) 32 ;;
    b4 <- byte_at u64 (bit_count_ s) 24 ;; b5 <- byte_at u64 (bit_count_ s) 16 ;;
    b6 <- byte_at u64 (bit_count_ s) 8 ;; b7 <- byte_at u64 (bit_count_ s) 0 ;;
    process (h_ s) (copy_into (block_ s) (block_byte_index_ s) [b0; b1; b2; b3; b4; b5; b6; b7])
      (block_byte_index_ s + 8) (bit_count_ s).

  (** lines 364-387 *)
  Definition word_bytes (w : Z) : res (list Z) :=
    b0 <- byte_at u32 w 24 ;; b1 <- byte_at u32 w 16 ;; b2 <- byte_at u32 w 8 ;; b3 <- byte_at u32 w 0 ;;
    Ok [b0; b1; b2; b3].
  Definition make_value (s : sha1) : res (list Z) :=
    h0 <- rd (h_ s) 0 ;; h1 <- rd (h_ s) 1 ;; h2 <- rd (h_ s) 2 ;; h3 <- rd (h_ s) 3 ;; h4 <- rd (h_ s) 4 ;;
    v0 <- word_bytes h0 ;; v1 <- word_bytes h1 ;; v2 <- word_bytes h2 ;; v3 <- word_bytes h3 ;;
    v4 <- word_bytes h4 ;; Ok (v0 ++ v1 ++ v2 ++ v3 ++ v4).

  (** lines 478-485, 486-492 and 522-524: the value-returning interface *)
  Definition c_process_byte (s : sha1) (byte : Z) : res sha1 :=
    b <- wr (block_ s) (block_byte_index_ s) byte ;;
    process (h_ s) b (block_byte_index_ s + 1) (add64 (bit_count_ s) 8).
  Definition c_process_block (r : nat) (s : sha1) (bytes : list Z) : res sha1 :=
    process_block_impl r s [] bytes.
  Definition checksum (s : sha1) : res (list Z) :=
    s1 <- process_one s ;; s2 <- process_padding s1 ;; s3 <- process_length s2 ;; make_value s3.

  (** lines 534-537 *)
  Definition make_sha1 (r : nat) (bytes : list Z) : res (list Z) :=
    s <- c_process_block r sha1_new bytes ;; checksum s.

  (** ** The mutating interface *)

  (** lines 390-395: [w[i] = b0 << 24; w[i] |= b1 << 16; ...] *)
  Definition fill_w (b : list Z) (i : nat) (w : list Z) : res (list Z) :=
    b0 <- rd b (i * 4 + 0) ;; x0 <- shl md i32 b0 24 ;; w <- wr w i (conv u32 x0) ;;
    b1 <- rd b (i * 4 + 1) ;; x1 <- shl md i32 b1 16 ;; wi <- rd w i ;; w <- wr w i (conv u32 (Z.lor wi (conv u32 x1))) ;;
    b2 <- rd b (i * 4 + 2) ;; x2 <- shl md i32 b2 8 ;; wi <- rd w i ;; w <- wr w i (conv u32 (Z.lor wi (conv u32 x2))) ;;
    b3 <- rd b (i * 4 + 3) ;; wi <- rd w i ;; wr w i (conv u32 (Z.lor wi b3)).

  (** line 397 *)
  Definition extend_w (i : nat) (w : list Z) : res (list Z) :=
    w3 <- rd w (i - 3) ;; w8 <- rd w (i - 8) ;; w14 <- rd w (i - 14) ;; w16 <- rd w (i - 16) ;;
    x <- rotl32 (Z.lxor (Z.lxor (Z.lxor w3 w8) w14) w16) 1 ;; wr w i x.

  (** lines 405-425 *)
  Definition m_round (w : list Z) (i : nat) (v : Z * Z * Z * Z * Z) : res (Z * Z * Z * Z * Z) :=
    let '(a, b, c, d, e) := v in
    let f := round_f i b c d in
    let k := round_k i in
    a5 <- rotl32 a 5 ;; wi <- rd w i ;;
    let temp := add32 (add32 (add32 (add32 a5 f) e) k) wi in
    b30 <- rotl32 b 30 ;;
    Ok (temp, a, b30, c, d).

  (** lines 388-432 *)
  Definition m_process_block0 (s : sha1) : res sha1 :=
    w <- for_up 16 0 (fill_w (block_ s)) (repeat 0 80) ;;
    w <- for_up 64 16 extend_w w ;;
    h0 <- rd (h_ s) 0 ;; h1 <- rd (h_ s) 1 ;; h2 <- rd (h_ s) 2 ;; h3 <- rd (h_ s) 3 ;; h4 <- rd (h_ s) 4 ;;
    v <- for_up 80 0 (m_round w) (h0, h1, h2, h3, h4) ;;
    let '(a, b, c, d, e) := v in
    h <- add_h (h_ s) a b c d e ;;
    Ok (Sha1 h (block_ s) (block_byte_index_ s) (bit_count_ s)).

  (** lines 433-439 *)
  Definition m_process_byte_impl (s : sha1) (byte : Z) : res sha1 :=
    b <- wr (block_ s) (block_byte_index_ s) byte ;;
    let i := (block_byte_index_ s + 1)%nat in
    if (i =? 64)%nat then m_process_block0 (Sha1 (h_ s) b 0 (bit_count_ s))
    else Ok (Sha1 (h_ s) b i (bit_count_ s)).

  (** lines 502-505 *)
  Definition m_process_byte (s : sha1) (byte : Z) : res sha1 :=
    s1 <- m_process_byte_impl s byte ;;
    Ok (Sha1 (h_ s1) (block_ s1) (block_byte_index_ s1) (add64 (bit_count_ s1) 8)).

  (** lines 440-445, 506-512 *)
  Fixpoint m_process_block (s : sha1) (bytes : list Z) : res sha1 :=
    match bytes with
    | [] => Ok s
    | x :: t => s1 <- m_process_byte s x ;; m_process_block s1 t
    end.

  (** lines 453-461; the buffer keeps its bytes *)
  Definition reset (s : sha1) : sha1 := Sha1 (h_ sha1_new) (block_ s) 0 0.

  (** A client that feeds a message in pieces: through the value-returning interface
      (c_process_byte, c_process_block) or the mutating one (process_byte, process_block) *)
  Inductive piece : Type :=
  | ByByte (x : Z) | ByBlock (xs : list Z) | MutByte (x : Z) | MutBlock (xs : list Z).
  Definition piece_bytes (p : piece) : list Z :=
    match p with ByByte x => [x] | ByBlock xs => xs | MutByte x => [x] | MutBlock xs => xs end.
  Definition feed_piece (r : nat) (s : sha1) (p : piece) : res sha1 :=
    match p with
    | ByByte x => c_process_byte s x
    | ByBlock xs => c_process_block r s xs
    | MutByte x => m_process_byte s x
    | MutBlock xs => m_process_block s xs
    end.
  Fixpoint feed_pieces (r : nat) (s : sha1) (ps : list piece) : res sha1 :=
    match ps with
    | [] => Ok s
    | p :: ps => s1 <- feed_piece r s p ;; feed_pieces r s1 ps
    end.
End Sha.
