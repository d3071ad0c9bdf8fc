(** Models of sprout/checksum/sum.hpp and sprout/checksum/xor.hpp.  Nothing is proved in this
    file.

    C integers as in BitModel.v.  [st] is sum_type (sum.hpp 35-39: the wider of std::size_t and
    the value type; xor.hpp 29: std::size_t), [vt] the value type, both unsigned.  The object is
    its sum_.  The input is the list of bytes make_bytes_iterator yields (ByteModel.v has that
    iterator), [c] whether it is random access and [d] the call depth, as in NumModel.v. *)
From Coq Require Import List Arith ZArith Bool.
From Verif Require Import Base BitModel NumModel.
Import ListNotations.
Open Scope Z_scope.

Section Sum.
  Variables (st vt : ity) (c : bool) (d : nat).

  (** ** sum_basic *)

  (** sum.hpp 46-53: calc_sum; plus<> of sum_type and unsigned char, converted to sum_type *)
  Definition calc_sum (sum_ : Z) (bytes : list Z) : res Z :=
    accumulate c d bytes 0 (length bytes) sum_ (fun s x => conv st (s + x)).
  (** 55-57, 59-64 *)
  Definition sum_new : Z := 0.
  Definition sum_reset (sum_ new_sum : Z) : Z := new_sum.
  (** 81-83 *)
  Definition sum_c_process_byte (sum_ byte : Z) : res Z := Ok (conv st (sum_ + byte)).
  (** 84-95: c_process_block, c_process_bytes, c_process_range *)
  Definition sum_c_process_block (sum_ : Z) (bytes : list Z) : res Z := calc_sum sum_ bytes.
  (** 97-99 *)
  Definition sum_process_byte (sum_ byte : Z) : res Z := Ok (conv st (sum_ + byte)).
  (** 100-111 *)
  Definition sum_process_block (sum_ : Z) (bytes : list Z) : res Z := calc_sum sum_ bytes.
  (** 113-115 *)
  Definition sum_checksum (sum_ : Z) : Z := conv vt (Z.land sum_ (tmax vt)).
  (** 133-137 and likewise make_sum16, make_sum32 *)
  Definition make_sum (bytes : list Z) : res Z :=
    s <- sum_c_process_block sum_new bytes ;; Ok (sum_checksum s).

  (** ** xor8 *)

  (** xor.hpp 35-43 *)
  Definition xor_calc (sum_ : Z) (bytes : list Z) : res Z :=
    accumulate c d bytes 0 (length bytes) sum_ (fun s x => conv st (Z.lxor s x)).
  (** 71-73 *)
  Definition xor_c_process_byte (sum_ byte : Z) : res Z := Ok (conv st (Z.lxor sum_ byte)).
  (** 74-85 *)
  Definition xor_c_process_block (sum_ : Z) (bytes : list Z) : res Z := xor_calc sum_ bytes.
  (** 87-89 *)
  Definition xor_process_byte (sum_ byte : Z) : res Z := Ok (conv st (Z.lxor sum_ byte)).
  (** 90-101 *)
  Definition xor_process_block (sum_ : Z) (bytes : list Z) : res Z := xor_calc sum_ bytes.
  (** 103-105 *)
  Definition xor_checksum (sum_ : Z) : Z := conv (Ity false 0) (Z.land sum_ 0xFF).
  (** 114-118 *)
  Definition make_xor8 (bytes : list Z) : res Z :=
    s <- xor_c_process_block 0 bytes ;; Ok (xor_checksum s).

  (** A client feeding a message in pieces: the value-returning and the mutating functions *)
  Inductive sum_piece : Type := SCByte (x : Z) | SCBlock (xs : list Z) | SMByte (x : Z) | SMBlock (xs : list Z).
  Definition sum_piece_bytes (p : sum_piece) : list Z :=
    match p with SCByte x => [x] | SCBlock xs => xs | SMByte x => [x] | SMBlock xs => xs end.
  Definition sum_feed_piece (s : Z) (p : sum_piece) : res Z :=
    match p with
    | SCByte x => sum_c_process_byte s x | SCBlock xs => sum_c_process_block s xs
    | SMByte x => sum_process_byte s x | SMBlock xs => sum_process_block s xs
    end.
  Definition xor_feed_piece (s : Z) (p : sum_piece) : res Z :=
    match p with
    | SCByte x => xor_c_process_byte s x | SCBlock xs => xor_c_process_block s xs
    | SMByte x => xor_process_byte s x | SMBlock xs => xor_process_block s xs
    end.
  Fixpoint feed_all (f : Z -> sum_piece -> res Z) (s : Z) (ps : list sum_piece) : res Z :=
    match ps with
    | [] => Ok s
    | p :: ps => s1 <- f s p ;; feed_all f s1 ps
    end.
End Sum.
