(** * Properties C149-C151: network byte order, powers and digit counts of integer types

    Proved elsewhere (WordProof.v, WordProof2.v); nothing else is in this file. *)

From Coq Require Import ZArith Bool List Lia.
From Verif Require Import Base BitModel BitSpec ByteSpec WordModel WordSpec WordProof WordProof2.
Import ListNotations.
Open Scope Z_scope.

(** ** C149.  hton makes the bytes in memory big-endian; ntoh undoes it. *)

Theorem hton_memory_partial : forall il md t, sgn t = false -> (1 <= lg t <= 7)%nat -> forall e d x,
  bytes t < 2 * Z.of_nat d -> is_val t x ->
  exists r, hton il md e d t x = Ok r /\ is_val t r /\ memory e (bytes t) r = memory Big (bytes t) x.
Proof. exact @hton_memory_lemma. Qed.
Print Assumptions hton_memory_partial.
Example hton_memory_ex : htonl 2 false Little 3 16909060 = Ok 67305985 /\ memory Big 4 16909060 = [1; 2; 3; 4] /\
  memory Little 4 67305985 = [1; 2; 3; 4] /\ htonl 2 false Pdp 3 16909060 = Ok 33620995 /\
  memory Pdp 4 33620995 = [1; 2; 3; 4].
Proof. vm_compute. repeat split. Qed.

Theorem ntoh_memory_partial : forall il md t, sgn t = false -> (1 <= lg t <= 7)%nat -> forall e d x,
  bytes t < 2 * Z.of_nat d -> is_val t x -> e <> Pdp ->
  exists r, ntoh il md e d t x = Ok r /\ is_val t r /\ memory Big (bytes t) r = memory e (bytes t) x.
Proof. exact @ntoh_memory_lemma. Qed.
Print Assumptions ntoh_memory_partial.
Example ntoh_memory_ex : ntohs 2 false Little 2 (conv (Ity false 1) 513) = Ok 258.
Proof. reflexivity. Qed.

Theorem net_named_partial : forall il md e d x, (is_val (Ity false 2) x -> (3 <= d)%nat ->
    (exists r, htonl il md e d x = Ok r /\ is_val (Ity false 2) r /\ memory e 4 r = memory Big 4 x) /\
    (e <> Pdp -> exists r, ntohl il md e d x = Ok r /\ is_val (Ity false 2) r /\ memory Big 4 r = memory e 4 x)) /\
  (is_val (Ity false 1) x -> (2 <= d)%nat ->
    (exists r, htons il md e d x = Ok r /\ is_val (Ity false 1) r /\ memory e 2 r = memory Big 2 x) /\
    (e <> Pdp -> exists r, ntohs il md e d x = Ok r /\ is_val (Ity false 1) r /\ memory Big 2 r = memory e 2 x)).
Proof. exact @named_lemma. Qed.
Print Assumptions net_named_partial.
Example net_named_ex : is_val (Ity false 2) 305419896 /\ htonl 2 false Little 3 305419896 = Ok 2018915346 /\
  is_val (Ity false 1) 4660 /\ htons 2 false Little 2 4660 = Ok 13330.
Proof. vm_compute. repeat split; congruence. Qed.

Theorem net_round_trip_partial : forall il md t, sgn t = false -> (1 <= lg t <= 7)%nat -> forall e d x,
  bytes t < 2 * Z.of_nat d -> is_val t x -> e <> Pdp ->
  (r <- hton il md e d t x ;; ntoh il md e d t r) = Ok x /\ (r <- ntoh il md e d t x ;; hton il md e d t r) = Ok x.
Proof. exact @round_trip_lemma. Qed.
Print Assumptions net_round_trip_partial.
Example net_round_trip_ex : is_val (Ity false 3) 18446744073709551615 /\ bytes (Ity false 3) < 2 * Z.of_nat 5 /\
  hton 2 false Little 5 (Ity false 3) 255 = Ok 18374686479671623680.
Proof. vm_compute. repeat split; congruence. Qed.

(** For one-byte words the upper index wraps around to 255, and the shift by 2040 bits is
    undefined. *)
Theorem hton_byte_refuted : forall il md d x, (1 <= il <= 7)%nat -> is_val u8 x -> (2 <= d)%nat -> hton il md Little d u8 x = UB.
Proof. exact @byte_refuted_lemma. Qed.
Print Assumptions hton_byte_refuted.
Example hton_byte_ex : is_val u8 7 /\ hton 2 false Big 3 u8 7 = Ok 7 /\ hton 2 true Little 3 u8 7 = UB.
Proof. vm_compute. repeat split; congruence. Qed.

(** ** C150.  static_pow2, static_pow2m1, static_pow *)

Theorem static_pow_correct : forall il t d X Y,
  is_val t X -> 0 <= Y -> is_val t (X ^ Y) -> 2 * Z.log2 Y + 1 <= Z.of_nat d -> static_pow il d t X Y = Ok (X ^ Y).
Proof. exact @static_pow_lemma. Qed.
Print Assumptions static_pow_correct.
Example static_pow_ex : static_pow 2 8 (Ity true 0) (-2) 7 = Ok (-128) /\ static_pow 2 8 (Ity true 3) 3 39 = Ok 4052555153018976267.
Proof. vm_compute. split; reflexivity. Qed.

Theorem static_pow2_partial : forall il md t X,
  0 <= X <= wid (int_t il) - 2 -> is_val t (2 ^ X) -> static_pow2 il md t X = Ok (2 ^ X).
Proof. exact @static_pow2_lemma. Qed.
Print Assumptions static_pow2_partial.
Example static_pow2_ex : static_pow2 2 false (Ity false 3) 30 = Ok 1073741824.
Proof. reflexivity. Qed.

(** The shift is an int shift whatever T is. *)
Theorem static_pow2_refuted : is_val (Ity false 3) (2 ^ 40) /\ static_pow2 2 false (Ity false 3) 40 = UB /\
  static_pow2 2 true (Ity false 3) 31 = UB.
Proof. exact static_pow2_refuted_lemma. Qed.
Print Assumptions static_pow2_refuted.

Theorem static_pow2m1_partial : forall il md t X,
  1 <= X -> is_val t X -> is_val t (2 ^ X - 1) -> static_pow2m1 il md t X = Ok (2 ^ X - 1).
Proof. exact @static_pow2m1_lemma. Qed.
Print Assumptions static_pow2m1_partial.
Example static_pow2m1_ex : static_pow2m1 2 false (Ity false 3) 64 = Ok (2 ^ 64 - 1) /\ static_pow2m1 2 false (Ity true 2) 31 = Ok 2147483647.
Proof. split; reflexivity. Qed.

(** 2^0 - 1 is 0, not 1. *)
Theorem static_pow2m1_refuted : forall il md t, static_pow2m1 il md t 0 = Ok 1.
Proof. exact @static_pow2m1_refuted_lemma. Qed.
Print Assumptions static_pow2m1_refuted.

(** ** C151.  integer_digits is the number of digits of the largest value. *)

Theorem integer_digits_correct : forall t base, (lg t <= 3)%nat -> 2 <= base <= 16 ->
  exists k, integer_digits t base = Ok k /\ 1 <= k /\ base ^ (k - 1) <= tmax t < base ^ k.
Proof. exact @digits_lemma. Qed.
Print Assumptions integer_digits_correct.
Example integer_digits_ex : integer_digits (Ity false 3) 10 = Ok 20 /\ integer_digits (Ity true 3) 10 = Ok 19.
Proof. split; reflexivity. Qed.
