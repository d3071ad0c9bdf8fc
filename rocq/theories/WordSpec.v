(** * Words as they lie in memory *)

From Coq Require Import ZArith Bool List.
From Verif Require Import Base BitModel BitSpec ByteSpec WordModel.
Import ListNotations.
Open Scope Z_scope.

(** Number of the byte (0: least significant) at the [a]-th address of an [n]-byte word.  The
    PDP-11 keeps 16-bit words in big-endian order, but each with its low byte first. *)
Definition lies (e : endian) (n a : Z) : Z :=
  match e with
  | Big => n - 1 - a
  | Little => a
  | Pdp => if Z.even a then n - 2 - a else n - a
  end.

(** The bytes of an [n]-byte word by ascending address *)
Definition memory (e : endian) (n : Z) (x : Z) : list Z :=
  map (fun a => byte_no (lies e n (Z.of_nat a)) x) (seq 0 (Z.to_nat n)).

(** Unsigned, two to 128 bytes; one-byte words only where no bytes are moved *)
Definition word (t : ity) : Prop := sgn t = false /\ (1 <= lg t <= 7)%nat.
