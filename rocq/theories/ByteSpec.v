(** The bytes of an integer in two's complement, and the bytes of a sequence of integers. *)
From Coq Require Import List ZArith.
From Verif Require Import BitModel.
Import ListNotations.
Open Scope Z_scope.

(** byte [k], counted from the least significant *)
Definition byte_no (k x : Z) : Z := (x / 2 ^ (8 * k)) mod 256.
(** which byte comes [i]-th in memory order *)
Definition place (be : bool) (t : ity) (i : Z) : Z := if be then bytes t - 1 - i else i.
(** the bytes of one integer, and of a sequence of integers, in memory order *)
Definition bytes_of (be : bool) (t : ity) (x : Z) : list Z :=
  map (fun i => byte_no (place be t (Z.of_nat i)) x) (seq 0 (Z.to_nat (bytes t))).
Definition all_bytes (be : bool) (t : ity) (l : list Z) : list Z := flat_map (bytes_of be t) l.
