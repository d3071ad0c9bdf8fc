(** What the bit functions compute.  Bit i of a value of an integer type is [Z.testbit x i], also
    for negative values (two's complement). *)
From Coq Require Import List Arith ZArith Bool.
From Verif Require Import BitModel.
Import ListNotations.
Open Scope Z_scope.

(** [x] is a value of type [t]. *)
Definition is_val (t : ity) (x : Z) : Prop :=
  if sgn t then - 2 ^ (wid t - 1) <= x < 2 ^ (wid t - 1) else 0 <= x < 2 ^ wid t.

(** [r] is the value of type [t] whose one bits are those described by [f]. *)
Definition has_bits (t : ity) (r : Z) (f : Z -> Prop) : Prop :=
  is_val t r /\ forall i, 0 <= i < wid t -> (Z.testbit r i = true <-> f i).

(** The number of one bits. *)
Definition ones_in (t : ity) (x : Z) : Z :=
  Z.of_nat (length (filter (fun i => Z.testbit x (Z.of_nat i)) (seq 0 (Z.to_nat (wid t))))).

(** Exactly the [c] highest (lowest) bits are a run of [b]s. *)
Definition leading (b : bool) (t : ity) (x c : Z) : Prop :=
  0 <= c <= wid t /\ (forall i, wid t - c <= i < wid t -> Z.testbit x i = b) /\
  (c < wid t -> Z.testbit x (wid t - 1 - c) = negb b).
Definition trailing (b : bool) (t : ity) (x c : Z) : Prop :=
  0 <= c <= wid t /\ (forall i, 0 <= i < c -> Z.testbit x i = b) /\
  (c < wid t -> Z.testbit x c = negb b).

(** All bits below [i] are [b]. *)
Definition below (b : bool) (x i : Z) : Prop := forall j, 0 <= j < i -> Z.testbit x j = b.

(** [r] is the least power of two not below [x]. *)
Definition next_pow2 (x r : Z) : Prop :=
  exists k, 0 <= k /\ r = 2 ^ k /\ x <= 2 ^ k /\ forall j, 0 <= j < k -> 2 ^ j < x.

(** The number of value bits (numeric_limits::digits). *)
Definition digits (t : ity) : Z := if sgn t then wid t - 1 else wid t.

(** When x << s is defined for an operand of type [t] (before C++20: [md = false]): the type is
    unsigned, or x is not negative and the product fits the unsigned type of the same width. *)
Definition shl_defined (il : nat) (md : bool) (t : ity) (x s : Z) : Prop :=
  sgn t = false \/ md = true \/ (0 <= x /\ x * 2 ^ s < 2 ^ wid (promote il t)).

(** When computing [z] from an operand of type [t] does not overflow: the type is unsigned, or
    narrower than int (whose [lg] is [il]), or [z] is representable. *)
Definition no_overflow (il : nat) (t : ity) (z : Z) : Prop :=
  sgn t = false \/ (lg t < il)%nat \/ is_val t z.
