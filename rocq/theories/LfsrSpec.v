(** Linear feedback shift registers bit by bit. *)
From Coq Require Import List Arith ZArith Bool.
From Verif Require Import Base BitModel LcgSpec LfsrModel.
Import ListNotations.
Open Scope Z_scope.

(** the static_asserts of the class, and a word that fits its type *)
Definition lf_valid (P : lfp) : Prop :=
  sgn (ft P) = false /\ 0 < fw P <= wid (ft P) /\ 0 < fq P /\ fk P < fw P /\
  2 * fq P < fk P /\ 0 < fs P <= fk P - fq P.

Section Register.
  Variable P : lfp.
  (** Reading a word from its most significant bit, its bits are b_0, b_1, ..., b_{w-1} of a
      sequence with b_{i+k} = b_i xor b_{i+q}.  One tick drops b_0 and appends b_w. *)
  Definition feedback (x : Z) : bool := xorb (Z.testbit x (fk P - 1)) (Z.testbit x (fk P - 1 - fq P)).
  Definition tick (x : Z) : Z := (2 * x + Z.b2z (feedback x)) mod 2 ^ fw P.
  (** the leading k bits *)
  Definition lead_k (x : Z) : Z := x / 2 ^ (fw P - fk P).
  (** the leading k bits of [x], continued to w bits by the recurrence *)
  Definition extend (x : Z) : Z := times (Z.to_nat (fw P - fk P)) tick (lead_k x).
  (** the i-th output of the engine started at [x]: s ticks per output *)
  Definition lf_out (x : Z) (i : nat) : Z := times (Z.to_nat (fs P) * S i) tick (extend x).
  (** all of the w bits obey the recurrence *)
  Definition lf_word (x : Z) : Prop :=
    0 <= x < 2 ^ fw P /\
    forall i, 0 <= i -> i + fk P < fw P ->
      Z.testbit x i = xorb (Z.testbit x (i + fk P)) (Z.testbit x (i + fk P - fq P)).
End Register.

(** taus88 as its author published it (L'Ecuyer, Maximally equidistributed combined Tausworthe
    generators, 1996, figure 1), on words of 32 bits *)
Definition lecuyer (e : Z * Z * Z) : Z * Z * Z :=
  let '(s1, s2, s3) := e in
  let w32 z := z mod 2 ^ 32 in
  (Z.lxor (w32 (Z.land s1 4294967294 * 2 ^ 12)) (Z.lxor (w32 (s1 * 2 ^ 13)) s1 / 2 ^ 19),
   Z.lxor (w32 (Z.land s2 4294967288 * 2 ^ 4)) (Z.lxor (w32 (s2 * 2 ^ 2)) s2 / 2 ^ 25),
   Z.lxor (w32 (Z.land s3 4294967280 * 2 ^ 17)) (Z.lxor (w32 (s3 * 2 ^ 3)) s3 / 2 ^ 11)).
Definition lecuyer_out (e : Z * Z * Z) : Z := let '(s1, s2, s3) := e in Z.lxor (Z.lxor s1 s2) s3.
