(** What the congruential engines are supposed to compute. *)
From Coq Require Import List Arith ZArith Bool.
From Verif Require Import Base BitModel BitSpec.
Import ListNotations.
Open Scope Z_scope.

(** the modulus [m] is a positive value of the type [t], which has at most 64 bits *)
Definition modulus_ok (t : ity) (m : Z) : Prop := 0 < m <= tmax t /\ (lg t <= 3)%nat.
(** residues *)
Definition residue (m x : Z) : Prop := 0 <= x < m.
Definition power_of_2 (m : Z) : Prop := exists k, 0 <= k /\ m = 2 ^ k.
(** every product of two residues fits in 64 bits *)
Definition fits (m : Z) : Prop := m * m < 2 ^ 64.

(** C++11 26.5.3.1: the transition of a linear congruential engine *)
Definition lcg (a c m x : Z) : Z := (a * x + c) mod m.
(** [n] applications of [f] *)
Fixpoint times (n : nat) (f : Z -> Z) (x : Z) : Z :=
  match n with
  | O => x
  | S n => times n f (f x)
  end.

(** [x mod m], except that a multiplicative engine replaces 0 by 1 *)
Definition seeded (c m x : Z) : Z := if (c =? 0) && (x mod m =? 0) then 1 else x mod m.

(** the [n] first values an engine in state [s] returns *)
Fixpoint run {S : Type} (step : S -> res (Z * S)) (n : nat) (s : S) : res (list Z) :=
  match n with
  | O => Ok []
  | Datatypes.S n => x <- step s ;; l <- run step n (snd x) ;; Ok (fst x :: l)
  end.
(** a base engine in state [s] returns the values [o 0], [o 1], ... *)
Definition produces {S : Type} (step : S -> res (Z * S)) (s : S) (o : nat -> Z) : Prop :=
  exists st : nat -> S, st O = s /\ forall i, step (st i) = Ok (o i, st (Datatypes.S i)).

(** [y] is the inverse of [x] modulo [m] *)
Definition inverse_mod (m x y : Z) : Prop := residue m y /\ (x * y) mod m = 1 mod m.

(** C++11 26.5.4.4: the [n] first outputs of a shuffle_order_engine with table [v], held value
    [y] and base engine outputs [o 0], [o 1], ... in [lo, hi] *)
Fixpoint put (v : list Z) (j : nat) (x : Z) : list Z :=
  match v, j with
  | [], _ => []
  | _ :: v, O => x :: v
  | z :: v, S j => z :: put v j x
  end.
Fixpoint shuffled (lo hi : Z) (n : nat) (o : nat -> Z) (v : list Z) (y : Z) : list Z :=
  match n with
  | O => []
  | S n =>
      let j := Z.to_nat (Z.of_nat (length v) * (y - lo) / (hi - lo + 1)) in
      let y := nth j v 0 in
      y :: shuffled lo hi n (fun i => o (S i)) (put v j (o O)) y
  end.

(** when a * x mod m is computed for all residues x: m is a power of 2, or the product cannot
    overflow, or (signed types) Schrage's method applies, or m^2 fits in 64 bits *)
Definition mult_def (t : ity) (m a : Z) : Prop :=
  power_of_2 m \/ a <= 1 \/ a * m <= tmax t \/ (sgn t = true /\ m mod a < m / a) \/ fits m.
(** when discard(z) is right: the engine is multiplicative, or (a - 1) / gcd(a - 1, m) is prime
    to m and, if a - 1 itself is, a^z is not divisible by m (or m is a power of 2) *)
Definition discard_def (m a c z : Z) : Prop :=
  c = 0 \/
  (Z.gcd ((a - 1) / Z.gcd (a - 1) m) m = 1 /\ (Z.gcd (a - 1) m = 1 -> power_of_2 m \/ a ^ z mod m <> 0)).
