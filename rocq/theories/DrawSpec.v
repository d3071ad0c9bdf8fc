(** The numbers that a generator gives one after the other. *)
From Coq Require Import List Arith ZArith.
Import ListNotations.

Section Draw.
  Context {G A : Type}.
  Variable call : G -> A * G.
  (** the generator after [n] calls, the number of call [n] *)
  Definition after (n : nat) (g : G) : G := Nat.iter n (fun g => snd (call g)) g.
  Definition drawn (n : nat) (g : G) : A := fst (call (after n g)).
  Definition draws (n : nat) (g : G) : list A := map (fun i => drawn i g) (seq 0 n).
End Draw.

(** how many of the numbers from [lo] to [hi] satisfy [f] *)
Definition how_many (f : Z -> bool) (lo hi : Z) : Z :=
  Z.of_nat (length (filter f (map (fun i => (lo + Z.of_nat i)%Z) (seq 0 (Z.to_nat (hi - lo + 1)))))).
