(** The algorithm that the C++ standard gives for seed_seq::generate ([rand.util.seedseq]), over a memory of
    numbers of 32 bits; every index is taken modulo [n]. *)
From Coq Require Import List Arith ZArith.
Import ListNotations.
Local Open Scope Z_scope.

Definition mem : Type := nat -> Z.
Definition put (b : mem) (i : nat) (x : Z) : mem := fun j => if (j =? i)%nat then x else b j.
Definition T (x : Z) : Z := Z.lxor x (x / 2 ^ 27).
Definition m32 (x : Z) : Z := x mod 2 ^ 32.

Section Seed.
  (** the seeds and the number of results *)
  Variables (v : list Z) (n : nat).
  Definition t_of : nat := if (623 <=? n)%nat then 11 else if (68 <=? n)%nat then 7 else if (39 <=? n)%nat then 5
    else if (7 <=? n)%nat then 3 else ((n - 1) / 2)%nat.
  Definition p_of : nat := ((n - t_of) / 2)%nat.
  Definition q_of : nat := (p_of + t_of)%nat.
  Definition m_of : nat := Nat.max (length v + 1) n.
  Definition ix (i : nat) : nat := (i mod n)%nat.

  (** begin[k+p] = f(begin[k+p], r); begin[k+q] = f(begin[k+q], r'); begin[k] = r' *)
  Definition mix (f : Z -> Z -> Z) (r r' : Z) (b : mem) (k : nat) : mem :=
    let b1 := put b (ix (k + p_of)) (f (b (ix (k + p_of))) r) in
    let b2 := put b1 (ix (k + q_of)) (f (b1 (ix (k + q_of))) r') in
    put b2 (ix k) r'.
  Definition step_1 (b : mem) (k : nat) : mem :=
    let r1 := m32 (1664525 * T (Z.lxor (Z.lxor (b (ix k)) (b (ix (k + p_of)))) (b (ix (k + n - 1))))) in
    let r2 := m32 (r1 + match k with
                        | O => Z.of_nat (length v)
                        | S j => Z.of_nat (ix k) + nth j v 0
                        end) in
    mix (fun x y => m32 (x + y)) r1 r2 b k.
  Definition step_2 (b : mem) (k : nat) : mem :=
    let r3 := m32 (1566083941 * T (m32 (b (ix k) + b (ix (k + p_of)) + b (ix (k + n - 1))))) in
    let r4 := m32 (r3 - Z.of_nat (ix k)) in
    mix Z.lxor r3 r4 b k.
  Definition seeded : list Z :=
    map (fold_left step_2 (seq m_of n) (fold_left step_1 (seq 0 m_of) (fun _ => 2341178251))) (seq 0 n).
End Seed.
