(** Factorials and Bernoulli numbers. *)
From Coq Require Import List Arith ZArith QArith.
From Verif Require Import TblModel.
Import ListNotations.
Local Open Scope Z_scope.

Fixpoint zfact (n : nat) : Z := match n with O => 1 | S k => Z.of_nat (S k) * zfact k end.

(** the greatest number of a type *)
Definition greatest (t : ftype) : Z :=
  match t with
  | Int1 => 2 ^ 7 - 1 | UInt1 => 2 ^ 8 - 1 | Int2 => 2 ^ 15 - 1 | UInt2 => 2 ^ 16 - 1
  | Int4 => 2 ^ 31 - 1 | UInt4 => 2 ^ 32 - 1 | Int8 => 2 ^ 63 - 1 | UInt8 => 2 ^ 64 - 1
  | Float => (2 ^ 24 - 1) * 2 ^ 104 | Double => (2 ^ 53 - 1) * 2 ^ 971 | LongDouble => (2 ^ 64 - 1) * 2 ^ 16320
  end.
Definition is_integer (t : ftype) : Prop := t <> Float /\ t <> Double /\ t <> LongDouble.

(** row [n] of Pascal's triangle *)
Fixpoint zip_add (a b : list Z) : list Z :=
  match a, b with
  | x :: a, y :: b => x + y :: zip_add a b
  | _, _ => []
  end.
Fixpoint pascal (n : nat) : list Z := match n with O => [1] | S n => zip_add (0 :: pascal n) (pascal n ++ [0]) end.

(** c0 * B i + c1 * B (i + 1) + ... *)
Fixpoint dot (r : list Z) (B : nat -> Q) (i : nat) : Q :=
  match r with
  | [] => 0%Q
  | c :: r => (inject_Z c * B i + dot r B (S i))%Q
  end.
(** B_0 = 1, and for m >= 1: (m+1 over 0) B_0 + ... + (m+1 over m) B_m = 0 *)
Definition bernoulli_seq (B : nat -> Q) : Prop :=
  (B 0%nat == 1)%Q /\ forall m, (1 <= m)%nat -> (dot (removelast (pascal (S m))) B 0 == 0)%Q.
