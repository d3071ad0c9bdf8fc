(** Vocabulary of the statements about index sequences. *)
From Coq Require Import List Arith Bool ZArith.
Import ListNotations.
Local Open Scope Z_scope.

(** The values of an integer type. *)
Definition value_of (M : Z) (sgn : bool) (x : Z) : Prop := if sgn then - M <= x < M else 0 <= x < 2 * M.

(** [n] counts the terms of first, first + step, ... before last. *)
Definition counts (first last step : Z) (n : nat) : Prop :=
  (0 < step -> forall i : nat, (i < n)%nat <-> first + Z.of_nat i * step < last)
  /\ (step < 0 -> forall i : nat, (i < n)%nat <-> last < first + Z.of_nat i * step).

Definition progression (first step : Z) (n : nat) : list Z :=
  map (fun i => first + Z.of_nat i * step) (seq 0 n).

(** A range is given by bounds and a step in the direction from one to the other. *)
Definition range_args (first last step : Z) : Prop :=
  (first < last /\ 0 < step) \/ (last < first /\ step < 0) \/ (first = last /\ step <> 0).
