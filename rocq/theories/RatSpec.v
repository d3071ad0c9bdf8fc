(** Rational numbers and what their operations are supposed to do. *)
From Coq Require Import ZArith QArith.
From Verif Require Import BitModel BitSpec.
Open Scope Z_scope.

(** [x] is a rational in lowest terms with positive denominator, with components of type [t] *)
Definition is_rat (t : ity) (x : Z * Z) : Prop :=
  is_val t (fst x) /\ is_val t (snd x) /\ 0 < snd x /\ Z.gcd (fst x) (snd x) = 1.

(** its value *)
Definition qv (x : Z * Z) : Q := Qmake (fst x) (Z.to_pos (snd x)).

(** both components are at most [b] in absolute value *)
Definition within (b : Z) (x : Z * Z) : Prop := Z.abs (fst x) <= b /\ snd x <= b.

(** int or wider *)
Definition wide (il : nat) (t : ity) : Prop := sgn t = true /\ (il <= lg t)%nat.
