(** What drawing a uniform integer means, in terms of the values an engine returns. *)
From Coq Require Import List Arith ZArith Bool.
From Verif Require Import Base BitModel BitSpec.
Import ListNotations.
Open Scope Z_scope.

Section Uni.
  Variable St : Type.
  Variable step : St -> res (Z * St).
  Variables bmin bmax : Z.

  (** an engine whose values stay in its range; [I] is an invariant of its states *)
  Definition engine_ok (b : ity) (I : St -> Prop) : Prop :=
    is_val b bmin /\ is_val b bmax /\ bmin < bmax /\
    forall s, I s -> step s = Fuel \/ exists e s', step s = Ok (e, s') /\ bmin <= e <= bmax /\ I s'.

  (** the number of different values of the engine *)
  Definition beta : Z := bmax - bmin + 1.
  (** the engine goes from [s] to [s'] and returns bmin + d *)
  Definition draws1 (s : St) (d : Z) (s' : St) : Prop := 0 <= d < beta /\ step s = Ok (bmin + d, s').
  Inductive draws : St -> list Z -> St -> Prop :=
  | draws_nil : forall s, draws s [] s
  | draws_cons : forall s d s1 ds s2, draws1 s d s1 -> draws s1 ds s2 -> draws s (d :: ds) s2.
  (** the number with these digits in base beta, the lowest first *)
  Fixpoint number (ds : list Z) : Z :=
    match ds with
    | [] => 0
    | d :: ds => d + beta * number ds
    end.

  (** Drawing one of the numbers 0, ..., n - 1 by rejection.  If n < beta, the engine's values
      are cut into n buckets of equal size and the rest is rejected.  If n > beta, a number with
      as many digits in base beta as are below n is drawn, and the quotient is drawn in the same
      way; numbers from n on are rejected.  [cst] = false throws a value away if n = beta. *)
  Inductive uniform (cst : bool) : Z -> St -> Z -> St -> Prop :=
  | uniform_one : forall s, uniform cst 1 s 0 s
  | uniform_same : forall s s1 d s2, 1 < beta ->
      (if cst then s1 = s else exists d, draws1 s d s1) -> draws1 s1 d s2 -> uniform cst beta s d s2
  | uniform_bucket : forall n s d s1, 1 < n < beta -> draws1 s d s1 -> d / (beta / n) < n ->
      uniform cst n s (d / (beta / n)) s1
  | uniform_retry : forall n s d s1 v s2, 1 < n < beta -> draws1 s d s1 -> n <= d / (beta / n) ->
      uniform cst n s1 v s2 -> uniform cst n s v s2
  | uniform_power : forall n s ds s1, beta < n -> draws s ds s1 -> beta ^ Z.of_nat (length ds) = n ->
      uniform cst n s (number ds) s1
  | uniform_wide : forall n s ds s1 i s2 m, beta < n -> draws s ds s1 -> m = beta ^ Z.of_nat (length ds) ->
      m < n < m * beta -> uniform cst ((n - 1) / m + 1) s1 i s2 -> number ds + m * i < n ->
      uniform cst n s (number ds + m * i) s2
  | uniform_wide_retry : forall n s ds s1 i s2 m v s3, beta < n -> draws s ds s1 -> m = beta ^ Z.of_nat (length ds) ->
      m < n < m * beta -> uniform cst ((n - 1) / m + 1) s1 i s2 -> n <= number ds + m * i ->
      uniform cst n s2 v s3 -> uniform cst n s v s3.
End Uni.

(** the parameters of uniform_int_distribution for which its result is right: a negative lower
    bound needs an engine of at least the width of the result, and a positive one a number of
    values that is no power of that of the engine *)
Definition uni_good (b : ity) (bmin bmax : Z) (t : ity) (lo hi : Z) : Prop :=
  is_val t lo /\ is_val t hi /\ lo <= hi /\
  (0 <= lo \/ wid t <= wid b \/ beta bmin bmax < hi - lo + 1) /\
  (lo = 0 \/ hi - lo + 1 <= beta bmin bmax \/ forall j, 0 <= j -> beta bmin bmax ^ j <> hi - lo + 1).

(** an engine that returns the values of a list, and then nothing *)
Definition tape (l : list Z) : res (Z * list Z) :=
  match l with
  | [] => Fuel
  | e :: l => Ok (e, l)
  end.
(** [P] pairs each member of [X] with one of [Y] *)
Definition pairs_up {A : Type} (P : A -> A -> Prop) (X Y : A -> Prop) : Prop :=
  (forall a, X a -> exists c, Y c /\ P a c) /\ (forall c, Y c -> exists a, X a /\ P a c) /\
  (forall a c c', P a c -> P a c' -> c = c') /\ (forall a a' c, P a c -> P a' c -> a = a').

(** uniform_smallint: what is returned when the engine returns bmin + d *)
Definition small (bmin bmax lo hi d : Z) : Z :=
  if hi - lo <? bmax - bmin then lo + d mod (hi - lo + 1) else lo + d.
