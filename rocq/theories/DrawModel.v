(** Random numbers in sequence: generate_array, generator_iterator, random::begin and end, and
    bernoulli_distribution. *)
From Coq Require Import List Arith Bool ZArith.
From Verif Require Import Base.
Import ListNotations.
Local Open Scope Z_scope.

Section Draw.
  (** A generator (an engine, or a variate_generator with its engine) is a value; a call gives a number and
      the generator for the next call (sprout/random/random_result.hpp 34-180, 181-312; variate_generator.hpp
      52-54, 71-74). *)
  Context {G A : Type}.
  Variable call : G -> A * G.

  (** random_result: the number and the generator *)
  Record rresult : Type := RR { result_ : A; generator_ : G }.
  Definition invoke (g : G) : rresult := RR (fst (call g)) (snd (call g)).

  (** sprout/random/generate_array.hpp 44-74; [args] are the numbers so far, N = 0 does not compile *)
  Fixpoint generate_array_impl (d N : nat) (rnd : rresult) (args : list A) : res (list A * G) :=
    match d with
    | O => Fuel
    | S d =>
        if (length args + 1 =? N)%nat then Ok (args ++ [result_ rnd], generator_ rnd)
        else if (length args + 1 <? N)%nat then generate_array_impl d N (invoke (generator_ rnd)) (args ++ [result_ rnd])
        else UB
    end.
  (** 76-86 *)
  Definition generate_array (d N : nat) (rng : G) : res (list A * G) := generate_array_impl d N (invoke rng) [].

  (** 24-43: with side effects; [value] is A() *)
  Fixpoint generate_loop (k N : nat) (i : nat) (result : list A) (rng : G) : res (list A * G) :=
    match k with
    | O => Fuel
    | S k =>
        if negb (i =? N)%nat then
          let r := invoke rng in
          result <- wr result i (result_ r) ;; generate_loop k N (i + 1) result (generator_ r)
        else Ok (result, rng)
    end.
  Definition generate_array_mut (k N : nat) (value : A) (rng : G) : res (list A * G) :=
    generate_loop k N 0 (repeat value N) rng.

  (** sprout/iterator/generator_iterator.hpp 27-102 *)
  Record giter : Type := GI { gen_ : rresult; index_ : Z }.
  (** 65-67, 92-96 *)
  Definition gi_next (it : giter) : giter := GI (invoke (generator_ (gen_ it))) (index_ it - 1).
  (** 86-88 *)
  Definition gi_deref (it : giter) : A := result_ (gen_ it).
  (** 104-138 *)
  Definition gi_eq (x y : giter) : bool := index_ x =? index_ y.
  Definition gi_lt (x y : giter) : bool := index_ y <? index_ x.
  Definition gi_minus (x y : giter) : Z := index_ y - index_ x.

  (** sprout/random/iterator.hpp 24-49; [top] is numeric_limits<difference_type>::max() *)
  Definition random_begin (top : Z) (g : G) (count : Z) : giter :=
    if 0 <=? count then GI (invoke g) count else GI (invoke g) top.
  (** 53-70: a generator_iterator by default; [g0] is G() and [a0] is A() *)
  Definition random_end (a0 : A) (g0 : G) : giter := GI (RR a0 g0) 0.

  (** for (; it != last; ++it) ... *it ... *)
  Fixpoint traverse (k : nat) (it last : giter) : res (list A) :=
    match k with
    | O => Fuel
    | S k => if negb (gi_eq it last) then l <- traverse k (gi_next it) last ;; Ok (gi_deref it :: l) else Ok []
    end.
End Draw.
Arguments RR {G A}.
Arguments GI {G A}.

Section Bernoulli.
  (** The engine *)
  Context {G : Type}.
  Variable call : G -> Z * G.
  Variables (lo hi : Z).

  (** sprout/random/bernoulli_distribution.hpp 79-93, 131-143; the probability is [a / b] with [0 < b], the arithmetic of
      RealType is exact *)
  Definition accepts (a b x : Z) : bool := (x - lo) * b <=? a * (hi - lo).
  Definition bernoulli (a b : Z) (eng : G) : bool * G :=
    if a =? 0 then (false, eng) else (accepts a b (fst (call eng)), snd (call eng)).
End Bernoulli.
