(** Properties of random numbers in sequence (C229-C231). *)
From Coq Require Import List ZArith.
From Verif Require Import Base DrawModel DrawSpec DrawProof.
Import ListNotations.
Local Open Scope nat_scope.

(** C229: generate_array gives the first N numbers of the generator, and the generator after N calls. *)
Theorem generate_array_draws : forall (G A : Type) (call : G -> A * G) d N g, 1 <= N -> N <= d ->
  generate_array call d N g = Ok (draws call N g, after call N g).
Proof. exact @generate_array_lemma. Qed.
Print Assumptions generate_array_draws.

(** C229: so does the version with side effects, which leaves the generator in that state. *)
Theorem generate_array_mut_draws : forall (G A : Type) (call : G -> A * G) k N value g, N < k ->
  generate_array_mut call k N value g = Ok (draws call N g, after call N g).
Proof. exact @generate_array_mut_lemma. Qed.
Print Assumptions generate_array_mut_draws.

(** C229: an array of N numbers and, with the generator returned, one of M numbers are an array of N + M numbers. *)
Theorem generate_array_split : forall (G A : Type) (call : G -> A * G) d N M g, 1 <= N -> 1 <= M -> N + M <= d -> exists l g' l',
  generate_array call d N g = Ok (l, g') /\ (exists g'', generate_array call d M g' = Ok (l', g'') /\
    generate_array call d (N + M) g = Ok (l ++ l', g'')).
Proof. exact @array_split_lemma. Qed.
Print Assumptions generate_array_split.

Example generate_array_ex :
  generate_array (fun x : Z => (x * 10, x * 3 + 1)%Z) 9 4 1%Z = Ok ([10; 40; 130; 400]%Z, 121%Z) /\
  generate_array_mut (fun x : Z => (x * 10, x * 3 + 1)%Z) 9 4 0%Z 1%Z = Ok ([10; 40; 130; 400]%Z, 121%Z).
Proof. repeat split; vm_compute; reflexivity. Qed.

(** C230: between random::begin(engine, count) and random::end(engine) there are the first [count] numbers. *)
Theorem random_range_draws : forall (G A : Type) (call : G -> A * G) a0 g0 top n k g, n < k ->
  traverse call k (random_begin call top g (Z.of_nat n)) (random_end a0 g0) = Ok (draws call n g) /\
  gi_minus (random_end a0 g0) (random_begin call top g (Z.of_nat n)) = Z.of_nat n /\
  (gi_lt (random_begin call top g (Z.of_nat n)) (random_end a0 g0) = true <-> n <> 0).
Proof. exact @range_lemma. Qed.
Print Assumptions random_range_draws.

(** C230: without a count the numbers go on for as long as the index does not run out. *)
Theorem random_range_endless : forall (G A : Type) (call : G -> A * G) a0 g0 n top g it,
  it = Nat.iter n (gi_next call) (random_begin call top g (-1)) -> (Z.of_nat n < top)%Z ->
  gi_deref it = drawn call n g /\ gi_eq it (random_end a0 g0) = false.
Proof. exact @endless_lemma. Qed.
Print Assumptions random_range_endless.

Example random_range_ex :
  traverse (fun x : Z => (x * 10, x * 3 + 1)%Z) 9 (random_begin (fun x : Z => (x * 10, x * 3 + 1)%Z) 127 1%Z 3) (random_end 0%Z 0%Z) =
    Ok [10; 40; 130]%Z /\
  gi_deref (Nat.iter 5 (gi_next (fun x : Z => (x * 10, x * 3 + 1)%Z)) (random_begin (fun x : Z => (x * 10, x * 3 + 1)%Z) 127 1%Z (-1))) = 3640%Z.
Proof. repeat split; vm_compute; reflexivity. Qed.

(** C231: with a probability of [a / b] above 0, bernoulli_distribution calls the engine once; of the [hi - lo + 1] numbers
    that the engine may give, those that make it true differ from [a / b * (hi - lo + 1)] by less than one. *)
Theorem bernoulli_share_partial : forall lo hi a b, (lo <= hi -> 0 < b -> 0 < a <= b ->
  exists f, - b < how_many f lo hi * b - a * (hi - lo + 1) < b /\
    forall (G : Type) (call : G -> Z * G) g, bernoulli call lo hi a b g = (f (fst (call g)), snd (call g)))%Z.
Proof. exact @bernoulli_share_lemma. Qed.
Print Assumptions bernoulli_share_partial.

(** C231: with 0 it is always false, with 1 always true. *)
Theorem bernoulli_ends_partial : forall (G : Type) (call : G -> Z * G) lo hi b g, (0 < b -> lo <= fst (call g) <= hi ->
  fst (bernoulli call lo hi 0 b g) = false /\ fst (bernoulli call lo hi b b g) = true)%Z.
Proof. exact @bernoulli_ends_lemma. Qed.
Print Assumptions bernoulli_ends_partial.

(** C231: from the same state of the engine, a greater probability does not turn true into false. *)
Theorem bernoulli_monotone_partial : forall (G : Type) (call : G -> Z * G) lo hi a a' b g, (0 < b -> 0 <= a <= a' ->
  lo <= fst (call g) <= hi -> fst (bernoulli call lo hi a b g) = true -> fst (bernoulli call lo hi a' b g) = true)%Z.
Proof. exact @bernoulli_mono_lemma. Qed.
Print Assumptions bernoulli_monotone_partial.

Example bernoulli_ex :
  how_many (accepts 0 9 1 2) 0 9 = 5%Z /\ how_many (accepts 0 9 1 3) 0 9 = 4%Z /\
  bernoulli (fun x : Z => (x, x + 1)%Z) 0 9 1 3 3%Z = (true, 4%Z) /\ bernoulli (fun x : Z => (x, x + 1)%Z) 0 9 1 3 4%Z = (false, 5%Z).
Proof. repeat split; vm_compute; reflexivity. Qed.
