(** seed_array generates the numbers that the standard gives for seed_seq (C227, C228). *)
From Coq Require Import List Arith Bool ZArith Lia.
From Verif Require Import Base SeedModel SeedSpec SeedProof.
Import ListNotations.
Local Open Scope Z_scope.

(** ** C227 *)
Theorem seed_array_generate : forall v result d,
  (Nat.max (length v + 1) (length result) + length result < d)%nat ->
  generate d v result = Ok (seeded v (length result)).
Proof. exact generate_lemma. Qed.
Print Assumptions seed_array_generate.
Theorem seed_array_generate_range : forall v result d,
  (Nat.max (length v + 1) (length result) + length result < d)%nat ->
  generate_range d v result = Ok (seeded v (length result)).
Proof. exact generate_range_lemma. Qed.
Print Assumptions seed_array_generate_range.
(** what std::seed_seq{1, 2, 3} gives for five numbers *)
Example seed_array_generate_case :
  generate 9 [1; 2; 3] [0; 0] = generate_range 9 [1; 2; 3] [7; 7]
  /\ generate 12 [1; 2; 3] [0; 0; 0; 0; 0] = Ok [3537778344; 1928993989; 724881043; 17581673; 2067159162]
  /\ seeded [1; 2; 3] 5 <> seeded [1; 2; 4] 5.
Proof. repeat split; vm_compute; try reflexivity; discriminate. Qed.

(** ** C228 *)
Theorem make_seed_array_values : forall l, make_seed_array l = map (fun x => x mod 2 ^ 32) l.
Proof. exact make_seed_lemma. Qed.
Print Assumptions make_seed_array_values.
Example make_seed_array_case : make_seed_array [-1; 2 ^ 40 + 5; 7] = [4294967295; 5; 7].
Proof. reflexivity. Qed.
