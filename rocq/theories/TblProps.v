(** Properties of factorial and bernoulli_number (C232-C234). *)
From Coq Require Import List ZArith QArith Qabs.
From Verif Require Import Base TblModel TblSpec TblProof.
Import ListNotations.
Local Open Scope Z_scope.

(** C232: for the integer types, factorial is exact up to factorial_limit, and its value fits the type. *)
Theorem factorial_integer : forall t x, is_integer t -> (x <= factorial_limit t)%nat -> factorial t x = Ok (zfact x).
Proof. exact @factorial_integer_lemma. Qed.
Print Assumptions factorial_integer.

Theorem factorial_fits : forall t x, (x <= factorial_limit t)%nat -> zfact x <= greatest t.
Proof. exact @factorial_fits_lemma. Qed.
Print Assumptions factorial_fits.

(** C232: for every type, the literal in the table is within 10^-39 of the factorial, and equal to it up to 40. *)
Theorem factorial_real : forall t x, (x <= factorial_limit t)%nat -> exists v, factorial t x = Ok v /\
  Z.abs (v - zfact x) * 10 ^ 39 <= zfact x /\ ((x <= 40)%nat -> v = zfact x).
Proof. exact @factorial_real_lemma. Qed.
Print Assumptions factorial_real.

Example factorial_ex : factorial UInt2 8 = Ok 40320 /\ factorial Int8 20 = Ok 2432902008176640000 /\ factorial Int1 6 = UB.
Proof. repeat split; vm_compute; reflexivity. Qed.

(** C233: but for the integers of 4 bytes and long double, factorial accepts all numbers whose factorial the type can hold. *)
Theorem factorial_greatest_partial : forall t x, t <> Int4 -> t <> UInt4 -> t <> LongDouble ->
  (zfact x <= greatest t -> exists v, factorial t x = Ok v) /\ (greatest t < zfact x -> factorial t x = UB).
Proof. exact @factorial_greatest_lemma. Qed.
Print Assumptions factorial_greatest_partial.

(** C233: 12! fits an int, and factorial<int>(12) is rejected. *)
Theorem factorial_limit_refuted : exists t x, is_integer t /\ zfact x <= greatest t /\ factorial t x = UB.
Proof. exact factorial_limit_refuted_lemma. Qed.
Print Assumptions factorial_limit_refuted.

Example factorial_limit_ex : zfact 12 = 479001600 /\ factorial UInt4 12 = UB /\ factorial UInt4 11 = Ok 39916800.
Proof. repeat split; vm_compute; reflexivity. Qed.

(** The recurrence of the Bernoulli numbers has a solution. *)
Theorem bernoulli_numbers_exist : exists B, bernoulli_seq B.
Proof. exact bernoulli_exists_lemma. Qed.
Print Assumptions bernoulli_numbers_exist.

(** C234: but for 28, the expression in the table is within 10^-21 of the Bernoulli number, and equal to it below 44. *)
Theorem bernoulli_number_partial : forall B, bernoulli_seq B -> forall t x, (x <= bernoulli_number_limit t)%nat -> x <> 28%nat ->
  exists q, bernoulli_number t x = Ok q /\ (Qabs (q - B x) * inject_Z (10 ^ 21) <= Qabs (B x))%Q /\ ((x < 44)%nat -> q == B x)%Q.
Proof. exact @bernoulli_number_lemma. Qed.
Print Assumptions bernoulli_number_partial.

(** C234: for 28 the code gives less than a hundredth of the Bernoulli number, in every type. *)
Theorem bernoulli_number_refuted : forall B, bernoulli_seq B -> forall t,
  exists q, bernoulli_number t 28 = Ok q /\ (Qabs q * inject_Z 100 <= Qabs (B 28%nat))%Q.
Proof. exact @bernoulli_28_lemma. Qed.
Print Assumptions bernoulli_number_refuted.

(** C234: beyond the limit bernoulli_number rejects. *)
Theorem bernoulli_number_beyond : forall t x, (bernoulli_number_limit t < x)%nat -> bernoulli_number t x = UB.
Proof. exact @bernoulli_beyond_lemma. Qed.
Print Assumptions bernoulli_number_beyond.

Example bernoulli_number_ex : bernoulli_number RFloat 12 = Ok (-691 # 2730)%Q /\ bernoulli_number RDouble 28 = Ok (-236364091 # 870)%Q /\
  bernoulli_number RDouble 99 = Ok 0%Q /\ bernoulli_number RFloat 66 = UB.
Proof. repeat split; vm_compute; reflexivity. Qed.
