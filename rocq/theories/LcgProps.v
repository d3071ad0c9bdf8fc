(** Properties C76-C82: modular arithmetic and the congruential engines. *)
From Coq Require Import List Arith ZArith Bool Lia.
From Verif Require Import Base BitModel BitSpec ShaModel LcgModel LcgSpec LcgProof LcgProof2 LcgProof3.
Import ListNotations.
Open Scope Z_scope.

(** ** C76 *)
Theorem const_mod_add_correct : forall il t m, modulus_ok t m -> forall x c, residue m x -> residue m c ->
  cm_add il t m x c = Ok ((x + c) mod m).
Proof. exact add_ok. Qed.
Print Assumptions const_mod_add_correct.
Theorem const_mod_mult_correct : forall il t m, modulus_ok t m -> forall a x, residue m a -> residue m x -> mult_def t m a ->
  cm_mult il t m a x = Ok ((a * x) mod m).
Proof. exact mult_ok. Qed.
Print Assumptions const_mod_mult_correct.
Theorem const_mod_mult_add_correct : forall il t m, modulus_ok t m -> forall a x c, residue m a -> residue m x -> residue m c -> mult_def t m a ->
  cm_mult_add il t m a x c = Ok ((a * x + c) mod m).
Proof. exact mult_add_ok. Qed.
Print Assumptions const_mod_mult_add_correct.
(** otherwise an assertion fails; the result is never a wrong number *)
Theorem const_mod_mult_undefined : forall il t m, modulus_ok t m -> forall a x, residue m a -> residue m x -> ~ mult_def t m a ->
  cm_mult il t m a x = UB.
Proof. exact mult_ub. Qed.
Print Assumptions const_mod_mult_undefined.
Theorem const_mod_pow_correct : forall il t m, modulus_ok t m -> forall a e r, power_of_2 m \/ fits m -> 1 < m -> residue m a ->
  0 <= e < 2 ^ 64 -> (65 <= r)%nat -> cm_pow il t m r a e = Ok (a ^ e mod m).
Proof. exact pow_ok. Qed.
Print Assumptions const_mod_pow_correct.

(** the general, the small, Schrage's and the undefined case *)
Example c76_case :
  modulus_ok (Ity true 2) 2147483647 /\ mult_def (Ity true 2) 2147483647 16807 /\
  cm_mult 2 (Ity true 2) 2147483647 16807 2147483646 = Ok 2147466840 /\
  cm_mult 2 (Ity true 2) 2147483647 1234567 2147483646 = Ok 2146249080 /\
  cm_mult 2 (Ity true 0) 11 7 9 = Ok 8 /\ cm_mult 2 u64 (2 ^ 48) (2 ^ 47 + 1) (2 ^ 40 + 3) = Ok (2 ^ 47 + 2 ^ 40 + 3) /\
  cm_add 2 u32 4294967291 4294967290 4294967290 = Ok 4294967289 /\
  cm_mult 2 u64 18446744073709551557 12345678901234567 3 = UB /\
  cm_pow 2 u32 2147483647 65 16807 2147483646 = Ok 1.
Proof.
  repeat apply conj; try (vm_compute; reflexivity); try (vm_compute; congruence).
  - cbn; lia.
  - unfold mult_def. do 3 right. left. vm_compute. split; reflexivity.
Qed.

(** ** C77 *)
Theorem const_mod_invert_correct : forall il t m x r, modulus_ok t m -> 1 < m -> residue m x -> Z.gcd x m = 1 -> (64 < r)%nat ->
  exists y, invert il t m r x = Ok y /\ inverse_mod m x y.
Proof. exact invert_lemma. Qed.
Print Assumptions const_mod_invert_correct.
Theorem inverse_mod_unique : forall m x y z, 1 < m -> inverse_mod m x y -> inverse_mod m x z -> y = z.
Proof. exact inverse_unique. Qed.
Print Assumptions inverse_mod_unique.
Theorem inversive_step_correct : forall il t m a c x r, modulus_ok t m -> 1 < m -> residue m a -> residue m c -> residue m x ->
  mult_def t m a -> Z.gcd x m = 1 -> (64 < r)%nat ->
  exists y, inverse_mod m x y /\ inversive_step il t m a c r x = Ok ((a * y + c) mod m).
Proof. exact inversive_lemma. Qed.
Print Assumptions inversive_step_correct.
Theorem inversive_step_zero_correct : forall il t m a c r, modulus_ok t m -> 1 < m -> residue m a -> residue m c -> mult_def t m a ->
  inversive_step il t m a c r 0 = Ok c.
Proof. exact inversive_zero_lemma. Qed.
Print Assumptions inversive_step_zero_correct.

Example c77_case :
  invert 2 (Ity true 2) 2147483647 70 12345 = Ok 1417217438 /\ inverse_mod 2147483647 12345 1417217438 /\
  invert 2 u32 7 70 3 = Ok 5 /\ invert 2 (Ity true 0) 127 70 126 = Ok 126 /\ hellekalek1995 2 u32 70 5 = Ok 1681104573.
Proof. repeat apply conj; vm_compute; congruence. Qed.

(** ** C78 *)
Theorem lcg_seed_correct : forall il t m c x0, modulus_ok t m -> 1 < m -> residue m c -> is_val t x0 ->
  init_seed il t m c x0 = Ok (seeded c m x0) /\ lcg_min c <= seeded c m x0 <= lcg_max m.
Proof. exact init_seed_lemma. Qed.
Print Assumptions lcg_seed_correct.
Theorem lcg_step_correct : forall il t m a c x, modulus_ok t m -> residue m a -> residue m c -> residue m x -> mult_def t m a ->
  lcg_step il t m a c x = Ok (lcg a c m x).
Proof. exact step_lemma. Qed.
Print Assumptions lcg_step_correct.
Theorem lcg_step_undefined : forall il t m a c x, modulus_ok t m -> residue m a -> residue m c -> residue m x -> ~ mult_def t m a ->
  lcg_step il t m a c x = UB.
Proof. exact step_ub. Qed.
Print Assumptions lcg_step_undefined.
Theorem lcg_run_correct : forall il t m a c, modulus_ok t m -> residue m a -> residue m c -> mult_def t m a -> forall n x, residue m x ->
  run (fun s => y <- lcg_step il t m a c s ;; Ok (y, y)) n x = Ok (map (fun i => times i (lcg a c m) x) (seq 1 n)).
Proof. exact lcg_run_lemma. Qed.
Print Assumptions lcg_run_correct.
Theorem lcg_range_correct : forall m a c, 0 < m -> (c = 0 -> Z.gcd a m = 1) -> forall n x, residue m x -> lcg_min c <= x ->
  lcg_min c <= times n (lcg a c m) x <= lcg_max m.
Proof. exact lcg_range_lemma. Qed.
Print Assumptions lcg_range_correct.
(** the two predefined engines *)
Theorem minstd_correct : forall il t x, modulus_ok t 2147483647 -> residue 2147483647 x ->
  minstd_rand0 il t x = Ok ((16807 * x) mod (2 ^ 31 - 1)) /\ minstd_rand il t x = Ok ((48271 * x) mod (2 ^ 31 - 1)).
Proof. exact minstd_lemma. Qed.
Print Assumptions minstd_correct.

Example c78_case :
  modulus_ok u32 2147483647 /\ mult_def u32 2147483647 16807 /\ Z.gcd 16807 2147483647 = 1 /\
  init_seed 2 (Ity true 2) 2147483647 0 (-2147483648) = Ok 2147483646 /\ init_seed 2 (Ity true 2) 2147483647 0 (-2147483647) = Ok 1 /\
  init_seed 2 u32 2147483647 0 4294967295 = Ok 1 /\ minstd_rand0 2 u32 1 = Ok 16807 /\ minstd_rand0 2 u64 16807 = Ok 282475249 /\
  minstd_rand 2 u32 2147483646 = Ok 2147435376.
Proof.
  repeat apply conj; try (vm_compute; reflexivity); try (vm_compute; congruence).
  - cbn; lia.
  - unfold mult_def. do 4 right. reflexivity.
Qed.

(** ** C79 *)
(** all the multiplicative engines, and mixed ones with [discard_def] *)
Theorem lcg_discard_partial : forall il t m, modulus_ok t m -> power_of_2 m \/ fits m -> 1 < m ->
  forall r a c z x, 2 <= a < m -> residue m c -> residue m x -> 0 <= z < 2 ^ 64 -> (65 <= r)%nat -> discard_def m a c z ->
  discard il t m a c r z x = Ok (times (Z.to_nat z) (lcg a c m) x).
Proof. exact discard_lemma. Qed.
Print Assumptions lcg_discard_partial.
(** a = 1: division by zero, for every z *)
Theorem lcg_discard_one_refuted : forall il t m c z x r, modulus_ok t m -> 1 < m -> discard il t m 1 c r z x = UB.
Proof. exact discard_one_lemma. Qed.
Print Assumptions lcg_discard_one_refuted.
(** a wrong number: (a - 1) / gcd(a - 1, m) not prime to m; a^z a multiple of m *)
Theorem lcg_discard_refuted :
  discard 2 u32 12 9 5 70 2 0 = Ok 4 /\ times 2 (lcg 9 5 12) 0 = 2 /\
  discard 2 u32 36 6 1 70 2 1 = Ok 11 /\ times 2 (lcg 6 1 36) 1 = 7.
Proof. exact sample_discards. Qed.
Print Assumptions lcg_discard_refuted.

(** minstd_rand0 from C++11 26.5.5: the 10000th value is 1043618065; discard_def in the two mixed cases *)
Example c79_case :
  discard 2 u32 2147483647 16807 0 65 10000 1 = Ok 1043618065 /\ discard 2 u64 2147483647 48271 0 65 10000 1 = Ok 399268537 /\
  discard_def (2 ^ 48) 25214903917 11 12345 /\ discard 2 u64 (2 ^ 48) 25214903917 11 65 2 1 = Ok (lcg 25214903917 11 (2 ^ 48) (lcg 25214903917 11 (2 ^ 48) 1)) /\
  discard_def 13 7 5 4 /\ discard 2 u32 13 7 5 65 4 1 = Ok (times 4 (lcg 7 5 13) 1).
Proof.
  repeat apply conj; try (match goal with |- discard _ _ _ _ _ _ _ _ = _ => vm_compute; reflexivity end); right; (split; [reflexivity|]); intros E; [exfalso; revert E|right]; vm_compute; congruence.
Qed.

(** ** C80 *)
Theorem rand48_seed_correct : forall il x0, is_val u32 x0 -> rand48_seed il x0 = Ok (x0 * 2 ^ 16 + 13070).
Proof. exact rand48_seed_lemma. Qed.
Print Assumptions rand48_seed_correct.
(** the state follows the recurrence; of lrand48's 31 bits only the low 15 are returned *)
Theorem rand48_partial : forall il x, residue (2 ^ 48) x ->
  rand48 il x = Ok ((lcg 25214903917 11 (2 ^ 48) x / 2 ^ 17) mod 2 ^ 15, lcg 25214903917 11 (2 ^ 48) x).
Proof. exact rand48_lemma. Qed.
Print Assumptions rand48_partial.
Theorem rand48_refuted : forall il, exists x y v, rand48_seed il 1 = Ok x /\ rand48 il x = Ok (v, y) /\ v = 9380 /\ y / 2 ^ 17 = 89400484.
Proof. intros il. exists 78606, 11717900325121, 9380. rewrite rand48_seed_lemma, rand48_lemma by (unfold residue, is_val; cbn; lia). repeat apply conj; reflexivity. Qed.
Print Assumptions rand48_refuted.
Example c80_case : is_val u32 4294967295 /\ residue (2 ^ 48) 78606 /\ rand48 2 78606 = Ok (9380, 11717900325121).
Proof. repeat apply conj; vm_compute; congruence. Qed.

(** ** C81 *)
Theorem additive_combine_correct : forall t m1 m2 step1 step2 s v1 v2, sgn t = false -> 1 < m2 <= m1 -> m1 <= tmax t ->
  step1 (fst s) = Ok v1 -> step2 (snd s) = Ok v2 -> 1 <= v1 < m1 -> 1 <= v2 < m2 ->
  exists v, additive_combine t m1 step1 step2 s = Ok (v, (v1, v2)) /\ 1 <= v <= m1 - 1 /\ v mod (m1 - 1) = (v1 - v2) mod (m1 - 1).
Proof. exact additive_lemma. Qed.
Print Assumptions additive_combine_correct.
Theorem ecuyer1988_correct : forall il t s1 s2, sgn t = false -> (2 <= lg t <= 3)%nat -> 1 <= s1 < 2147483563 -> 1 <= s2 < 2147483399 ->
  exists v, ecuyer1988 il t (s1, s2) = Ok (v, (lcg 40014 0 2147483563 s1, lcg 40692 0 2147483399 s2)) /\
    1 <= v <= 2147483562 /\ v mod 2147483562 = (lcg 40014 0 2147483563 s1 - lcg 40692 0 2147483399 s2) mod 2147483562.
Proof. exact ecuyer_lemma. Qed.
Print Assumptions ecuyer1988_correct.
Example c81_case : ecuyer1988 2 u32 (1, 1) = Ok (2147482884, (40014, 40692)) /\ ecuyer1988 2 u64 (2, 1) = Ok (39336, (80028, 40692)).
Proof. split; vm_compute; reflexivity. Qed.

(** ** C82 *)
Theorem shuffle_order_correct : forall S step t lo hi k, sgn t = false -> (1 <= k)%nat -> Z.of_nat k <= tmax t -> 0 <= lo <= hi -> hi <= tmax t ->
  (lg t <= 3)%nat -> k = 1%nat \/ Z.of_nat k * (hi - lo + 1) < 2 ^ 64 ->
  forall n s o, produces step s o -> (forall i, lo <= o i <= hi) ->
  bind (shuffle_init S step k s) (run (shuffle_step S step t lo hi k) n) =
  Ok (shuffled lo hi n (fun i => o (k + 1 + i)%nat) (map o (seq 0 k)) (o k)).
Proof. exact shuffle_lemma. Qed.
Print Assumptions shuffle_order_correct.
(** knuth_b: the first values of std::knuth_b *)
Example c82_case :
  bind (shuffle_init Z (fun s => y <- minstd_rand0 2 u32 s ;; Ok (y, y)) 256 1)
    (run (shuffle_step Z (fun s => y <- minstd_rand0 2 u32 s ;; Ok (y, y)) u32 1 2147483646 256) 5) =
  Ok [152607844; 823378840; 578354438; 2035308228; 1004016855].
Proof. vm_compute. reflexivity. Qed.
