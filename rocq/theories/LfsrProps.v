(** Properties C87-C90: linear feedback shift registers, xor_combine and taus88. *)
From Coq Require Import List Arith ZArith Bool Lia.
From Verif Require Import Base BitModel BitSpec ShaModel LcgSpec LfsrModel LfsrSpec LfsrProof.
Import ListNotations.
Open Scope Z_scope.

(** ** C87 *)
(** for a word as wide as its type *)
Theorem lfsr_partial : forall P, lf_valid P -> fw P = wid (ft P) -> forall md n x, 0 <= x < 2 ^ fw P ->
  fw P - fk P <= fk P - fs P - fq P \/ lf_word P x ->
  run (lf_step md P) n x = Ok (map (lf_out P x) (seq 0 n)).
Proof. exact @lf_run_lemma. Qed.
Print Assumptions lfsr_partial.
(** in a wider type, only the lower w bits are those of the register *)
Theorem lfsr_wide_partial : forall P, lf_valid P -> forall md x, 0 <= x -> lf_word P (x mod 2 ^ fw P) ->
  exists z, lf_step md P x = Ok (z, z) /\ 0 <= z < 2 ^ wid (ft P) /\
    z mod 2 ^ fw P = times (Z.to_nat (fs P)) (tick P) (x mod 2 ^ fw P).
Proof. exact @lf_step_word_lemma. Qed.
Print Assumptions lfsr_wide_partial.
Theorem lfsr_range_partial : forall P, lf_valid P -> fw P = wid (ft P) -> forall x i, 0 <= x < 2 ^ fw P ->
  0 <= lf_out P x i <= lf_max P.
Proof. exact (fun P V _ => @lf_range_lemma P V). Qed.
Print Assumptions lfsr_range_partial.
(** the first component of taus88 in a type of 64 bits, as std::uint_fast32_t often is, leaves its range at once *)
Theorem lfsr_range_refuted : forall md, exists P v, lf_valid P /\ ft P = u64 /\
  bind (lf_seed md P 341) (run (lf_step md P) 2) = Ok v /\ exists o, In o v /\ lf_max P < o.
Proof.
  intros md. exists (Lfp u64 32 31 13 12). eexists. split; [unfold lf_valid; cbn; lia|]. split; [reflexivity|].
  split; [destruct md; vm_compute; reflexivity|]. eexists. split; [right; left; reflexivity|reflexivity].
Qed.
Print Assumptions lfsr_range_refuted.

(** the parameters of taus88 meet the hypotheses, and a short register of 8 bits runs through the first bits of its sequence *)
Example c87_case :
  (lf_valid taus_1 /\ fw taus_1 = wid (ft taus_1) /\ fw taus_1 - fk taus_1 <= fk taus_1 - fs taus_1 - fq taus_1) /\
  (lf_valid taus_2 /\ fw taus_2 - fk taus_2 <= fk taus_2 - fs taus_2 - fq taus_2) /\
  (lf_valid taus_3 /\ fw taus_3 - fk taus_3 <= fk taus_3 - fs taus_3 - fq taus_3) /\
  run (lf_step false taus_1) 2 12345 = Ok [50561216; 940314211] /\ map (lf_out taus_1 12345) (seq 0 2) = [50561216; 940314211].
Proof.
  destruct taus_valid as (A & B & C).
  repeat match goal with |- _ /\ _ => split end; try assumption; try reflexivity; try (cbn; lia); vm_compute; reflexivity.
Qed.

(** ** C88 *)
Theorem lfsr_seed_partial : forall md P x0, lf_valid P -> fw P - fk P <= 30 -> 0 <= x0 ->
  exists x, lf_seed md P x0 = Ok x /\ 0 <= x < 2 ^ fw P /\ lead_k P x <> 0 /\
    x = (if 2 ^ (fw P - fk P) <=? x0 mod 2 ^ fw P then x0 mod 2 ^ fw P else x0 mod 2 ^ fw P + 2 ^ (fw P - fk P)).
Proof. exact lf_seed_lemma. Qed.
Print Assumptions lfsr_seed_partial.
Theorem lfsr_alive_correct : forall P, lf_valid P -> forall x i, 0 <= x < 2 ^ fw P -> lead_k P x <> 0 ->
  lead_k P (lf_out P x i) <> 0 /\ 0 < lf_out P x i.
Proof. exact @lf_alive_lemma. Qed.
Print Assumptions lfsr_alive_correct.
(** the literal 1 of init_seed is an int: with w - k = 31 it becomes negative, with w - k = 32 the shift is undefined *)
Theorem lfsr_seed_refuted : forall md,
  (lf_valid (Lfp u64 64 33 2 3) /\ lf_seed md (Lfp u64 64 33 2 3) (2 ^ 40) = Ok (2 ^ 40 - 2 ^ 31)) /\
  (lf_valid (Lfp u64 64 32 2 3) /\ lf_seed md (Lfp u64 64 32 2 3) (2 ^ 40) = UB).
Proof. intros md. unfold lf_valid. destruct md; vm_compute; repeat split; congruence. Qed.
Print Assumptions lfsr_seed_refuted.

Example c88_case : lf_seed false taus_2 5 = Ok 13 /\ lf_seed false taus_2 0 = Ok 8 /\ lf_seed false taus_2 (2 ^ 32 + 9) = Ok 9 /\
  fw taus_2 - fk taus_2 <= 30 /\ lead_k taus_2 13 <> 0.
Proof. repeat split; vm_compute; congruence. Qed.

(** ** C89 *)
Theorem xor_combine_partial : forall il md t S1 S2 (step1 : S1 -> res (Z * S1)) (step2 : S2 -> res (Z * S2)) e1 e2 o1 o2 s1 s2,
  sgn t = false -> (il <= lg t)%nat -> 0 <= s1 < wid t -> 0 <= s2 < wid t ->
  step1 e1 = Ok o1 -> step2 e2 = Ok o2 -> is_val t (fst o1) -> is_val t (fst o2) ->
  let r := Ok (Z.lxor (fst o1 * 2 ^ s1 mod 2 ^ wid t) (fst o2 * 2 ^ s2 mod 2 ^ wid t), (snd o1, snd o2)) in
  xc_step il md t s1 s2 S1 S2 step1 step2 (e1, e2) = r /\ xc_step11 il md t t s1 s2 S1 S2 step1 step2 (e1, e2) = r.
Proof. exact xc_lemma. Qed.
Print Assumptions xor_combine_partial.
(** a second engine with a narrower result type: the two operators disagree *)
Theorem xor_combine_paths_refuted : forall md, exists e v v',
  xc_step 2 md u64 0 8 Z Z (fun x => Ok (x, x)) (lf_step md taus_1) e = Ok v /\
  xc_step11 2 md u64 u32 0 8 Z Z (fun x => Ok (x, x)) (lf_step md taus_1) e = Ok v' /\ fst v <> fst v'.
Proof.
  intros md. exists (0, 4294967295), (1099509530624, (0, 4294959104)), (4292870144, (0, 4294959104)).
  destruct md; vm_compute; repeat split; congruence.
Qed.
Print Assumptions xor_combine_paths_refuted.
(** max() takes no account of the shifts *)
Theorem xor_combine_range_refuted : forall md, exists e v,
  xc_step 2 md u64 8 0 Z Z (fun x => Ok (x, x)) (fun x => Ok (x, x)) e = Ok v /\
  fst e <= 255 /\ snd e <= 255 /\ xc_max 255 255 < fst v.
Proof. intros md. exists (255, 255), (65535, (255, 255)). destruct md; vm_compute; repeat split; congruence. Qed.
Print Assumptions xor_combine_range_refuted.

Example c89_case : forall md,
  xc_step 2 md u32 3 1 Z Z (lf_step md taus_1) (lf_step md taus_2) (12345, 54321) =
  xc_step11 2 md u32 u32 3 1 Z Z (lf_step md taus_1) (lf_step md taus_2) (12345, 54321).
Proof. intros md; destruct md; vm_compute; reflexivity. Qed.

(** ** C90 *)
Theorem taus88_correct : forall il md s1 s2 s3, (il <= 2)%nat -> w32b s1 -> w32b s2 -> w32b s3 ->
  taus88_step il md (s1, s2, s3) = Ok (lecuyer_out (lecuyer (s1, s2, s3)), lecuyer (s1, s2, s3)) /\
  let '(a, b, c) := lecuyer (s1, s2, s3) in w32b a /\ w32b b /\ w32b c.
Proof. exact taus88_lemma. Qed.
Print Assumptions taus88_correct.
Theorem taus88_run_correct : forall il md n, (il <= 2)%nat -> forall s1 s2 s3, w32b s1 -> w32b s2 -> w32b s3 ->
  run (taus88_step il md) n (s1, s2, s3) =
  Ok (map (fun i => Z.lxor (Z.lxor (lf_out taus_1 s1 i) (lf_out taus_2 s2 i)) (lf_out taus_3 s3 i)) (seq 0 n)).
Proof. exact taus88_run_lemma. Qed.
Print Assumptions taus88_run_correct.

(** the default seed; Boost documents 3535848941 as the 10000th output *)
Example c90_case :
  taus88_seed false 341 = Ok (341, 341, 341) /\
  bind (taus88_seed false 341) (fun e => bind (run (taus88_step 2 false) (Z.to_nat 10000) e) (fun l => Ok (last l 0))) = Ok 3535848941.
Proof. split; vm_compute; reflexivity. Qed.
