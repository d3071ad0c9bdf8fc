(** Properties C83-C86: the Mersenne twister. *)
From Coq Require Import List Arith ZArith Bool Lia.
From Verif Require Import Base BitModel BitSpec ShaModel LcgSpec MtModel MtSpec MtProof MtProof2.
Import ListNotations.
Open Scope Z_scope.

(** ** C83 *)
Theorem mt_correct : forall P, mt_valid P -> forall v k, Z.of_nat (mn P) <= 2 ^ 63 ->
  bind (mt_make P v) (run (mt_step P) k) = Ok (mt_outputs P k (mt_window P v)).
Proof. exact mt_seeded_lemma. Qed.
Print Assumptions mt_correct.
Theorem mt_step_correct : forall P, mt_valid P -> forall e win, holds P e win ->
  exists e', mt_step P e = Ok (temper P (mt_next P win), e') /\ holds P e' (mt_adv P win).
Proof. exact mt_step_lemma. Qed.
Print Assumptions mt_step_correct.
Theorem mt_range_correct : forall P, mt_valid P -> forall v k, Z.of_nat (mn P) <= 2 ^ 63 ->
  Forall (fun x => 0 <= x <= mt_max P) (mt_outputs P k (mt_window P v)).
Proof. exact seeded_range. Qed.
Print Assumptions mt_range_correct.
(** the standard allows r = 0, where the code takes the parity of the wrong word *)
Theorem mt_r_zero_refuted : exists P v, mr P = 0 /\ mt P = u32 /\ mw P = 4 /\ mn P = 3%nat /\ mm P = 1%nat /\
  bind (mt_make P v) (run (mt_step P) 1) = Ok [1] /\ mt_outputs P 1 (mt_window P v) = [8].
Proof. exists (Mtp u32 4 3 1 0 8 1 0 1 0 1 0 3 5), 3. vm_compute. repeat split. Qed.
Print Assumptions mt_r_zero_refuted.

(** the predefined engines are valid, and their first outputs are those of the standard library *)
Example c83_case :
  mt_valid (mt19937 u32) /\ mt_valid (mt19937 u64) /\ mt_valid mt19937_64 /\ mt_valid (mt11213b u32) /\ mt_valid (mt11213b u64) /\
  bind (mt_make (mt19937 u64) 5489) (run (mt_step (mt19937 u64)) 3) = Ok [3499211612; 581869302; 3890346734] /\
  bind (mt_make mt19937_64 5489) (run (mt_step mt19937_64) 2) = Ok [14514284786278117030; 4620546740167642908].
Proof.
  unfold mt_valid. repeat match goal with |- _ /\ _ => split end; try reflexivity;
    try (match goal with |- (_ <= _)%nat => apply Nat.leb_le | |- (_ < _)%nat => apply Nat.ltb_lt end); vm_compute; congruence.
Qed.
(** C++11 26.5.5: the 10000th output of mt19937 and mt19937_64 *)
Example c83_standard :
  bind (mt_make (mt19937 u32) 5489) (fun e => bind (run (mt_step (mt19937 u32)) (Z.to_nat 10000) e) (fun l => Ok (last l 0))) = Ok 4123659995 /\
  bind (mt_make mt19937_64 5489) (fun e => bind (run (mt_step mt19937_64) (Z.to_nat 10000) e) (fun l => Ok (last l 0))) = Ok 9981545732273789042.
Proof. split; vm_compute; reflexivity. Qed.

(** ** C84 *)
(** with C++14 constexpr disabled, already the first outputs of mt19937 differ *)
Theorem mt_cxx11_refuted :
  bind (mt_make (mt19937 u32) 5489) (run (mt_step11 (mt19937 u32)) 3) = Ok [2440666408; 3465055261; 1245696454] /\
  mt_outputs (mt19937 u32) 3 (mt_window (mt19937 u32) 5489) = [3499211612; 581869302; 3890346734].
Proof. split; vm_compute; reflexivity. Qed.
Print Assumptions mt_cxx11_refuted.

(** ** C85 *)
(** the top bit of a is set, as in all the predefined engines *)
Theorem mt_equal_correct : forall P, mt_valid P -> (2 <= mm P)%nat -> Z.testbit (ma P) (mw P - 1) = true ->
  forall e1 e2 w1 w2, holds P e1 w1 -> holds P e2 w2 -> exists b, mt_equal P e1 e2 = Ok b /\ (b = true <-> w1 = w2).
Proof. exact mt_equal_lemma. Qed.
Print Assumptions mt_equal_correct.
Theorem mt_equal_future_correct : forall P, mt_valid P -> (2 <= mm P)%nat -> Z.testbit (ma P) (mw P - 1) = true ->
  forall e1 e2 w1 w2 k, holds P e1 w1 -> holds P e2 w2 -> mt_equal P e1 e2 = Ok true -> run (mt_step P) k e1 = run (mt_step P) k e2.
Proof. exact equal_future_lemma. Qed.
Print Assumptions mt_equal_future_correct.

(** an engine after five steps and one with the same last words and another index are equal *)
Example c85_case :
  let P := Mtp u32 4 5 2 2 9 1 6 1 5 1 3 2 5 in
  mt_valid P /\ Z.testbit (ma P) (mw P - 1) = true /\
  mt_equal P (advance P 5 (mt_window P 3), 2%nat) (advance P 2 (mt_window P 3), 5%nat) = Ok true /\
  mt_equal P (advance P 2 (mt_window P 3), 5%nat) (advance P 5 (mt_window P 3), 2%nat) = Ok true /\
  mt_equal P (advance P 5 (mt_window P 3), 2%nat) (advance P 2 (mt_window P 3), 4%nat) = Ok false /\
  mt_equal P (advance P 5 (mt_window P 3), 2%nat) (advance P 5 (mt_window P 3), 2%nat) = Ok true.
Proof. vm_compute. repeat split; congruence || lia. Qed.

(** ** C86 *)
(** a freshly seeded engine (or one at the end of its block) is written as n + 1 numbers, the
    first of them twice; reading them back shifts the words by one and leaves a number unread *)
Theorem mt_stream_refuted : forall P x, length x = mn P -> (1 <= mn P)%nat ->
  exists l, mt_write_full (x, mn P) = Ok l /\ length l = S (mn P) /\
    mt_read P l = Some ((nth 0 x 0 :: firstn (mn P - 1) x, mn P), [last x 0]).
Proof. exact stream_lemma. Qed.
Print Assumptions mt_stream_refuted.
Example c86_case :
  let P := Mtp u32 4 5 2 2 9 1 6 1 5 1 3 2 5 in
  mt_window P 3 = [3; 0; 2; 13; 10] /\ mt_write_full (mt_window P 3, 5%nat) = Ok [3; 3; 0; 2; 13; 10] /\
  mt_read P [3; 3; 0; 2; 13; 10] = Some (([3; 3; 0; 2; 13], 5%nat), [10]).
Proof. vm_compute. repeat split. Qed.
