(** Properties C53 and C54: sprout/brainfuck/brainfuck.hpp. *)
From Coq Require Import List Arith ZArith Bool.
From Verif Require Import Base BitModel ShaModel BfModel BfSpec BfProof.
Import ListNotations.
Open Scope Z_scope.

(** ** C53 for programs without '-' (tapes and outputs of fewer than 2^63 cells) *)
(** What the language says happens, happens. *)
Theorem exec_runs_partial : forall ct ot output input cells p,
  Z.of_nat (length output) < 2 ^ 63 -> Z.of_nat cells < 2 ^ 63 -> proper p -> without_dec p ->
  (forall s, run ct ot (length output) p (start cells input) (Norm s) ->
    exists n, forall k, (n <= k)%nat ->
      bf_exec ct ot (text p) output k cells input = Ok (Done (outp s ++ skipn (length (outp s)) output))) /\
  (run ct ot (length output) p (start cells input) Err ->
    exists n, forall k, (n <= k)%nat -> bf_exec ct ot (text p) output k cells input = Ok Throw).
Proof. exact @exec_runs. Qed.
Print Assumptions exec_runs_partial.

(** What happens, the language says; so a program that runs for ever never returns. *)
Theorem exec_only_partial : forall ct ot output input cells p,
  Z.of_nat (length output) < 2 ^ 63 -> Z.of_nat cells < 2 ^ 63 -> proper p -> without_dec p -> forall k,
  (forall o, bf_exec ct ot (text p) output k cells input = Ok (Done o) ->
    (exists s, run ct ot (length output) p (start cells input) (Norm s) /\ o = outp s ++ skipn (length (outp s)) output) \/
    run ct ot (length output) p (start cells input) Off) /\
  (bf_exec ct ot (text p) output k cells input = Ok Throw ->
    run ct ot (length output) p (start cells input) Err \/ run ct ot (length output) p (start cells input) Off) /\
  (bf_exec ct ot (text p) output k cells input = UB -> run ct ot (length output) p (start cells input) Off).
Proof. exact @exec_only. Qed.
Print Assumptions exec_only_partial.

(** ",+[.>,]" reads 71, 0, writes 72, stops *)
Example exec_example :
  let p := Cmd Read (Cmd Inc (Loop (Cmd Out (Cmd Right (Cmd Read End))) End)) in
  proper p /\ without_dec p /\ text p = [44; 43; 91; 46; 62; 44; 93] /\
  bf_exec u8 u8 (text p) [7; 7; 7] 100 5 [71; 0] = Ok (Done [72; 7; 7]) /\
  run u8 u8 3 p (start 5 [71; 0]) (Norm (BfState [72; 0; 0; 0; 0] 1 [] [72])).
Proof.
  split; [cbn; tauto|]. split; [cbn; tauto|]. split; [reflexivity|]. split; [reflexivity|].
  eapply run_cmd; [reflexivity|]. eapply run_cmd; [reflexivity|]. eapply run_loop_in; [reflexivity|discriminate| |].
  - eapply run_cmd; [reflexivity|]. eapply run_cmd; [reflexivity|]. eapply run_cmd; [reflexivity|]. apply run_end.
  - apply run_loop_out; [reflexivity|]. apply run_end.
Qed.

(** Missing: '-'.  exec runs every program as if each '-' were a comment *)
Theorem exec_minus_partial : forall ct ot output input cells p,
  Z.of_nat (length output) < 2 ^ 63 -> Z.of_nat cells < 2 ^ 63 -> proper p ->
  (forall s, run ct ot (length output) (strike_dec p) (start cells input) (Norm s) ->
    exists n, forall k, (n <= k)%nat ->
      bf_exec ct ot (text p) output k cells input = Ok (Done (outp s ++ skipn (length (outp s)) output))) /\
  (run ct ot (length output) (strike_dec p) (start cells input) Err ->
    exists n, forall k, (n <= k)%nat -> bf_exec ct ot (text p) output k cells input = Ok Throw).
Proof. exact @exec_minus. Qed.
Print Assumptions exec_minus_partial.

Example exec_minus_example :
  let p := Cmd Inc (Cmd Inc (Cmd Dec (Cmd Out End))) in
  proper p /\ text (strike_dec p) = text p /\ bf_exec u8 u8 (text p) [7] 100 5 [] = Ok (Done [2]) /\
  run u8 u8 1 (strike_dec p) (start 5 []) (Norm (BfState [2; 0; 0; 0; 0] 0 [] [2])).
Proof.
  split; [cbn; tauto|]. split; [reflexivity|]. split; [reflexivity|].
  eapply run_cmd; [reflexivity|]. eapply run_cmd; [reflexivity|]. eapply run_cmd; [reflexivity|].
  eapply run_cmd; [reflexivity|]. apply run_end.
Qed.

(** so C53 does not hold: "++-." writes 2 where the language says 1. *)
Theorem exec_refuted : exists p s, proper p /\ run u8 u8 1 p (start 5 []) (Norm s) /\ outp s = [1] /\
  forall k, bf_exec u8 u8 (text p) [7] k 5 [] = Fuel \/ bf_exec u8 u8 (text p) [7] k 5 [] = Ok (Done [2]).
Proof. exact @minus_wrong. Qed.
Print Assumptions exec_refuted.

(** ** C54 *)
Theorem is_well_formed_correct : forall src, is_well_formed src 0 = true <-> balanced src.
Proof. exact @is_well_formed_ok. Qed.
Print Assumptions is_well_formed_correct.

(** the balanced sources are the texts of programs *)
Theorem balanced_text_correct : forall src, balanced src <-> exists p, proper p /\ text p = src.
Proof. exact @balanced_text. Qed.
Print Assumptions balanced_text_correct.

(** A jump forwards leads to the matching bracket *)
Theorem jump_end_correct : forall src, is_well_formed src 0 = true -> forall pre rest, src = pre ++ 91 :: rest ->
  exists b post, rest = b ++ 93 :: post /\ balanced b /\
    find_scope_end (skipn (S (length pre)) src) (S (length pre)) 0 = Ok (length (pre ++ 91 :: b)).
Proof. exact @jump_end. Qed.
Print Assumptions jump_end_correct.

(** and so does a jump backwards *)
Theorem jump_start_correct : forall src, is_well_formed src 0 = true -> forall pre rest, src = pre ++ 93 :: rest ->
  exists pre1 b, pre = pre1 ++ 91 :: b /\ balanced b /\
    find_scope_start (rev (firstn (length pre) src)) (length pre - 1) 0 = Ok (length pre1).
Proof. exact @jump_start. Qed.
Print Assumptions jump_start_correct.

(** A well-formed source without ',' runs safely, '-' or not *)
Theorem exec_safe_correct : forall ct ot src output, is_well_formed src 0 = true -> ~ In 44 src ->
  Z.of_nat (length output) < 2 ^ 63 -> forall cells input k, Z.of_nat cells < 2 ^ 63 ->
  bf_exec ct ot src output k cells input <> UB.
Proof. exact @exec_safe. Qed.
Print Assumptions exec_safe_correct.

(** "a[b[]+]", "]["; "+[" and "]" are rejected and leave the source *)
Example is_well_formed_example :
  is_well_formed [97; 91; 98; 91; 93; 43; 93] 0 = true /\ is_well_formed [93; 91] 0 = false /\
  find_scope_end (skipn 2 [97; 91; 98; 91; 93; 43; 93]) 2 0 = Ok 6%nat /\
  find_scope_start (rev (firstn 6 [97; 91; 98; 91; 93; 43; 93])) 5 0 = Ok 1%nat /\
  is_well_formed [91] 0 = false /\ bf_exec u8 u8 [91] [] 10 1 [] = UB /\
  is_well_formed [43; 93] 0 = false /\ bf_exec u8 u8 [43; 93] [] 10 1 [] = UB.
Proof. vm_compute. repeat split; congruence. Qed.
