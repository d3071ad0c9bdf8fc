(** The translations into Brainfuck (C225, C226). *)
From Coq Require Import List Arith Bool ZArith Lia.
From Verif Require Import Base CharSpec OokModel OokSpec OokProof.
Import ListNotations.
Local Open Scope nat_scope.

(** ** C225 *)
Theorem ook_translation_partial : forall s d k result, Forall character s -> 0 < d -> length s < k -> 1 <= length result ->
  exists out, translated ook_word s out /\ (forall out', translated ook_word s out' -> out' = out) /\
    ook_to_brainfuck d k s result = Ok (filled (map (fun c => if (c =? 32)%Z then 32%Z else 62%Z) out) result, true).
Proof. exact ook_lemma. Qed.
Print Assumptions ook_translation_partial.
Theorem ook_translation_refuted : exists s, translated ook_word s [60%Z] /\
  ook_to_brainfuck 1 12 s [0%Z] = Ok ([62%Z], true).
Proof. exact ook_refuted_lemma. Qed.
Print Assumptions ook_translation_refuted.
(** "Ook.Ook? x" *)
Example ook_translation_case :
  ook_to_brainfuck 1 11 [79; 111; 111; 107; 46; 79; 111; 111; 107; 63]%Z [0; 0; 7]%Z = Ok ([62; 0; 7]%Z, true)
  /\ ook_to_brainfuck 1 4 [32; 79; 111]%Z [0; 0; 7]%Z = Ok ([32; 32; 32]%Z, true).
Proof. split; reflexivity. Qed.

(** ** C226 *)
Theorem misa_translation_partial : forall s d k result, ~ occurs [129; 91]%Z s -> ~ occurs [129; 5; 66]%Z s ->
  0 < d -> length s < k -> 1 <= length result ->
  exists out, translated misa_word s out /\ (forall out', translated misa_word s out' -> out' = out) /\
    misa_to_brainfuck d k s result = Ok (filled out result, true).
Proof. exact misa_lemma. Qed.
Print Assumptions misa_translation_partial.
Theorem misa_plain : forall s d k result, Forall (fun b => 0 <= b < 128)%Z s -> 0 < d -> length s < k -> 1 <= length result ->
  misa_to_brainfuck d k s result =
    Ok (filled (map (fun b => if existsb (Z.eqb b) [62; 60; 43; 45; 46; 44; 91; 93]%Z then b else 32%Z) s) result, true).
Proof. exact misa_plain_lemma. Qed.
Print Assumptions misa_plain.
Theorem misa_translation_refuted : translated misa_word [129; 91]%Z [62%Z] /\
  misa_to_brainfuck 1 3 [129; 91]%Z [0; 0]%Z = Ok ([32; 91]%Z, true).
Proof. exact misa_refuted_lemma. Qed.
Print Assumptions misa_translation_refuted.
Example misa_translation_case :
  misa_to_brainfuck 1 8 [130; 160; 43; 129; 73; 65]%Z [0; 0; 0; 0; 0]%Z = Ok ([43; 43; 46; 32; 0]%Z, true).
Proof. reflexivity. Qed.
