(** Theorems about reading floating-point numbers (strtod, atof). *)
From Coq Require Import List ZArith QArith.
From Verif Require Import Base CharModel CharSpec StfModel StfSpec StfProof.
Import ListNotations.
Local Open Scope Z_scope.

(** ** C240 *)
(** A text without exponent is read as its value, unless there are more decimals than the least exponent allows: then
    the result is HUGE_VAL, however small the number is. *)
Theorem strtod_decimal_partial : forall (s rest : list Z) (neg : bool) (di df : list Z) (lo hi : Z) (D : nat),
  decimal_text s neg di df -> lo <= 0 <= hi -> forall c : Z,
  character c -> ~ Digit c -> ~ Space c -> c <> 43 -> c <> 45 -> c <> 46 \/ In 46 s -> c <> 101 -> c <> 69 ->
  di ++ df <> [] -> (length s < D)%nat ->
  if - Z.of_nat (length df) <? lo then strtod (s ++ c :: rest) lo hi D = Ok Huge
  else exists q, strtod (s ++ c :: rest) lo hi D = Ok (Fin q) /\ (q == text_value neg di df 0)%Q.
Proof. exact @strtod_decimal_s. Qed.
Print Assumptions strtod_decimal_partial.

Example strtod_decimal_partial_ex : decimal_text [32; 45; 49; 50; 46; 53] true [49; 50] [53] /\
  strtod [32; 45; 49; 50; 46; 53; 0] (-1021) 1024 20 = Ok (Fin (-125 # 10)).
Proof.
  split; [|vm_compute; reflexivity]. apply dt_space; [unfold Space; auto|]. apply dt_sign; [auto|].
  apply (ut_point [49; 50] [53]); repeat constructor; discriminate.
Qed.

(** A text without digits is read as zero. *)
Theorem strtod_no_digits : forall (s rest : list Z) (neg : bool) (di df : list Z) (lo hi : Z) (D : nat),
  decimal_text s neg di df -> forall c : Z,
  character c -> ~ Digit c -> ~ Space c -> c <> 43 -> c <> 45 -> c <> 46 \/ In 46 s ->
  di ++ df = [] -> (length s < D)%nat -> strtod (s ++ c :: rest) lo hi D = Ok (Fin 0).
Proof. exact @strtod_none_s. Qed.
Print Assumptions strtod_no_digits.

Example strtod_no_digits_ex : decimal_text [45; 46] true [] [] /\ strtod [45; 46; 101; 49; 0] (-1021) 1024 20 = Ok (Fin 0).
Proof. split; [|vm_compute; reflexivity]. apply dt_sign; [auto|]. apply (ut_point [] []); constructor. Qed.

(** A number smaller than any exponent is read as HUGE_VAL. *)
Theorem strtod_tiny_refuted : exists (s : list Z) (df : list Z), decimal_text s false [48] df /\
  strtod (s ++ [0]) (-1021) 1024 2000 = Ok Huge /\ Qeq (text_value false [48] df 0) 0.
Proof. exact strtod_tiny_s. Qed.
Print Assumptions strtod_tiny_refuted.

(** ** C241 *)
(** With an exponent, the character behind the e is not read as a digit, whatever it is, and the digits behind it are
    subtracted if it is not '-' and added if it is. *)
Theorem strtod_exponent_opposite : forall (s rest : list Z) (neg : bool) (di df : list Z) (lo hi : Z) (D : nat),
  decimal_text s neg di df -> forall (e g : Z) (es : list Z) (c : Z), e = 101 \/ e = 69 -> Forall Digit es -> character c -> ~ Digit c ->
  di ++ df <> [] -> (length s + length es < D)%nat ->
  let x := if g =? 45 then numeral es else - numeral es in
  lo <= x - Z.of_nat (length df) <= hi -> Z.abs (x - Z.of_nat (length df)) < 2 ^ (Z.of_nat D - 1) ->
  exists q, strtod (s ++ e :: g :: es ++ c :: rest) lo hi D = Ok (Fin q) /\ (q == text_value neg di df x)%Q.
Proof. exact @strtod_exponent_s. Qed.
Print Assumptions strtod_exponent_opposite.

Example strtod_exponent_opposite_ex : decimal_text [49; 46; 53] false [49] [53] /\
  strtod [49; 46; 53; 101; 45; 50; 0] (-1021) 1024 20 = Ok (Fin 150).
Proof. split; [|vm_compute; reflexivity]. apply dt_none. apply (ut_point [49] [53]); repeat constructor; discriminate. Qed.

(** A zero exponent with a sign is read rightly. *)
Theorem strtod_exponent_partial : forall (s rest : list Z) (neg : bool) (di df : list Z) (lo hi : Z) (D : nat),
  decimal_text s neg di df -> forall (e g : Z) (es : list Z) (c : Z), e = 101 \/ e = 69 -> g = 43 \/ g = 45 ->
  Forall Digit es -> character c -> ~ Digit c -> di ++ df <> [] -> (length s + length es < D)%nat ->
  numeral es = 0 -> lo <= - Z.of_nat (length df) -> 0 <= hi ->
  exists q, strtod (s ++ e :: g :: es ++ c :: rest) lo hi D = Ok (Fin q) /\
    (q == text_value neg di df (if g =? 45 then - numeral es else numeral es))%Q.
Proof. exact @strtod_exponent_zero. Qed.
Print Assumptions strtod_exponent_partial.

Example strtod_exponent_partial_ex : strtod [49; 46; 53; 69; 43; 48; 0] (-1021) 1024 20 = Ok (Fin (15 # 10)) /\ numeral [48] = 0.
Proof. split; vm_compute; reflexivity. Qed.

(** 1e+2 is read as 1/100, 1e-2 as 100, and 1e2 as 1; 1e is read past the terminating null character. *)
Theorem strtod_exponent_refuted :
  (exists q, strtod [49; 101; 43; 50; 0] (-1021) 1024 20 = Ok (Fin q) /\ ~ Qeq q (text_value false [49] [] 2)) /\
  (exists q, strtod [49; 101; 45; 50; 0] (-1021) 1024 20 = Ok (Fin q) /\ ~ Qeq q (text_value false [49] [] (-2))) /\
  (exists q, strtod [49; 101; 50; 0] (-1021) 1024 20 = Ok (Fin q) /\ ~ Qeq q (text_value false [49] [] 2)) /\
  strtod [49; 101; 0] (-1021) 1024 20 = UB.
Proof. exact strtod_exponent_refuted_s. Qed.
Print Assumptions strtod_exponent_refuted.
