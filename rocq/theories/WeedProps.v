(** Properties of sprout/weed (C162-C167). *)
From Coq Require Import List Arith ZArith Bool Lia.
From Verif Require Import Base BitModel BitSpec WordModel WeedModel WeedSpec WeedProof3.
Import ListNotations.
Open Scope nat_scope.

(** ** C162.  A parser matches what its parsing expression matches, up to the same position. *)

Theorem weed_matches : forall s d k e i, wf word_digits e -> Nat.log2_up (set_size e) < d -> length s < k -> i <= length s ->
  match eval s d k word_digits e i with
  | Ok r => cx r = cur r /\ i <= cur r <= length s /\
      exists o, peg s e i o /\ (forall o', peg s e i o' -> o' = o) /\
        match o with Some (j, _) => ok r = true /\ cur r = j | None => ok r = false /\ cur r = i end
  | UB => wide_int e = true
  | Fuel => False
  end.
Proof. exact @weed_matches_lemma. Qed.
Print Assumptions weed_matches.
Theorem weed_progress : forall s d k e i r, wf word_digits e -> Nat.log2_up (set_size e) < d -> length s < k -> i <= length s ->
  nullable e = false -> eval s d k word_digits e i = Ok r -> ok r = true -> i < cur r.
Proof. exact @weed_progress_lemma. Qed.
Print Assumptions weed_progress.
(** "k=-12;" against +char_("a-z") << '=' << int_ << (';' | eoi) *)
Example weed_matches_ex :
  let e := ESeq (ESeq (ESeq (EPlus (ELim 8 Discard (EPrim (PSet [97; 45; 122]%Z)))) (XChar 61))
                      (EPrim (PInt (Ity true 2) 10 1 10))) (EAlt (XChar 59) (EPrim PEoi)) in
  let s := [107; 61; 45; 49; 50; 59]%Z in
  wf word_digits e /\ Nat.log2_up (set_size e) < 3 /\ ty_of e = TTup [BStr; BInt (Ity true 2)] /\ no_str e = true /\
  eval s 3 7 word_digits e 0 = Ok (ER true 6 (ATup [VStr [107%Z]; VInt (Ity true 2) (-12)]) 6).
Proof.
  cbv zeta. split.
  { cbn [wf]. unfold prim_ok, num_ok, lim_ok. repeat split; try (cbn; lia); try (vm_compute; discriminate); try (cbn; tauto); try reflexivity. }
  split; [cbn; lia|]. repeat split; reflexivity.
Qed.
(** an operand that matches nothing is repeated for ever *)
Theorem weed_star_eps_refuted : forall s d k i, eval s d k word_digits (EStar (EPrim PEps)) i = Fuel.
Proof. exact @star_eps_lemma. Qed.
Print Assumptions weed_star_eps_refuted.

(** ** C163.  The attribute holds what was matched, in order, and has the declared type. *)

Theorem weed_attributes : forall s d k e i r, wf word_digits e -> Nat.log2_up (set_size e) < d -> length s < k -> i <= length s ->
  ty_of e <> TOther -> no_str e = true -> eval s d k word_digits e i = Ok r -> ok r = true ->
  typed (at_ r) (ty_of e) /\ peg s e i (Some (cur r, items (at_ r))).
Proof. exact @weed_attributes_lemma. Qed.
Print Assumptions weed_attributes.
Example weed_attributes_ex :
  let e := EStar (ELim 2 Circular (EPrim (PChar 97))) in
  wf word_digits e /\ ty_of e = TBase BStr /\ no_str e = true /\
  eval [97; 97; 97; 98]%Z 1 5 word_digits e 0 = Ok (ER true 3 (ABase (VStr [97; 97]%Z)) 3).
Proof. cbn. repeat split; lia. Qed.
Theorem string_attribute_refuted :
  ~ forall t, eval t 1 0 word_digits (EPrim (PStr t)) 0 = Ok (ER true (length t) (ABase (VStr t)) (length t)).
Proof. exact @string_attr_lemma. Qed.
Print Assumptions string_attribute_refuted.

(** ** C164.  Number parsers read the number that is written. *)

Theorem uint_correct : forall pre t radix mind maxd cs post z d k, num_ok word_digits t radix mind maxd ->
  spells radix maxd cs post z -> is_val t z ->
  eval (pre ++ cs ++ post) d k word_digits (EPrim (PUint t radix mind maxd)) (length pre) =
    Ok (ER true (length pre + length cs) (ABase (VInt t z)) (length pre + length cs)).
Proof. exact @uint_lemma. Qed.
Print Assumptions uint_correct.
Theorem int_correct : forall pre sign t radix mind maxd cs post z v d k, num_ok word_digits t radix mind maxd ->
  spells radix maxd cs post z -> is_val t v ->
  (sign = [] /\ v = z \/ sign = [43%Z] /\ v = z \/ sign = [45%Z] /\ v = (- z)%Z /\ (sgn t = true -> 2 <= lg t -> v <> tmin t)) ->
  eval (pre ++ sign ++ cs ++ post) d k word_digits (EPrim (PInt t radix mind maxd)) (length pre) =
    Ok (ER true (length pre + length sign + length cs) (ABase (VInt t v)) (length pre + length sign + length cs)).
Proof. exact @int_lemma. Qed.
Print Assumptions int_correct.
(** 4294967295 followed by a letter, in an unsigned int *)
Example uint_ex : num_ok word_digits (Ity false 2) 10 1 10 /\
  spells 10 10 [52; 50; 57; 52; 57; 54; 55; 50; 57; 53]%Z [120%Z] 4294967295 /\ is_val (Ity false 2) 4294967295.
Proof.
  split; [unfold num_ok; repeat split; try (cbn; tauto); vm_compute; discriminate|]. split; [|unfold is_val; cbn; lia].
  split; [discriminate|]. split; [cbn; lia|]. split; [now left|]. exists [4; 2; 9; 4; 9; 6; 7; 2; 9; 5]%Z. split; [repeat constructor|reflexivity].
Qed.
Theorem int_minimum_refuted : ~ forall t cs, spells 10 (word_digits t 10) cs [] (- tmin t) ->
  eval (45%Z :: cs) 1 0 word_digits (EPrim (PInt t 10 1 (word_digits t 10))) 0 <> UB.
Proof. exact @int_min_lemma. Qed.
Print Assumptions int_minimum_refuted.
Theorem hex_refuted : ~ forall t cs z, spells 16 (word_digits t 16) cs [] z -> is_val t z ->
  exists r, eval cs 1 0 word_digits (EPrim (PUint t 16 (2 ^ 64 - 1) (word_digits t 16))) 0 = Ok r /\ ok r = true.
Proof. exact @hex_lemma. Qed.
Print Assumptions hex_refuted.
Theorem min_digits_refuted : ~ forall t mind s r,
  eval s 1 0 word_digits (EPrim (PUint t 10 mind (word_digits t 10))) 0 = Ok r -> ok r = true ->
  (mind <= Z.of_nat (length (run 10 (word_digits t 10) s)))%Z.
Proof. exact @min_digits_lemma. Qed.
Print Assumptions min_digits_refuted.

(** ** C165.  Algebraic laws of parsers. *)

Theorem weed_laws : forall s d k i a b c, fine s d a -> fine s d b -> fine s d c -> length s < k -> i <= length s ->
  let same x y := seen (eval s d k word_digits x i) = seen (eval s d k word_digits y i) in
  same (ESeq (ESeq a b) c) (ESeq a (ESeq b c)) /\
  same (EAlt (EAlt a b) c) (EAlt a (EAlt b c)) /\
  same (EAlt a a) a /\
  same (EAlt (ESeq a b) (ESeq a c)) (ESeq a (EAlt b c)) /\
  same (ENot (ENot a)) (EAnd a) /\
  same (ENot (EAlt a b)) (ESeq (ENot a) (ENot b)) /\
  same (EMinus a b) (ESeq (ENot b) a) /\
  same (ESeq (EPrim PEps) a) a /\
  same (ENeg a) (EAlt a (EPrim PEps)) /\
  (nullable a = false -> lim_ok a -> same (EStar a) (EAlt (EPlus a) (EPrim PEps))).
Proof. exact @laws_lemma. Qed.
Print Assumptions weed_laws.
Example weed_laws_ex : fine [97; 98]%Z 2 (ESeq (EPrim (PChar 97)) (EPrim (PSet [97; 98]%Z))) /\
  seen (eval [97; 98]%Z 2 3 word_digits (ESeq (EPrim (PChar 97)) (EPrim (PSet [97; 98]%Z))) 0) = Some (true, 2).
Proof. cbn. repeat split; cbn; try lia; discriminate. Qed.

(** ** C166.  Character sets. *)

Theorem char_set_correct : forall s d k set i c, hd 0%Z set <> 45%Z -> last set 0%Z <> 45%Z -> Nat.log2_up (length set) < d ->
  nth_error s i = Some c -> exists r, eval s d k word_digits (EPrim (PSet set)) i = Ok r /\
    (ok r = true <-> in_set set c) /\ cur r = (if ok r then S i else i) /\ (ok r = true -> at_ r = ABase (VChar c)).
Proof. exact @char_set_lemma. Qed.
Print Assumptions char_set_correct.
(** "a-z_" *)
Example char_set_ex : in_set [97; 45; 122; 95]%Z 113 /\ in_set [97; 45; 122; 95]%Z 95 /\
  seen (eval [113]%Z 3 0 word_digits (EPrim (PSet [97; 45; 122; 95]%Z)) 0) = Some (true, 1) /\
  seen (eval [65]%Z 3 0 word_digits (EPrim (PSet [97; 45; 122; 95]%Z)) 0) = Some (false, 0).
Proof.
  split; [right; exists [], 97%Z, 122%Z, [95%Z]; split; [easy|lia]|]. split; [left; cbn; split; [auto|lia]|]. split; reflexivity.
Qed.
Theorem set_first_minus_refuted : ~ forall set d c, Nat.log2_up (length set) < d -> eval [c] d 0 word_digits (EPrim (PSet set)) 0 <> UB.
Proof. exact @set_minus_lemma. Qed.
Print Assumptions set_first_minus_refuted.
Theorem set_last_minus_refuted : ~ forall set d, Nat.log2_up (length set) < d -> hd 0%Z set <> 45%Z -> In 45%Z set ->
  exists r, eval [45%Z] d 0 word_digits (EPrim (PSet set)) 0 = Ok r /\ ok r = true.
Proof. exact @set_minus_last_lemma. Qed.
Print Assumptions set_last_minus_refuted.

(** ** C167.  Lists and counted repetition. *)

Theorem weed_list_partial : forall s d k e f i r, fine s d e -> fine s d f -> nullable e && nullable f = false -> lim_ok e ->
  length s < k -> i <= length s -> eval s d k word_digits (EMod e f) i = Ok r ->
  (ok r = false /\ peg s e i None) \/
  (ok r = true /\ exists j y ys l, peg s e i (Some (j, y)) /\
     seps false (peg s e) (peg s f) (option_map pred (most e)) j ys l /\
     (cur r = l \/ exists x, peg s f l (Some (cur r, x)) /\ peg s e (cur r) None)).
Proof. exact @mod_list_lemma. Qed.
Print Assumptions weed_list_partial.
Example weed_list_ex : fine [49; 44; 49]%Z 1 (EPrim (PChar 49)) /\ fine [49; 44; 49]%Z 1 (XChar 44) /\
  seen (eval [49; 44; 49]%Z 1 4 word_digits (EMod (EPrim (PChar 49)) (XChar 44)) 0) = Some (true, 3).
Proof. repeat split; cbn; lia. Qed.
Theorem list_trailing_refuted :
  ~ forall s d k e f i r j y ys l, fine s d e -> fine s d f -> nullable e || nullable f = false -> limit_of e = None ->
    length s < k -> i <= length s -> eval s d k word_digits (EMod e f) i = Ok r -> peg s e i (Some (j, y)) ->
    seps false (peg s e) (peg s f) None j ys l -> cur r = l.
Proof. exact @mod_trailing_lemma. Qed.
Print Assumptions list_trailing_refuted.
Theorem repeat_count_refuted :
  ~ forall s d k e c i r o, fine s d e -> nullable e = false -> limit_of e = None -> length s < k -> i <= length s ->
    eval s d k word_digits (ERepeat (Some c) e) i = Ok r -> ok r = true -> peg s (ERepeat (Some c) e) i o ->
    exists y, o = Some (cur r, y).
Proof. exact @repeat_count_lemma. Qed.
Print Assumptions repeat_count_refuted.
Theorem repeat_any_refuted :
  ~ forall s d k e i r o, fine s d e -> nullable e = false -> limit_of e = None -> length s < k -> i <= length s ->
    eval s d k word_digits (ERepeat None e) i = Ok r -> peg s (ERepeat None e) i o -> exists y, o = Some (cur r, y).
Proof. exact @repeat_any_lemma. Qed.
Print Assumptions repeat_any_refuted.
Theorem stopover_one_refuted :
  ~ forall s d k e n i r o, fine s d e -> nullable e = false -> 1 <= n -> length s < k -> i <= length s ->
    eval s d k word_digits (EStar (ELim n Stopover e)) i = Ok r -> peg s (EStar (ELim n Stopover e)) i o ->
    exists y, o = Some (cur r, y).
Proof. exact @stopover_one_lemma. Qed.
Print Assumptions stopover_one_refuted.
