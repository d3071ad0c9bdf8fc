(** The algorithms over lists of types compute what the algorithms over values are specified to. *)
From Coq Require Import List Arith Bool ZArith Lia.
From Verif Require Import Base OrderSpec SearchSpec NumSpec TypModel TypSpec TypProof TypProof2.
Import ListNotations.

(** ** C214 *)
Theorem typ_all_of : forall A (p : A -> bool) l d, deep l d -> ty_all_of l p d = Ok (forallb p l).
Proof. exact @ty_all_of_lemma. Qed.
Print Assumptions typ_all_of.
Theorem typ_any_of : forall A (p : A -> bool) l d, deep l d -> ty_any_of l p d = Ok (existsb p l).
Proof. exact @ty_any_of_lemma. Qed.
Print Assumptions typ_any_of.
Theorem typ_none_of : forall A (p : A -> bool) l d, deep l d -> ty_none_of l p d = Ok (negb (existsb p l)).
Proof. exact @ty_none_of_lemma. Qed.
Print Assumptions typ_none_of.
Theorem tpp_all_of_ok : forall l d, deep l d -> tpp_all_of l d = Ok (forallb (fun b => b) l).
Proof. exact @tpp_all_of_lemma. Qed.
Print Assumptions tpp_all_of_ok.
Theorem tpp_any_of_ok : forall l d, deep l d -> tpp_any_of l d = Ok (existsb (fun b => b) l).
Proof. exact @tpp_any_of_lemma. Qed.
Print Assumptions tpp_any_of_ok.
Theorem tpp_none_of_ok : forall l d, deep l d -> tpp_none_of l d = Ok (negb (existsb (fun b => b) l)).
Proof. exact @tpp_none_of_lemma. Qed.
Print Assumptions tpp_none_of_ok.
Example typ_all_of_case : deep [3; 1; 4; 1; 5] 4 /\ ty_any_of [3; 1; 4; 1; 5] (Nat.eqb 4) 4 = Ok true
  /\ tpp_all_of [true; true; false] 3 = Ok false.
Proof. split; [exists 3; cbn; lia|now split]. Qed.

(** ** C215 *)
Theorem typ_one_of_partial : forall A (p : A -> bool) l d, l <> [] -> deep l d -> howmany p l <= 2 ->
  ty_one_of l p d = Ok (howmany p l =? 1).
Proof. exact @ty_one_of_lemma. Qed.
Print Assumptions typ_one_of_partial.
Theorem tpp_one_of_partial : forall l d, deep l d -> howmany (fun b => b) l <= 2 ->
  tpp_one_of l d = Ok (howmany (fun b => b) l =? 1).
Proof. exact @tpp_one_of_lemma. Qed.
Print Assumptions tpp_one_of_partial.
Theorem typ_one_of_refuted : exists (l : list bool) d, deep l d
  /\ ty_one_of l (fun b => b) d = Ok true /\ tpp_one_of l d = Ok true /\ howmany (fun b => b) l = 3.
Proof. exact ty_one_of_refuted_lemma. Qed.
Print Assumptions typ_one_of_refuted.
Theorem typ_one_of_empty_refuted : forall A (p : A -> bool) d,
  ty_one_of [] p d = Ok true /\ tpp_one_of [] d = Ok false.
Proof. exact @ty_one_of_empty_lemma. Qed.
Print Assumptions typ_one_of_empty_refuted.
Example typ_one_of_case : howmany (Nat.eqb 1) [3; 1; 4; 1; 5] <= 2 /\ deep [3; 1; 4; 1; 5] 4
  /\ ty_one_of [3; 1; 4; 1; 5] (Nat.eqb 1) 4 = Ok false /\ ty_one_of [3; 1; 4; 1; 5] (Nat.eqb 4) 4 = Ok true.
Proof. split; [cbn; lia|]. split; [exists 3; cbn; lia|now split]. Qed.

(** ** C216 *)
Theorem typ_count_if : forall A (p : A -> bool) l d, deep l d -> ty_count_if l p d = Ok (howmany p l).
Proof. exact @ty_count_if_lemma. Qed.
Print Assumptions typ_count_if.
Theorem typ_find_index_if : forall A (l : list A) p d, deep l d ->
  exists k, ty_find_index_if l p d = Ok k /\ first_with p l k /\ ty_is_found l k = existsb p l.
Proof. exact @ty_find_index_if_lemma. Qed.
Print Assumptions typ_find_index_if.
Example typ_find_index_case : deep [3; 1; 4; 1; 5] 4 /\ ty_count_if [3; 1; 4; 1; 5] (Nat.eqb 1) 4 = Ok 2
  /\ ty_find_index_if [3; 1; 4; 1; 5] (Nat.eqb 1) 4 = Ok 1 /\ ty_find_index_if [3; 1; 4] (Nat.eqb 9) 4 = Ok 3.
Proof. split; [exists 3; cbn; lia|now repeat split]. Qed.

(** ** C217 *)
Theorem typ_fold : forall A (l : list A) B (op : B -> A -> B) d t, deep l d ->
  ty_fold l op d t = Ok (fold_left op l t).
Proof. exact @ty_fold_lemma. Qed.
Print Assumptions typ_fold.
Theorem typ_partial_sum : forall A (l : list A) op, ty_partial_sum l op = Ok (inclusive op l).
Proof. exact @ty_partial_sum_lemma. Qed.
Print Assumptions typ_partial_sum.
Theorem typ_transform2 : forall A B C (op : A -> B -> C) l1 l2, length l1 <= length l2 ->
  ty_transform2 l1 l2 op = Ok (map (fun xy => op (fst xy) (snd xy)) (combine l1 l2)).
Proof. exact @ty_transform2_lemma. Qed.
Print Assumptions typ_transform2.
Theorem typ_transform2_short : forall A B C (op : A -> B -> C) l1 l2, length l2 < length l1 ->
  ty_transform2 l1 l2 op = UB.
Proof. exact @ty_transform2_short. Qed.
Print Assumptions typ_transform2_short.
Example typ_fold_case : deep [5; 1; 2] 3 /\ ty_fold [5; 1; 2] Nat.sub 3 20 = Ok 12
  /\ ty_partial_sum [5; 1; 2] Nat.sub = Ok [5; 4; 2] /\ ty_transform2 [5; 1] [2; 1; 0] Nat.sub = Ok [3; 0]
  /\ ty_transform2 [5; 1; 2] [2] Nat.sub = UB.
Proof. split; [exists 2; cbn; lia|now repeat split]. Qed.

(** ** C218 *)
Theorem typ_lower_bound_index : forall A B (l : list A) (v : B) comp d j, deep l d ->
  splits (sat (fun x => comp x v) l) 0 (length l) j -> ty_lower_bound l comp v d = Ok j.
Proof. exact @ty_lower_bound_lemma. Qed.
Print Assumptions typ_lower_bound_index.
Theorem typ_upper_bound_index : forall A B (l : list A) (v : B) comp d j, deep l d ->
  splits (sat (fun x => negb (comp v x)) l) 0 (length l) j -> ty_upper_bound l comp v d = Ok j.
Proof. exact @ty_upper_bound_lemma. Qed.
Print Assumptions typ_upper_bound_index.
Example typ_bound_case : deep [1; 3; 3] 3 /\ splits (sat (fun x => x <? 3) [1; 3; 3]) 0 3 1
  /\ ty_lower_bound [1; 3; 3] Nat.ltb 3 3 = Ok 1 /\ ty_upper_bound [1; 3; 3] Nat.ltb 3 3 = Ok 3.
Proof.
  split; [exists 2; cbn; lia|]. split; [|now split]. split; [lia|]. split.
  - intros i Hi. assert (i = 0) by lia. subst. now exists 1.
  - intros i Hi (x&Hx&Hlt). destruct i as [|[|[|i]]]; try lia; injection Hx as <-; discriminate.
Qed.

(** ** C219 *)
Theorem tpp_max_element_ok : forall A (key : A -> Z) l d, l <> [] -> deep l d ->
  exists x, tpp_max_element l key d = Ok x /\ first_max key l x.
Proof. exact @tpp_max_lemma. Qed.
Print Assumptions tpp_max_element_ok.
Theorem tpp_min_element_ok : forall A (key : A -> Z) l d, l <> [] -> deep l d ->
  exists x, tpp_min_element l key d = Ok x /\ first_min key l x.
Proof. exact @tpp_min_lemma. Qed.
Print Assumptions tpp_min_element_ok.
Example tpp_max_case : deep [(3, 0); (5, 1); (5, 2); (3, 3)] 3
  /\ tpp_max_element [(3, 0); (5, 1); (5, 2); (3, 3)] (fun x => Z.of_nat (fst x)) 3 = Ok (5, 1)
  /\ tpp_min_element [(3, 0); (5, 1); (5, 2); (3, 3)] (fun x => Z.of_nat (fst x)) 3 = Ok (3, 0).
Proof. split; [exists 2; cbn; lia|now split]. Qed.
