(** remake_iterator shows a range with a window of it replaced; what its operations get right and wrong. *)
From Coq Require Import List Arith ZArith Lia.
From Verif Require Import Base MutSpec RmkModel RmkSpec RmkProof.
Import ListNotations.

(** ** C220 *)
Theorem rmk_remake : forall A (dst src : list A) b e, b <= e <= length dst -> forall fuel, length dst < fuel ->
  remake_container dst src fuel b e = Ok (remade dst src b e).
Proof. exact @remake_container_lemma. Qed.
Print Assumptions rmk_remake.
Theorem rmk_stepped : forall A (dst src : list A) b e, b <= e <= length dst -> forall i, i <= length dst ->
  exists it, stepped dst src b e i = Ok it /\ rcur it = Z.of_nat i
    /\ (i < length dst -> rmk_deref dst src it = rd (remade dst src b e) i).
Proof. exact @stepped_lemma. Qed.
Print Assumptions rmk_stepped.
Example rmk_remake_case : remake_container [0; 1; 2; 3; 4] [9; 8; 7] 6 1 3 = Ok [0; 9; 8; 3; 4]
  /\ remake_container [0; 1; 2; 3; 4] [9] 6 1 3 = Ok [0; 9; 2; 3; 4].
Proof. split; reflexivity. Qed.

(** ** C221 *)
Theorem rmk_order : forall A (dst src : list A) b e, b <= e <= length dst -> forall i j it it',
  i <= length dst -> j <= length dst -> stepped dst src b e i = Ok it -> stepped dst src b e j = Ok it' ->
  rmk_eq it it' = (i =? j) /\ rmk_lt it it' = (i <? j) /\ rmk_diff it it' = (Z.of_nat i - Z.of_nat j)%Z
  /\ rmk_eq it (rmk_end dst src b e) = (i =? length dst)
  /\ rmk_diff (rmk_end dst src b e) it = (Z.of_nat (length dst) - Z.of_nat i)%Z.
Proof. exact @order_lemma. Qed.
Print Assumptions rmk_order.
Theorem rmk_plus_partial : forall A (dst src : list A) b e, b <= e <= length dst -> forall i j it,
  i <= length dst -> j <= length dst -> (length src <= e - b \/ (i <= e /\ (b <= i \/ j <= e))) ->
  stepped dst src b e i = Ok it ->
  rmk_plus dst src it (Z.of_nat j - Z.of_nat i) = stepped dst src b e j
  /\ rmk_minus dst src it (Z.of_nat i - Z.of_nat j) = stepped dst src b e j.
Proof. exact @plus_lemma. Qed.
Print Assumptions rmk_plus_partial.
Theorem rmk_index_partial : forall A (dst src : list A) b e, b <= e <= length dst -> forall i j it,
  i <= length dst -> j < length dst -> (length src <= e - b \/ i <= e) -> stepped dst src b e i = Ok it ->
  rmk_index dst src it (Z.of_nat j - Z.of_nat i) = rd (remade dst src b e) j.
Proof. exact @index_lemma. Qed.
Print Assumptions rmk_index_partial.
Theorem rmk_prev_partial : forall A (dst src : list A) b e, b <= e <= length dst -> forall i it,
  i < length dst -> e - b <= length src -> stepped dst src b e (S i) = Ok it ->
  rmk_prev dst src it = stepped dst src b e i.
Proof. exact @prev_lemma. Qed.
Print Assumptions rmk_prev_partial.
Theorem rmk_prev_refuted : exists (dst src : list nat) b e i it, b <= e <= length dst
  /\ stepped dst src b e (S i) = Ok it /\ rmk_prev dst src it <> stepped dst src b e i
  /\ exists it', rmk_prev dst src it = Ok it' /\ rmk_deref dst src it' = Ok 7
  /\ rd (remade dst src b e) i = Ok 2.
Proof. exact prev_refuted_lemma. Qed.
Print Assumptions rmk_prev_refuted.
Theorem rmk_plus_refuted :
  (exists (dst src : list nat) b e i j it, b <= e <= length dst /\ i < length dst /\ j < length dst
    /\ stepped dst src b e i = Ok it /\ rmk_index dst src it (Z.of_nat j - Z.of_nat i) = Ok 8
    /\ rd (remade dst src b e) j = Ok 7)
  /\ (exists (dst src : list nat) b e i it, b <= e <= length dst /\ S i < length dst
    /\ stepped dst src b e i = Ok it /\ rmk_plus dst src it 1 = UB).
Proof. exact plus_refuted_lemma. Qed.
Print Assumptions rmk_plus_refuted.
Theorem rmk_plus_over_refuted : exists (dst src : list nat) b e it it1 it2 it3, b <= e <= length dst
  /\ stepped dst src b e 0 = Ok it /\ rmk_plus dst src it (Z.of_nat (e + 1)) = Ok it1
  /\ rmk_prev dst src it1 = Ok it2 /\ rmk_prev dst src it2 = Ok it3 /\ e + 1 <= length dst
  /\ rmk_deref dst src it3 = Ok 7 /\ rd (remade dst src b e) (e - 1) = Ok 8.
Proof. exact plus_over_refuted_lemma. Qed.
Print Assumptions rmk_plus_over_refuted.
Example rmk_plus_case : exists it, stepped [0; 1; 2; 3; 4] [9; 8; 7] 1 3 0 = Ok it
  /\ rmk_index [0; 1; 2; 3; 4] [9; 8; 7] it 2 = Ok 8 /\ rmk_index [0; 1; 2; 3; 4] [9; 8; 7] it 4 = Ok 4.
Proof. eexists. split; [reflexivity|]. split; reflexivity. Qed.

(** ** C222 *)
Theorem rmk_backward_refuted : forall A (dst src : list A) b e, b <= e <= length dst ->
  forall fuel, length dst < fuel ->
  rmk_read_back dst src fuel (rmk_end dst src b e) (rmk_begin b e) [] = Ok dst.
Proof. exact @backward_lemma. Qed.
Print Assumptions rmk_backward_refuted.
Example rmk_backward_case :
  rmk_read_back [0; 1; 2] [9; 8] 5 (rmk_end [0; 1; 2] [9; 8] 0 2) (rmk_begin 0 2) [] = Ok [0; 1; 2]
  /\ remade [0; 1; 2] [9; 8] 0 2 = [9; 8; 2].
Proof. split; reflexivity. Qed.
