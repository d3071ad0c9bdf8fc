(** Properties C129-C139: iterator adaptors, range adaptors, next / prev / advance /
    distance and the saturating arithmetic. *)
From Coq Require Import List Arith Bool ZArith.
From Verif Require Import Base SearchModel SearchSpec MutSpec OrderSpec ItModel ItSpec ItProof ItProof2 ItProof3.
Import ListNotations.
Open Scope Z_scope.

(** ** C129: reverse_iterator and reversed *)

(** What is missing for the full claim: the comparisons; see the refutation. *)
Theorem reverse_iterator_partial : forall (A : Type) (l : list A),
  (traverses (ok (rv_next l)) (ok (rv_deref l)) rv_eq (rv_begin l) rv_end (rev l) /\
   retreats (ok (rv_next l)) (ok (rv_prev l)) (rv_begin l) (rev l)) /\
  offsets (ok (rv_next l)) (fun s n t => rv_plus l s n = Ok t) (fun s n t => rv_minus l s n = Ok t)
    (fun s n x => rv_sub l s n = Ok x) (rv_begin l) (rev l) /\
  measures (ok (rv_next l)) (fun t s d => rv_diff t s = d) (rv_begin l) (rev l).
Proof. exact (fun A l => conj (@reverse_traverses_lemma A l) (@reverse_offsets_lemma A l)). Qed.
Print Assumptions reverse_iterator_partial.

Theorem reversed_partial : forall (A : Type) (l : list A) (k : nat), (length l < k)%nat -> reversed l k = Ok (rev l).
Proof. exact @reversed_lemma. Qed.
Print Assumptions reversed_partial.

Theorem reverse_less_refuted : forall (A : Type) (l : list A) (i j : nat) (s t : Z),
  (i <= length l)%nat -> (j <= length l)%nat ->
  after (ok (rv_next l)) (rv_begin l) i s -> after (ok (rv_next l)) (rv_begin l) j t ->
  rv_lt s t = (j <? i)%nat /\ rv_gt s t = (i <? j)%nat /\ rv_le s t = (j <=? i)%nat /\ rv_ge s t = (i <=? j)%nat.
Proof. exact @reverse_less_lemma. Qed.
Print Assumptions reverse_less_refuted.

Example reverse_example : reversed [1; 2; 3] 5 = Ok [3; 2; 1] /\
  rv_lt (rv_begin [1; 2; 3]) rv_end = false /\ rv_sub [1; 2; 3] 3 1 = Ok 2 /\ rv_diff rv_end (rv_begin [1; 2; 3]) = 3.
Proof. repeat split; vm_compute; reflexivity. Qed.

(** ** C130: filtered, removed_if *)

Theorem filter_iterator_correct : forall (A : Type) (c : bool) (d : nat) (l : list A) (last : nat) (p : A -> bool) (first : nat),
  valid l first last -> (depth_bound (last - first) <= d)%nat ->
  exists b, fl_new c d l last p first = Ok b /\ fl_new c d l last p last = Ok last /\
    traverses (ok (fl_next c d l last p)) (ok (rd l)) Nat.eqb b last (filter p (slice l first last)) /\
    ((last - first <= d)%nat -> retreats (ok (fl_next c d l last p)) (ok (fl_prev d l p)) b (filter p (slice l first last))).
Proof. exact @filter_traverses_lemma. Qed.
Print Assumptions filter_iterator_correct.

Theorem filtered_correct : forall (A : Type) (c : bool) (d : nat) (l : list A) (last : nat) (p : A -> bool) (first : nat),
  valid l first last -> (depth_bound (last - first) <= d)%nat ->
  forall k : nat, (last - first < k)%nat ->
  filtered c d l last p k first = Ok (filter p (slice l first last)) /\
  ((last - first <= d)%nat -> filtered_back c d l last p k first = Ok (rev (filter p (slice l first last)))).
Proof. exact @filtered_lemma. Qed.
Print Assumptions filtered_correct.

Theorem removed_if_correct : forall (A : Type) (c : bool) (d : nat) (l : list A) (last : nat) (p : A -> bool) (first : nat),
  valid l first last -> (depth_bound (last - first) <= d)%nat ->
  forall k : nat, (last - first < k)%nat ->
  removed_if c d l last p k first = Ok (filter (fun x => negb (p x)) (slice l first last)).
Proof. exact (fun A c d l last p first V D k K => proj1 (@filtered_lemma A c d l last (fun x => negb (p x)) first V D k K)). Qed.
Print Assumptions removed_if_correct.

Example filtered_example : valid [3; 0; 4; 0; 5] 1 5 /\
  filtered true 20 [3; 0; 4; 0; 5] 5 (Z.ltb 0) 9 1 = Ok [4; 5] /\
  filtered_back false 20 [3; 0; 4; 0; 5] 5 (Z.ltb 0) 9 1 = Ok [5; 4] /\
  removed_if false 20 [3; 0; 4; 0; 5] 5 (Z.ltb 0) 9 1 = Ok [0; 0].
Proof. split; [split; cbn; repeat constructor |]. repeat split; vm_compute; reflexivity. Qed.

(** ** C131: uniqued *)

(** What is missing for the full claim: ranges whose elements are all equal, single elements
    among them; see the refutation. *)
Theorem uniqued_partial : forall (A : Type) (c : bool) (d : nat) (l : list A) (first last : nat) (eq : A -> A -> bool) (k : nat),
  valid l first last -> (depth_bound last <= d)%nat -> (last - first < k)%nat ->
  (forall x y, eq x y = true -> x = y) ->
  (exists i, (first <= i)%nat /\ (S i < last)%nat /\ ~ rel eq l i l (S i)) ->
  uniqued c d l last eq k first = Ok (run_heads eq (slice l first last)).
Proof. exact @uniqued_heads_lemma. Qed.
Print Assumptions uniqued_partial.

Theorem uniqued_refuted : forall (A : Type) (c : bool) (d : nat) (l : list A) (first last : nat) (eq : A -> A -> bool) (k : nat),
  valid l first last -> (depth_bound last <= d)%nat -> (last - first < k)%nat ->
  (forall x y, eq x y = true -> x = y) ->
  (forall i, (first <= i)%nat -> (S i < last)%nat -> rel eq l i l (S i)) ->
  uniqued c d l last eq k first = Ok [].
Proof. exact @uniqued_constant_lemma. Qed.
Print Assumptions uniqued_refuted.

Example uniqued_example :
  uniqued true 20 [7; 7; 1; 1; 1; 2; 1] 7 Z.eqb 9 0 = Ok [7; 1; 2; 1] /\
  uniqued true 20 [7; 7; 7] 3 Z.eqb 9 0 = Ok [] /\ uniqued false 20 [7] 1 Z.eqb 9 0 = Ok [] /\
  run_heads Z.eqb [7; 7; 7] = [7] /\ (forall x y, Z.eqb x y = true -> x = y).
Proof. repeat split; try (vm_compute; reflexivity). apply Z.eqb_eq. Qed.

(** ** C132: step_iterator and steps *)

(** What is missing for the full claim: a loop that compares with end() instead of asking
    is_end(), moving backwards, it + 0 and end - begin; see the refutations. *)
Theorem steps_partial : forall (A : Type) (l : list A) (w p : nat), (1 <= w)%nat -> (p < length l)%nat ->
  forall k : nat, (length l < k)%nat ->
  exists out, steps_until_end l k (Z.of_nat w) (Z.of_nat p) = Ok out /\
    steps_next_until_end l k (Z.of_nat w) (Z.of_nat p) = Ok out /\ every_nth w (skipn p l) out.
Proof. exact @steps_elements_lemma. Qed.
Print Assumptions steps_partial.

Theorem steps_forward_partial : forall (A : Type) (l : list A) (w p : nat), (1 <= w)%nat -> (p < length l)%nat ->
  forall (out : list A) (b : step), every_nth w (skipn p l) out -> st_begin l (Z.of_nat w) (Z.of_nat p) = Ok b ->
  forall (i j : nat) (s t : step) (x : A), (i < j)%nat -> nth_error out j = Some x ->
  after (ok (st_inc l)) b i s -> after (ok (st_inc l)) b j t ->
  st_plus l s (Z.of_nat j - Z.of_nat i) = Ok t /\ st_deref l t = Ok x /\
  st_sub l s (Z.of_nat j - Z.of_nat i) = Ok x.
Proof. exact @steps_offsets_lemma. Qed.
Print Assumptions steps_forward_partial.

(** No number of turns is enough. *)
Theorem steps_loop_refuted : forall (A : Type) (l : list A) (w p : nat), (1 <= w)%nat -> (p < length l)%nat ->
  forall k : nat, steps l k (Z.of_nat w) (Z.of_nat p) = Fuel.
Proof. exact @steps_diverges. Qed.
Print Assumptions steps_loop_refuted.

Theorem steps_difference_refuted : forall (A : Type) (l : list A) (w p : nat), (1 <= w)%nat -> (p < length l)%nat ->
  forall (out : list A) (b e : step), every_nth w (skipn p l) out ->
  st_begin l (Z.of_nat w) (Z.of_nat p) = Ok b -> st_end l (Z.of_nat w) = Ok e ->
  st_diff e b = Z.of_nat (length out) + (if ((length l - p) mod w =? 0)%nat then 1 else 0).
Proof. exact @steps_difference_lemma. Qed.
Print Assumptions steps_difference_refuted.

Theorem steps_back_refuted : forall (A : Type) (l : list A) (w p : nat), (1 <= w)%nat -> (p < length l)%nat ->
  forall (out : list A) (b : step), every_nth w (skipn p l) out -> st_begin l (Z.of_nat w) (Z.of_nat p) = Ok b ->
  forall (i : nat) (s t : step), (S i < length out)%nat -> after (ok (st_inc l)) b i s -> st_inc l s = Ok t ->
  if (S i =? length out - 1)%nat
  then st_dec l t = Ok t /\ (exists u, st_prev l t = Ok u /\ st_cur u = st_cur t /\ st_is_last u = true)
  else st_dec l t = Ok s /\ st_prev l t = Ok s.
Proof. exact @steps_back_lemma. Qed.
Print Assumptions steps_back_refuted.

Theorem steps_zero_refuted : forall (A : Type) (l : list A) (w p : nat), (1 <= w)%nat -> (p < length l)%nat ->
  forall (out : list A) (b : step), every_nth w (skipn p l) out -> st_begin l (Z.of_nat w) (Z.of_nat p) = Ok b ->
  forall (i : nat) (s : step), (i < length out)%nat -> after (ok (st_inc l)) b i s ->
  exists t, st_plus l s 0 = Ok t /\ st_is_last t = true.
Proof. exact @steps_zero_lemma. Qed.
Print Assumptions steps_zero_refuted.

Example steps_example :
  steps_until_end [1; 2; 3; 4; 5; 6] 9 2 1 = Ok [2; 4; 6] /\ steps_until_end [1; 2; 3; 4; 5; 6] 9 4 0 = Ok [1; 5] /\
  steps [1; 2; 3; 4; 5; 6] 1000 2 1 = Fuel.
Proof. repeat split; vm_compute; reflexivity. Qed.

(** ** C133: joint_iterator and jointed *)

(** What is missing for the full claim: the difference of two iterators; see the refutation. *)
Theorem joint_iterator_partial : forall (A : Type) (l1 l2 : list A),
  (traverses (ok (jt_next l1 l2)) (ok (jt_deref l1 l2)) jt_eq jt_begin (jt_end l1 l2) (l1 ++ l2) /\
   retreats (ok (jt_next l1 l2)) (ok (jt_prev l1 l2)) jt_begin (l1 ++ l2)) /\
  offsets (ok (jt_next l1 l2)) (fun s n t => jt_plus l1 l2 s n = Ok t) (fun s n t => jt_minus l1 l2 s n = Ok t)
    (fun s n x => jt_sub l1 l2 s n = Ok x) jt_begin (l1 ++ l2) /\
  ordered (ok (jt_next l1 l2)) (jt_lt l1) (jt_gt l1) (jt_le l1) (jt_ge l1) jt_begin (l1 ++ l2).
Proof. exact (fun A l1 l2 => conj (@joint_traverses_lemma A l1 l2) (@joint_offsets_lemma A l1 l2)). Qed.
Print Assumptions joint_iterator_partial.

Theorem jointed_partial : forall (A : Type) (l1 l2 : list A) (k : nat), (length l1 + length l2 < k)%nat ->
  jointed l1 l2 k = Ok (l1 ++ l2) /\ jointed_back l1 l2 k = Ok (rev (l1 ++ l2)).
Proof. exact @jointed_lemma. Qed.
Print Assumptions jointed_partial.

(** [t - s] has the wrong sign if only [t] is in the first sequence. *)
Theorem joint_difference_refuted : forall (A : Type) (l1 l2 : list A) (i j : nat) (s t : Z * Z),
  Z.of_nat (length l1 + length l2) <= pmax ->
  (i <= length l1 + length l2)%nat -> (j <= length l1 + length l2)%nat ->
  after (ok (jt_next l1 l2)) jt_begin i s -> after (ok (jt_next l1 l2)) jt_begin j t ->
  jt_diff l1 t s = Ok (if (j <? length l1)%nat && negb (i <? length l1)%nat then Z.of_nat i - Z.of_nat j
                       else Z.of_nat j - Z.of_nat i).
Proof. exact @joint_difference_lemma. Qed.
Print Assumptions joint_difference_refuted.

Example jointed_example :
  jointed [1; 2] [3; 4; 5] 9 = Ok [1; 2; 3; 4; 5] /\ jointed_back [1; 2] [3; 4; 5] 9 = Ok [5; 4; 3; 2; 1] /\
  jt_diff [1; 2] (jt_end [1; 2] [3; 4; 5]) jt_begin = Ok 5 /\ jt_diff [1; 2] jt_begin (jt_end [1; 2] [3; 4; 5]) = Ok 5.
Proof. repeat split; vm_compute; reflexivity. Qed.

(** ** C134: alternate_iterator and alternated *)

(** What is missing for the full claim: moving back by several places and the difference of two
    iterators; see the refutations, which also say when the two are right. *)
Theorem alternate_iterator_partial : forall (A : Type) (l1 l2 : list A), exists e, al_end l1 l2 = Ok e /\
  traverses (ok (al_next l1 l2)) (ok (al_deref l1 l2)) al_eq al_begin e (interleave l1 l2) /\
  retreats (ok (al_next l1 l2)) (ok (al_prev l1 l2)) al_begin (interleave l1 l2) /\
  ordered (ok (al_next l1 l2)) al_lt al_gt al_le al_ge al_begin (interleave l1 l2).
Proof. exact @alternate_traverses_lemma. Qed.
Print Assumptions alternate_iterator_partial.

Theorem alternated_partial : forall (A : Type) (l1 l2 : list A) (k : nat),
  (2 * Nat.min (length l1) (length l2) < k)%nat ->
  alternated l1 l2 k = Ok (interleave l1 l2) /\ alternated_back l1 l2 k = Ok (rev (interleave l1 l2)).
Proof. exact @alternated_lemma. Qed.
Print Assumptions alternated_partial.

Theorem alternate_plus_refuted : forall (A : Type) (l1 l2 : list A) (i j : nat) (s : alt),
  (i <= 2 * Nat.min (length l1) (length l2))%nat -> (j <= 2 * Nat.min (length l1) (length l2))%nat ->
  after (ok (al_next l1 l2)) al_begin i s ->
  exists t, al_plus l1 l2 s (Z.of_nat j - Z.of_nat i) = Ok t /\
    al_minus l1 l2 s (Z.of_nat i - Z.of_nat j) = Ok t /\
    if (j <? i)%nat && Nat.odd j
    then (forall u, after (ok (al_next l1 l2)) al_begin j u -> al_eq t u = false)
    else after (ok (al_next l1 l2)) al_begin j t /\
         (forall x, nth_error (interleave l1 l2) j = Some x -> al_sub l1 l2 s (Z.of_nat j - Z.of_nat i) = Ok x).
Proof. exact @alternate_plus_lemma. Qed.
Print Assumptions alternate_plus_refuted.

Theorem alternate_difference_refuted : forall (A : Type) (l1 l2 : list A) (i j : nat) (s t : alt),
  Z.of_nat (2 * Nat.min (length l1) (length l2)) <= pmax ->
  (i <= 2 * Nat.min (length l1) (length l2))%nat -> (j <= 2 * Nat.min (length l1) (length l2))%nat ->
  after (ok (al_next l1 l2)) al_begin i s -> after (ok (al_next l1 l2)) al_begin j t ->
  al_diff t s =
    if (Nat.div2 j + 1 =? Nat.div2 i)%nat then UB
    else Ok (Z.of_nat j - Z.of_nat i + (if Nat.even j && Nat.odd i then 2 else 0)).
Proof. exact @alternate_difference_lemma. Qed.
Print Assumptions alternate_difference_refuted.

Example alternated_example :
  alternated [1; 2; 3] [7; 8] 9 = Ok [1; 7; 2; 8] /\ alternated_back [1; 2; 3] [7; 8] 9 = Ok [8; 2; 7; 1] /\
  al_sub [1; 2; 3] [7; 8] (1, 1, false) (-1) = Ok 2 /\ al_sub [1; 2; 3] [7; 8] (1, 1, true) (-1) = Ok 8.
Proof. repeat split; vm_compute; reflexivity. Qed.

(** ** C135: while_iterator *)

(** What is missing for the full claim: with ++ a range that fills its base sequence and whose
    elements all pass; going back from the end; see the refutations. *)
Theorem while_next_partial : forall (A : Type) (l : list A) (last : nat) (p : A -> bool), (last <= length l)%nat ->
  forall first k : nat, (first <= last)%nat -> (last - first < k)%nat ->
  while_next l last p k first = Ok (prefix_while p (slice l first last)).
Proof. exact @while_next_lemma. Qed.
Print Assumptions while_next_partial.

Theorem while_increment_partial : forall (A : Type) (l : list A) (last : nat) (p : A -> bool), (last <= length l)%nat ->
  forall first k : nat, (first <= last)%nat -> (last - first < k)%nat ->
  ((last < length l)%nat \/ exists i, (first <= i < last)%nat /\ ~ sat p l i) ->
  while_inc l last p k first = Ok (prefix_while p (slice l first last)).
Proof. exact @while_inc_lemma. Qed.
Print Assumptions while_increment_partial.

Theorem while_increment_refuted : forall (A : Type) (l : list A) (last : nat) (p : A -> bool), (last <= length l)%nat ->
  forall first k : nat, (first < last)%nat -> (last - first < k)%nat -> last = length l ->
  (forall i, (first <= i < last)%nat -> sat p l i) ->
  while_inc l last p k first = UB.
Proof. exact @while_inc_undefined_lemma. Qed.
Print Assumptions while_increment_refuted.

(** prev() goes to the nearest element before that passes: inside the range the one before, from
    the end possibly one that was never in the range. *)
Theorem while_previous_refuted : forall (A : Type) (l : list A) (last : nat) (p : A -> bool), (last <= length l)%nat ->
  forall d s r : nat, (s <= last)%nat -> (r < s)%nat -> sat p l r -> (forall j, (r < j < s)%nat -> ~ sat p l j) ->
  (s - r <= d)%nat -> wh_prev l p d s = Ok r.
Proof. exact @while_prev_lemma. Qed.
Print Assumptions while_previous_refuted.

Example while_example :
  while_next [1; 2; 0; 3] 4 (Z.ltb 0) 9 0 = Ok [1; 2] /\ while_inc [1; 2; 0; 3] 4 (Z.ltb 0) 9 0 = Ok [1; 2] /\
  while_next [1; 2] 2 (Z.ltb 0) 9 0 = Ok [1; 2] /\ while_inc [1; 2] 2 (Z.ltb 0) 9 0 = UB /\
  wh_prev [1; 2; 0; 3] (Z.ltb 0) 9 4 = Ok 3%nat.
Proof. repeat split; vm_compute; reflexivity. Qed.

(** ** C136: insert_range_iterator *)

(** What is missing for the full claim: the comparisons; see the refutation.  operator+ is not
    modelled: it does not compile. *)
Theorem insert_range_partial : forall (A : Type) (l1 l2 : list A) (pos : nat), (pos <= length l1)%nat ->
  traverses (ok (ir_next l1 l2 (Z.of_nat pos))) (ok (ir_deref l1 l2 (Z.of_nat pos))) ir_eq ir_begin (ir_end l1 l2)
    (firstn pos l1 ++ l2 ++ skipn pos l1) /\
  retreats (ok (ir_next l1 l2 (Z.of_nat pos))) (ok (ir_prev l1 l2 (Z.of_nat pos))) ir_begin
    (firstn pos l1 ++ l2 ++ skipn pos l1) /\
  (Z.of_nat (length l1 + length l2) <= pmax ->
   measures (ok (ir_next l1 l2 (Z.of_nat pos))) (fun t s d => ir_diff t s = Ok d) ir_begin
     (firstn pos l1 ++ l2 ++ skipn pos l1)).
Proof. exact @insert_traverses_lemma. Qed.
Print Assumptions insert_range_partial.

Theorem inserted_partial : forall (A : Type) (l1 l2 : list A) (pos : nat), (pos <= length l1)%nat ->
  forall k : nat, (length l1 + length l2 < k)%nat ->
  inserted l1 l2 (Z.of_nat pos) k = Ok (firstn pos l1 ++ l2 ++ skipn pos l1) /\
  inserted_back l1 l2 (Z.of_nat pos) k = Ok (rev (firstn pos l1 ++ l2 ++ skipn pos l1)).
Proof. exact @inserted_lemma. Qed.
Print Assumptions inserted_partial.

Theorem insert_range_less_refuted : forall (A : Type) (l1 l2 : list A) (pos : nat), (pos <= length l1)%nat ->
  forall (i j : nat) (s t : Z * Z), (i <= length l1 + length l2)%nat -> (j <= length l1 + length l2)%nat ->
  after (ok (ir_next l1 l2 (Z.of_nat pos))) ir_begin i s -> after (ok (ir_next l1 l2 (Z.of_nat pos))) ir_begin j t ->
  ir_lt l2 (Z.of_nat pos) s t =
    if (pos <=? i)%nat && (i <? pos + length l2)%nat && (pos + length l2 <=? j)%nat then false
    else if (pos <=? j)%nat && (j <? pos + length l2)%nat && (pos + length l2 <=? i)%nat then true
    else (i <? j)%nat.
Proof. exact @insert_less_lemma. Qed.
Print Assumptions insert_range_less_refuted.

Example inserted_example :
  inserted [1; 2; 3] [7; 8] 1 9 = Ok [1; 7; 8; 2; 3] /\ inserted_back [1; 2; 3] [7; 8] 1 9 = Ok [3; 2; 8; 7; 1] /\
  ir_lt [7; 8] 1 (1, 0) (2, 2) = false /\ ir_lt [7; 8] 1 (2, 2) (1, 0) = true.
Proof. repeat split; vm_compute; reflexivity. Qed.

(** ** C137: next, prev, advance, distance *)

Theorem moves_forward_correct : forall (S : Type) (nx pv : S -> res S) (d k n : nat) (s t : S),
  (Nat.log2_up n < d)%nat -> (n < k)%nat -> after (ok nx) s n t ->
  next_n nx pv d s (Z.of_nat n) = Ok t /\ prev_n nx pv d s (- Z.of_nat n) = Ok t /\
  advance nx pv k s (Z.of_nat n) = Ok t.
Proof. exact @moves_forward_lemma. Qed.
Print Assumptions moves_forward_correct.

Theorem moves_backward_correct : forall (S : Type) (nx pv : S -> res S) (d k n : nat) (s t : S),
  (Nat.log2_up n < d)%nat -> (n < k)%nat -> after (ok pv) s n t ->
  next_n nx pv d s (- Z.of_nat n) = Ok t /\ prev_n nx pv d s (Z.of_nat n) = Ok t /\
  advance nx pv k s (- Z.of_nat n) = Ok t.
Proof. exact @moves_backward_lemma. Qed.
Print Assumptions moves_backward_correct.

Theorem distance_correct : forall (S : Type) (nx : S -> res S) (eqb : S -> S -> bool) (n d k : nat) (first last : S),
  after (ok nx) first n last ->
  (forall i s, (i < n)%nat -> after (ok nx) first i s -> eqb s last = false) -> eqb last last = true ->
  (depth_bound n <= d)%nat -> (n < k)%nat ->
  distance nx eqb d first last = Ok (Z.of_nat n) /\ cxx14_distance nx eqb k first last 0 = Ok (Z.of_nat n).
Proof. exact @distance_lemma. Qed.
Print Assumptions distance_correct.

Example moves_example :
  next_n (nxt [1; 2; 3; 4; 5; 6; 7]) prv 9 1%nat 5 = Ok 6%nat /\ next_n (nxt [1; 2; 3]) prv 9 3%nat (-3) = Ok 0%nat /\
  prev_n (nxt [1; 2; 3; 4; 5; 6; 7]) prv 9 7%nat 5 = Ok 2%nat /\ prev_n (nxt [1; 2; 3]) prv 9 0%nat (-3) = Ok 3%nat /\
  next_n (nxt [1; 2; 3]) prv 9 1%nat 3 = UB /\
  distance (nxt [1; 2; 3; 4; 5; 6; 7]) Nat.eqb 9 1%nat 7%nat = Ok 6 /\
  after (ok (nxt [1; 2; 3])) 1%nat 2 3%nat.
Proof. repeat split; try (vm_compute; reflexivity). apply after_S with 2%nat; [apply after_S with 1%nat; [constructor |] |]; reflexivity. Qed.

(** ** C138: limited::plus, limited::multiplies *)

Theorem limited_plus_correct : forall lo hi a b : Z, lo <= 0 <= hi -> lo <= a <= hi -> lo <= b <= hi ->
  lplus lo hi a b = Ok (saturated lo hi (a + b)).
Proof. exact lplus_lemma. Qed.
Print Assumptions limited_plus_correct.

(** What is missing for the full claim: the factor -1, where the function divides the least
    number by -1; see the refutation. *)
Theorem limited_multiplies_partial : forall lo hi a b : Z, (lo = - hi - 1 \/ lo = 0) -> 1 <= hi ->
  lo <= a <= hi -> lo <= b <= hi ->
  ~ ((b = -1 /\ a <> 0) \/ (a = -1 /\ 0 < b)) -> lmultiplies lo hi a b = Ok (saturated lo hi (a * b)).
Proof. exact lmultiplies_lemma. Qed.
Print Assumptions limited_multiplies_partial.

Theorem limited_multiplies_refuted : forall lo hi a b : Z, lo = - hi - 1 -> 0 <= hi ->
  (b = -1 /\ a <> 0) \/ (a = -1 /\ 0 < b) -> lmultiplies lo hi a b = UB.
Proof. exact lmultiplies_bad. Qed.
Print Assumptions limited_multiplies_refuted.

Example limited_example :
  lplus (-128) 127 100 100 = Ok 127 /\ lplus (-128) 127 (-100) (-100) = Ok (-128) /\
  lmultiplies (-128) 127 50 (-3) = Ok (-128) /\ lmultiplies (-128) 127 (-50) (-3) = Ok 127 /\
  lmultiplies 0 255 15 17 = Ok 255 /\ lmultiplies (-128) 127 2 (-1) = UB.
Proof. repeat split; vm_compute; reflexivity. Qed.

(** ** C139: taken, dropped, taken_end, dropped_end, window, offset *)

Theorem taken_correct : forall (A : Type) (l : list A) (k : nat), (length l < k)%nat ->
  forall n : Z, 0 <= n -> elements l k (taken l n) = Ok (firstn (Z.to_nat n) l).
Proof. exact @taken_lemma. Qed.
Print Assumptions taken_correct.

Theorem dropped_correct : forall (A : Type) (l : list A) (k : nat), (length l < k)%nat ->
  forall n : Z, 0 <= n -> elements l k (dropped l n) = Ok (skipn (Z.to_nat n) l).
Proof. exact @dropped_lemma. Qed.
Print Assumptions dropped_correct.

Theorem taken_end_correct : forall (A : Type) (l : list A) (k : nat), (length l < k)%nat ->
  forall n : Z, n <= 0 -> elements l k (taken_end l n) = Ok (skipn (length l - Z.to_nat (- n)) l).
Proof. exact @taken_end_lemma. Qed.
Print Assumptions taken_end_correct.

Theorem dropped_end_correct : forall (A : Type) (l : list A) (k : nat), (length l < k)%nat ->
  forall n : Z, n <= 0 -> elements l k (dropped_end l n) = Ok (firstn (length l - Z.to_nat (- n)) l).
Proof. exact @dropped_end_lemma. Qed.
Print Assumptions dropped_end_correct.

Theorem window_correct : forall (A : Type) (l : list A) (k : nat), (length l < k)%nat ->
  forall a b : Z, 0 <= a <= b ->
  elements l k (window l a b) = Ok (firstn (Z.to_nat b - Z.to_nat a) (skipn (Z.to_nat a) l)).
Proof. exact @window_lemma. Qed.
Print Assumptions window_correct.

Theorem offset_correct : forall (A : Type) (l : list A) (k : nat), (length l < k)%nat ->
  forall a b : Z, 0 <= a -> b <= 0 ->
  elements l k (offset l a b) = Ok (firstn (length l - Z.to_nat (- b) - Z.to_nat a) (skipn (Z.to_nat a) l)).
Proof. exact @offset_lemma. Qed.
Print Assumptions offset_correct.

Theorem slices_undefined : forall (A : Type) (l : list A) (k : nat), (length l < k)%nat ->
  forall n : Z, 0 < n ->
  elements l k (taken_end l n) = UB /\ elements l k (dropped_end l n) = UB /\
  elements l k (taken l (- n)) = UB /\ elements l k (dropped l (- n)) = UB.
Proof. exact @slices_undefined_lemma. Qed.
Print Assumptions slices_undefined.

Example slices_example :
  elements [1; 2; 3; 4] 9 (taken [1; 2; 3; 4] 9) = Ok [1; 2; 3; 4] /\ elements [1; 2; 3; 4] 9 (dropped [1; 2; 3; 4] 3) = Ok [4] /\
  elements [1; 2; 3; 4] 9 (taken_end [1; 2; 3; 4] (-3)) = Ok [2; 3; 4] /\ elements [1; 2; 3; 4] 9 (dropped_end [1; 2; 3; 4] (-3)) = Ok [1] /\
  elements [1; 2; 3; 4] 9 (window [1; 2; 3; 4] 1 3) = Ok [2; 3] /\ elements [1; 2; 3; 4] 9 (offset [1; 2; 3; 4] 1 (-1)) = Ok [2; 3] /\
  elements [1; 2; 3; 4] 9 (offset [1; 2; 3; 4] 3 (-2)) = Ok [].
Proof. repeat split; vm_compute; reflexivity. Qed.
