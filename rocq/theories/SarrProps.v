(** Properties C197-C202. *)
From Coq Require Import List Bool Arith ZArith.
From Verif Require Import Base SearchSpec FixModel BstrModel ValModel SarrModel SarrSpec SarrProof SarrProof2.
Import ListNotations.
Open Scope Z_scope.

(** * C197: a sub_array shows the elements between its two positions *)

Theorem sub_array_access : forall A (s : sub A) a xs b, shows s a xs b ->
  s_size s = len xs /\ (s_empty s = true <-> xs = []) /\
  s_begin s = Ok (len a) /\ s_end s = Ok (len a + len xs) /\
  s_from_begin s = len a /\ s_from_end s = - len b /\
  (forall p x q, xs = p ++ x :: q ->
     s_index s (len p) = Ok x /\ s_at s (len p) = Ok (Returns x) /\
     s_nth s (len p) = Ok (Returns (len a + len p)) /\ s_index_of s (len a + len p) = Ok (len p)) /\
  (forall i, len xs <= i -> s_at s i = Ok (Throws Out_of_range_error) /\ s_nth s i = Ok (Throws Out_of_range_error)) /\
  (forall x q, xs = x :: q -> s_front s = Ok x) /\ (forall p x, xs = p ++ [x] -> s_back s = Ok x).
Proof. exact @access_lemma. Qed.
Print Assumptions sub_array_access.

Example sub_array_access_example : shows (Sub [1; 2; 3; 4; 5] 1 4) [1] [2; 3; 4] [5] /\
  s_at (Sub [1; 2; 3; 4; 5] 1 4) 2 = Ok (Returns 4) /\
  s_at (Sub [1; 2; 3; 4; 5] 1 4) 3 = Ok (Throws Out_of_range_error).
Proof. repeat split. Qed.

Theorem sub_array_of_sub_array : forall A (s : sub A) a p m q b, shows s a (p ++ m ++ q) b ->
  shows (window_s s (len p) (len p + len m)) (a ++ p) m (q ++ b) /\
  shows (window_1_s s (len p)) (a ++ p) (m ++ q) b /\
  shows (cwindow_s s (len p) (len p + len m)) (a ++ p) m (q ++ b) /\
  shows (cwindow_1_s s (len p)) (a ++ p) (m ++ q) b /\
  shows (offset_s s (len p) (- len q)) (a ++ p) m (q ++ b) /\
  shows (coffset_s s (len p) (- len q)) (a ++ p) m (q ++ b) /\
  shows (s_offset s (len p) (- len q)) (a ++ p) m (q ++ b) /\
  shows (s_offset_mut s (len p) (- len q)) (a ++ p) m (q ++ b) /\
  shows (sub_it_s s (len a + len p) (len a + len p + len m)) (a ++ p) m (q ++ b) /\
  shows (csub_it_s s (len a + len p) (len a + len p + len m)) (a ++ p) m (q ++ b) /\
  (exists t, sub_it_1_s s (len a + len p) = Ok t /\ shows t (a ++ p) (m ++ q) b) /\
  (exists t, csub_it_1_s s (len a + len p) = Ok t /\ shows t (a ++ p) (m ++ q) b).
Proof. exact @windows_lemma. Qed.
Print Assumptions sub_array_of_sub_array.

Theorem sub_array_of_array : forall A (p m q : list A),
  shows (s_ctor (p ++ m ++ q) (len p) (len p + len m)) p m q /\
  shows (s_ctor_it (p ++ m ++ q) (len p) (len p + len m)) p m q /\
  shows (window_a (p ++ m ++ q) (len p) (len p + len m)) p m q /\
  shows (window_1_a (p ++ m) (len p)) p m [] /\
  shows (offset_a (p ++ m ++ q) (len p) (- len q)) p m q /\
  shows (sub_it_a (p ++ m ++ q) (len p) (len p + len m)) p m q /\
  shows (sub_it_1_a (p ++ m) (len p)) p m [].
Proof. exact @array_windows_lemma. Qed.
Print Assumptions sub_array_of_array.

Theorem sub_array_member_window : forall A (s : sub A) a xs b p m q, shows s a xs b -> a ++ xs ++ b = p ++ m ++ q ->
  shows (s_window s (len p) (len p + len m)) p m q /\ shows (s_window_mut s (len p) (len p + len m)) p m q.
Proof. exact @member_window_lemma. Qed.
Print Assumptions sub_array_member_window.

Example sub_array_windows_example : shows (window_s (Sub [1; 2; 3; 4; 5] 1 4) 1 2) [1; 2] [3] [4; 5] /\
  shows (s_window (Sub [1; 2; 3; 4; 5] 1 4) 1 2) [1] [2] [3; 4; 5] /\
  shows (offset_s (Sub [1; 2; 3; 4; 5] 1 4) (-1) 0) [] [1; 2; 3; 4] [5].
Proof. repeat split. Qed.

(** The member window with one argument: the size of the result. *)
Theorem sub_array_window_1 : forall A (s : sub A) a xs b i, shows s a xs b ->
  s_size (s_window_1_mut s i) = len a + len xs - 2 * i /\ s_size (s_window_1 s i) = len xs - i /\
  sfirst (s_window_1_mut s i) = i /\ sfirst (s_window_1 s i) = i.
Proof. exact @window_1_lemma. Qed.
Print Assumptions sub_array_window_1.

(** The non-const one does not do what the const one does: it loses elements at the end. *)
Theorem sub_array_window_1_refuted : exists s : sub Z,
  shows s [] [1; 2; 3; 4] [] /\ shows (window_1_s s 1) [1] [2; 3; 4] [] /\ shows (s_window_1 s 1) [1] [2; 3; 4] [] /\
  shows (s_window_1_mut s 1) [1] [2; 3] [4].
Proof. exact window_1_refuted_lemma. Qed.
Print Assumptions sub_array_window_1_refuted.

(** * C198: fill, push, pop, drop and swap of a sub_array *)

Theorem sub_array_fill : forall A (s : sub A) a xs b v, shows s a xs b ->
  s_fill s v = Ok (view_of a (repeat v (length xs)) b).
Proof. exact @fill_lemma. Qed.
Print Assumptions sub_array_fill.

Theorem sub_array_push_back : forall A (s : sub A) a xs y b x, shows s a xs (y :: b) ->
  s_push_back s x = Ok (view_of a (xs ++ [x]) b).
Proof. exact @push_back_lemma. Qed.
Print Assumptions sub_array_push_back.

Theorem sub_array_push_front : forall A (s : sub A) a y xs b x, shows s (a ++ [y]) xs b ->
  s_push_front s x = Ok (view_of a (x :: xs) b).
Proof. exact @push_front_lemma. Qed.
Print Assumptions sub_array_push_front.

Theorem sub_array_pop_back : forall A z (s : sub A) a xs x b, shows s a (xs ++ [x]) b ->
  s_pop_back z s = Ok (view_of a xs (z :: b)) /\ s_drop_back s = view_of a xs (x :: b).
Proof. exact @pop_back_lemma. Qed.
Print Assumptions sub_array_pop_back.

Theorem sub_array_pop_front : forall A z (s : sub A) a x xs b, shows s a (x :: xs) b ->
  s_pop_front z s = Ok (view_of (a ++ [z]) xs b) /\ s_drop_front s = view_of (a ++ [x]) xs b.
Proof. exact @pop_front_lemma. Qed.
Print Assumptions sub_array_pop_front.

Theorem sub_array_swap : forall A (s t : sub A) a xs b c ys d, shows s a xs b -> shows t c ys d ->
  s_swap s t = (view_of c ys d, view_of a xs b).
Proof. exact @swap_lemma. Qed.
Print Assumptions sub_array_swap.

Example sub_array_changes_example : shows (Sub [1; 2; 3; 4; 5] 1 3) [1] [2; 3] [4; 5] /\
  s_push_back (Sub [1; 2; 3; 4; 5] 1 3) 9 = Ok (Sub [1; 2; 3; 9; 5] 1 4) /\
  s_push_front (Sub [1; 2; 3; 4; 5] 1 3) 9 = Ok (Sub [9; 2; 3; 4; 5] 0 3) /\
  s_pop_back 0 (Sub [1; 2; 3; 4; 5] 1 3) = Ok (Sub [1; 2; 0; 4; 5] 1 2) /\
  s_push_back (Sub [1; 2; 3] 1 3) 9 = UB.
Proof. repeat split. Qed.

(** * C199: comparison of sub_arrays *)

Theorem sub_array_equal_partial : forall A (eqb : A -> A -> bool) d (s t : sub A) a xs b c ys e,
  shows s a xs b -> shows t c ys e -> length xs = length ys -> (depth_bound (length xs) <= d)%nat ->
  exists r, s_eq eqb d s t = Ok r /\ s_ne eqb d s t = Ok (negb r) /\
    (r = true <-> Forall2 (fun x y => eqb x y = true) xs ys).
Proof. exact @eq_lemma. Qed.
Print Assumptions sub_array_equal_partial.

(** Without the hypothesis on the sizes: what is compared is what follows the second begin. *)
Theorem sub_array_equal_prefix : forall A (eqb : A -> A -> bool) d (s t : sub A) a xs b c ys e ws,
  shows s a xs b -> shows t c ys e -> (exists us, ys ++ e = ws ++ us) -> length ws = length xs ->
  (depth_bound (length xs) <= d)%nat ->
  exists r, s_eq eqb d s t = Ok r /\ (r = true <-> Forall2 (fun x y => eqb x y = true) xs ws).
Proof. exact @eq_prefix_lemma. Qed.
Print Assumptions sub_array_equal_prefix.

(** Sub_arrays of different sizes compare equal, the comparison is not symmetric, and it reads past
    the array. *)
Theorem sub_array_equal_refuted : exists s t : sub Z,
  shows s [] [1] [2] /\ shows t [] [1; 2] [] /\
  s_eq Z.eqb 9 s t = Ok true /\ s_eq Z.eqb 9 t s = Ok true /\
  exists u : sub Z, shows u [] [1; 3] [] /\ s_eq Z.eqb 9 s u = Ok true /\ s_eq Z.eqb 9 u s = Ok false /\
  exists w : sub Z, shows w [] [1] [] /\ s_eq Z.eqb 9 t w = UB.
Proof. exact eq_refuted_lemma. Qed.
Print Assumptions sub_array_equal_refuted.

Theorem sub_array_less : forall A (lt : A -> A -> bool) d (s t : sub A) a xs b c ys e,
  shows s a xs b -> shows t c ys e -> (depth_bound (length xs) <= d)%nat -> (depth_bound (length ys) <= d)%nat ->
  exists l g, s_lt lt d s t = Ok l /\ s_gt lt d s t = Ok g /\ s_le lt d s t = Ok (negb g) /\ s_ge lt d s t = Ok (negb l) /\
    (l = true <-> precedes lt xs ys) /\ (g = true <-> precedes lt ys xs).
Proof. exact @lt_lemma. Qed.
Print Assumptions sub_array_less.

Example sub_array_compare_example : shows (Sub [1; 2; 3] 1 3) [1] [2; 3] [] /\ shows (Sub [2; 4] 0 2) [] [2; 4] [] /\
  s_lt Z.ltb 9 (Sub [1; 2; 3] 1 3) (Sub [2; 4] 0 2) = Ok true /\
  s_eq Z.eqb 9 (Sub [1; 2; 3] 1 3) (Sub [2; 3] 0 2) = Ok true.
Proof. repeat split. Qed.

(** * C200: the operations that insert and remove *)

Theorem fixed_append : forall A (z : A) isub (c input : sub A) a p q b a' ys b',
  operand isub c a (p ++ q) b -> shows input a' ys b' ->
  let r := Ok (kind_of isub a (p ++ ys ++ q) (b ++ repeat z (length a' + length b'))) in
  o_append z isub c (len p) input = r /\ o_append_it z isub c (len a + len p) input = r.
Proof. exact @append_lemma. Qed.
Print Assumptions fixed_append.

Theorem fixed_append_ends : forall A (z : A) isub (c input : sub A) a xs b a' ys b',
  operand isub c a xs b -> shows input a' ys b' ->
  o_append_back z isub c input = Ok (kind_of isub a (xs ++ ys) (b ++ repeat z (length a' + length b'))) /\
  o_append_front z isub c input = Ok (kind_of isub a (ys ++ xs) (b ++ repeat z (length a' + length b'))).
Proof. exact @append_ends_lemma. Qed.
Print Assumptions fixed_append_ends.

Theorem fixed_insert : forall A (z : A) isub (c : sub A) a p q b v values, operand isub c a (p ++ q) b ->
  let r := Ok (kind_of isub a (p ++ (v :: values) ++ q) b) in
  o_insert z isub c (len p) v values = r /\ o_insert_it z isub c (len a + len p) v values = r.
Proof. exact @insert_lemma. Qed.
Print Assumptions fixed_insert.

Theorem fixed_push : forall A (z : A) isub (c : sub A) a xs b v values, operand isub c a xs b ->
  o_push_back z isub c v values = Ok (kind_of isub a (xs ++ v :: values) b) /\
  o_push_front z isub c v values = Ok (kind_of isub a (v :: values ++ xs) b).
Proof. exact @push_lemma. Qed.
Print Assumptions fixed_push.

Theorem fixed_insert_n : forall A (z : A) N isub (c : sub A) a p q b v values, operand isub c a (p ++ q) b ->
  let r := Ok (kind_of isub a (p ++ times N (v :: values) ++ q) b) in
  o_insert_n z (Z.of_nat N) isub c (len p) v values = r /\
  o_insert_n_it z (Z.of_nat N) isub c (len a + len p) v values = r.
Proof. exact @insert_n_lemma. Qed.
Print Assumptions fixed_insert_n.

Theorem fixed_push_n : forall A (z : A) N isub (c : sub A) a xs b v values, operand isub c a xs b ->
  o_push_back_n z (Z.of_nat N) isub c v values = Ok (kind_of isub a (xs ++ times N (v :: values)) b) /\
  o_push_front_n z (Z.of_nat N) isub c v values = Ok (kind_of isub a (times N (v :: values) ++ xs) b).
Proof. exact @push_n_lemma. Qed.
Print Assumptions fixed_push_n.

Theorem fixed_erase : forall A (z : A) isub (c : sub A) a p x q b, operand isub c a (p ++ x :: q) b ->
  o_erase z isub c (len p) = Ok (kind_of isub a (p ++ q) b) /\
  o_erase_it z isub c (len a + len p) = Ok (kind_of isub a (p ++ q) b).
Proof. exact @erase_lemma. Qed.
Print Assumptions fixed_erase.

Theorem fixed_erase_n : forall A (z : A) isub (c : sub A) a p m q b, operand isub c a (p ++ m ++ q) b ->
  o_erase_n z (len m) isub c (len p) = Ok (kind_of isub a (p ++ q) b) /\
  o_erase_n_it z (len m) isub c (len a + len p) = Ok (kind_of isub a (p ++ q) b).
Proof. exact @erase_n_lemma. Qed.
Print Assumptions fixed_erase_n.

Theorem fixed_pop : forall A (z : A) isub (c : sub A) a xs b, operand isub c a xs b ->
  (forall p x, xs = p ++ [x] -> o_pop_back z isub c = Ok (kind_of isub a p b)) /\
  (forall x q, xs = x :: q -> o_pop_front z isub c = Ok (kind_of isub a q b)).
Proof. exact @pop_lemma. Qed.
Print Assumptions fixed_pop.

Theorem fixed_pop_back_n : forall A (z : A) isub (c : sub A) a p m b, operand isub c a (p ++ m) b ->
  o_pop_back_n z (len m) isub c = Ok (kind_of isub a p b).
Proof. exact @pop_back_n_lemma. Qed.
Print Assumptions fixed_pop_back_n.

Theorem fixed_pop_front_n : forall A (z : A) isub (c : sub A) a m q b, operand isub c a (m ++ q) b ->
  o_pop_front_n z (len m) isub c = Ok (kind_of isub a q b).
Proof. exact @pop_front_n_lemma. Qed.
Print Assumptions fixed_pop_front_n.

Example fixed_insert_example : operand false (Sub [1; 2; 3] 0 3) [] ([1] ++ [2; 3]) [] /\
  operand true (Sub [1; 2; 3; 4] 1 3) [1] ([2] ++ [3]) [4] /\
  o_insert 0 false (Sub [1; 2; 3] 0 3) 1 8 [9] = Ok (Sub [1; 8; 9; 2; 3] 0 5) /\
  o_insert 0 true (Sub [1; 2; 3; 4] 1 3) 1 8 [9] = Ok (Sub [1; 2; 8; 9; 3; 4] 1 5) /\
  o_append 0 true (Sub [1; 2; 3; 4] 1 3) 1 (Sub [7; 8; 9] 1 2) = Ok (Sub [1; 2; 8; 3; 4; 0; 0] 1 4) /\
  o_push_back_n 0 2 true (Sub [1; 2; 3; 4] 1 3) 8 [9] = Ok (Sub [1; 2; 3; 8; 9; 8; 9; 4] 1 7) /\
  o_pop_back_n 0 2 true (Sub [1; 2; 3; 4] 1 3) = Ok (Sub [1; 4] 1 1).
Proof. repeat split; discriminate. Qed.

(** * C201: realign, resize, resize_backward and set *)

Theorem fixed_realign : forall A (c : sub A) a xs b v, shows c a xs b ->
  o_realign c v = Ok (view_of [] (xs ++ repeat v (length a + length b)) []).
Proof. exact @realign_lemma. Qed.
Print Assumptions fixed_realign.

Theorem fixed_resize : forall A (c : sub A) a xs b v, shows c a xs b ->
  (forall w, o_resize (len xs + Z.of_nat w) c v = Ok (view_of [] (xs ++ repeat v w) []) /\
             o_realign_to (len xs + Z.of_nat w) c v = Ok (view_of [] (xs ++ repeat v w) []) /\
             o_resize_backward (len xs + Z.of_nat w) c v = Ok (view_of [] (repeat v w ++ xs) [])) /\
  (forall p q, xs = p ++ q ->
             o_resize (len p) c v = Ok (view_of [] p []) /\
             o_realign_to (len p) c v = Ok (view_of [] p []) /\
             o_resize_backward (len q) c v = Ok (view_of [] q [])).
Proof. exact @resize_lemma. Qed.
Print Assumptions fixed_resize.

Theorem fixed_set : forall A isub (c : sub A) a p x q b v, operand isub c a (p ++ x :: q) b ->
  o_set isub c (len p) v = Ok (kind_of isub a (p ++ v :: q) b) /\
  o_set_it isub c (len a + len p) v = Ok (kind_of isub a (p ++ v :: q) b).
Proof. exact @set_lemma. Qed.
Print Assumptions fixed_set.

Example fixed_resize_example : shows (Sub [1; 2; 3; 4] 1 3) [1] [2; 3] [4] /\
  o_realign (Sub [1; 2; 3; 4] 1 3) 9 = Ok (Sub [2; 3; 9; 9] 0 4) /\
  o_resize 3 (Sub [1; 2; 3; 4] 1 3) 9 = Ok (Sub [2; 3; 9] 0 3) /\
  o_resize_backward 3 (Sub [1; 2; 3; 4] 1 3) 9 = Ok (Sub [9; 2; 3] 0 3) /\
  o_resize_backward 1 (Sub [1; 2; 3; 4] 1 3) 9 = Ok (Sub [3] 0 1) /\
  o_set true (Sub [1; 2; 3; 4] 1 3) 1 9 = Ok (Sub [1; 2; 9; 4] 1 3).
Proof. repeat split. Qed.

(** * C202: the operations of sprout::fit show exactly the elements *)

Theorem fit_insert_correct : forall A (z : A) isub (c : sub A) a p q b v values, operand isub c a (p ++ q) b ->
  let r := Ok (view_of a (p ++ (v :: values) ++ q) b) in
  fit_insert z isub c (len p) v values = r /\ fit_insert_it z isub c (len a + len p) v values = r.
Proof. exact @fit_insert_lemma. Qed.
Print Assumptions fit_insert_correct.

Theorem fit_push_correct : forall A (z : A) isub (c : sub A) a xs b v values, operand isub c a xs b ->
  fit_push_back z isub c v values = Ok (view_of a (xs ++ v :: values) b) /\
  fit_push_front z isub c v values = Ok (view_of a (v :: values ++ xs) b).
Proof. exact @fit_push_lemma. Qed.
Print Assumptions fit_push_correct.

Theorem fit_insert_n_correct : forall A (z : A) N isub (c : sub A) a p q b v values, operand isub c a (p ++ q) b ->
  let r := Ok (view_of a (p ++ times N (v :: values) ++ q) b) in
  fit_insert_n z (Z.of_nat N) isub c (len p) v values = r /\
  fit_insert_n_it z (Z.of_nat N) isub c (len a + len p) v values = r.
Proof. exact @fit_insert_n_lemma. Qed.
Print Assumptions fit_insert_n_correct.

Theorem fit_push_n_correct : forall A (z : A) N isub (c : sub A) a xs b v values, operand isub c a xs b ->
  fit_push_back_n z (Z.of_nat N) isub c v values = Ok (view_of a (xs ++ times N (v :: values)) b) /\
  fit_push_front_n z (Z.of_nat N) isub c v values = Ok (view_of a (times N (v :: values) ++ xs) b).
Proof. exact @fit_push_n_lemma. Qed.
Print Assumptions fit_push_n_correct.

Theorem fit_append_correct : forall A (z : A) isub (c input : sub A) a p q b a' ys b',
  operand isub c a (p ++ q) b -> shows input a' ys b' ->
  let r := Ok (view_of a (p ++ ys ++ q) (b ++ repeat z (length a' + length b'))) in
  fit_append z isub c (len p) input = r /\ fit_append_it z isub c (len a + len p) input = r.
Proof. exact @fit_append_lemma. Qed.
Print Assumptions fit_append_correct.

Theorem fit_append_ends_correct : forall A (z : A) isub (c input : sub A) a xs b a' ys b',
  operand isub c a xs b -> shows input a' ys b' ->
  fit_append_back z isub c input = Ok (view_of a (xs ++ ys) (b ++ repeat z (length a' + length b'))) /\
  fit_append_front z isub c input = Ok (view_of a (ys ++ xs) (b ++ repeat z (length a' + length b'))).
Proof. exact @fit_append_ends_lemma. Qed.
Print Assumptions fit_append_ends_correct.

Theorem fit_erase_correct : forall A (z : A) isub (c : sub A) a p x q b, operand isub c a (p ++ x :: q) b ->
  fit_erase z isub c (len p) = Ok (view_of a (p ++ q) b) /\
  fit_erase_it z isub c (len a + len p) = Ok (view_of a (p ++ q) b).
Proof. exact @fit_erase_lemma. Qed.
Print Assumptions fit_erase_correct.

Theorem fit_pop_correct : forall A (z : A) isub (c : sub A) a xs b, operand isub c a xs b ->
  (forall p x, xs = p ++ [x] -> fit_pop_back z isub c = Ok (view_of a p b)) /\
  (forall x q, xs = x :: q -> fit_pop_front z isub c = Ok (view_of a q b)) /\
  (forall p m, xs = p ++ m -> fit_pop_back_n z (len m) isub c = Ok (view_of a p b)) /\
  (forall m q, xs = m ++ q -> fit_pop_front_n z (len m) isub c = Ok (view_of a q b)).
Proof. exact @fit_pop_lemma. Qed.
Print Assumptions fit_pop_correct.

Theorem fit_erase_n_partial : forall A (z : A) isub (c : sub A) a p x q b, operand isub c a (p ++ x :: q) b ->
  fit_erase_n z 1 isub c (len p) = Ok (view_of a (p ++ q) b) /\
  fit_erase_n_it z 1 isub c (len a + len p) = Ok (view_of a (p ++ q) b).
Proof. exact @fit_erase_one_lemma. Qed.
Print Assumptions fit_erase_n_partial.

(** With any other number of elements the end is wrong: too far by one less than the number. *)
Theorem fit_erase_n_result : forall A (z : A) isub (c : sub A) a p m q b, operand isub c a (p ++ m ++ q) b ->
  let r := Ok (Sub (a ++ (p ++ q) ++ b) (len a) (len a + len (p ++ m ++ q) - 1)) in
  fit_erase_n z (len m) isub c (len p) = r /\ fit_erase_n_it z (len m) isub c (len a + len p) = r.
Proof. exact @fit_erase_n_lemma. Qed.
Print Assumptions fit_erase_n_result.

Theorem fit_erase_n_refuted : forall A (z : A) isub (c : sub A) a p m q b, operand isub c a (p ++ m ++ q) b -> len m <> 1 ->
  fit_erase_n z (len m) isub c (len p) <> Ok (view_of a (p ++ q) b) /\
  fit_erase_n_it z (len m) isub c (len a + len p) <> Ok (view_of a (p ++ q) b).
Proof. exact @fit_erase_n_refuted_lemma. Qed.
Print Assumptions fit_erase_n_refuted.

(** resize, resize_backward and realign; realign_to a smaller container has an end outside it. *)
Theorem fit_resize_partial : forall A (c : sub A) a xs b v, shows c a xs b ->
  (forall w, fit_resize (len xs + Z.of_nat w) c v = Ok (view_of [] (xs ++ repeat v w) []) /\
             fit_realign_to (len xs + Z.of_nat w) c v = Ok (view_of [] xs (repeat v w)) /\
             fit_resize_backward (len xs + Z.of_nat w) c v = Ok (view_of [] (repeat v w ++ xs) [])) /\
  (forall p q, xs = p ++ q ->
             fit_resize (len p) c v = Ok (view_of [] p []) /\
             fit_resize_backward (len q) c v = Ok (view_of [] q []) /\
             fit_realign_to (len p) c v = Ok (Sub p 0 (len xs))) /\
  fit_realign c v = Ok (view_of [] xs (repeat v (length a + length b))).
Proof. exact @fit_resize_lemma. Qed.
Print Assumptions fit_resize_partial.

Theorem fit_set_correct : forall A isub (c : sub A) a p x q b v, operand isub c a (p ++ x :: q) b ->
  fit_set isub c (len p) v = Ok (view_of a (p ++ v :: q) b) /\
  fit_set_it isub c (len a + len p) v = Ok (view_of a (p ++ v :: q) b).
Proof. exact @fit_set_lemma. Qed.
Print Assumptions fit_set_correct.

Example fit_example : operand true (Sub [1; 2; 3; 4] 1 4) [1] ([2] ++ [3; 4]) [] /\
  fit_erase_n 0 2 true (Sub [1; 2; 3; 4] 1 4) 1 = Ok (Sub [1; 2] 1 3) /\
  fit_pop_back_n 0 2 true (Sub [1; 2; 3; 4] 1 4) = Ok (Sub [1; 2] 1 2) /\
  fit_insert 0 true (Sub [1; 2; 3; 4] 1 4) 1 8 [9] = Ok (Sub [1; 2; 8; 9; 3; 4] 1 6) /\
  fit_realign_to 2 (Sub [1; 2; 3; 4] 1 4) 0 = Ok (Sub [2; 3] 0 3).
Proof. repeat split; discriminate. Qed.
