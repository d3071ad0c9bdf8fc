(** Properties C140 - C146: sprout::basic_string_view. *)
From Coq Require Import List Arith ZArith Bool Lia.
From Verif Require Import Base SearchSpec MutSpec BitModel StrSpec CharSpec BstrModel BstrSpec SvModel SvSpec SvProof.
Import ListNotations.
Open Scope Z_scope.

(** ** C140: access and narrowing *)
Theorem view_of_c_string : forall d m s xs, cstr m s xs -> (depth_bound (length xs) <= d)%nat ->
  exists v, view_cstr d m s = Ok v /\ fst v = s /\ shows m v xs.
Proof. exact @view_cstr_lemma. Qed.
Print Assumptions view_of_c_string.
Theorem view_at_reads : forall m v cs i, shows m v cs -> view_at m v i = Ok (nth_error cs i).
Proof. exact @view_at_lemma. Qed.
Print Assumptions view_at_reads.
Theorem view_front : forall m v x t, shows m v (x :: t) -> front m v = Ok x.
Proof. exact @front_lemma. Qed.
Print Assumptions view_front.
Theorem view_back : forall m v x t, shows m v (t ++ [x]) -> back m v = Ok x.
Proof. exact @back_lemma. Qed.
Print Assumptions view_back.
Theorem view_swap_exchanges : forall m v w cs ds, shows m v cs -> shows m w ds ->
  shows m (fst (view_swap v w)) ds /\ shows m (snd (view_swap v w)) cs /\
  fst (fst (view_swap v w)) = fst w /\ fst (snd (view_swap v w)) = fst v.
Proof. exact @view_swap_lemma. Qed.
Print Assumptions view_swap_exchanges.
Theorem remove_prefix_drops : forall m v cs n, shows m v cs ->
  shows m (remove_prefix v n) (skipn n cs) /\ fst (remove_prefix v n) = (fst v + Nat.min n (length cs))%nat /\
  remove_prefix_mut v n = remove_prefix v n.
Proof. exact @remove_prefix_lemma. Qed.
Print Assumptions remove_prefix_drops.
Theorem remove_suffix_drops : forall m v cs n, shows m v cs ->
  shows m (remove_suffix v n) (firstn (length cs - n) cs) /\ fst (remove_suffix v n) = fst v /\
  remove_suffix_mut v n = remove_suffix v n.
Proof. exact @remove_suffix_lemma. Qed.
Print Assumptions remove_suffix_drops.
Example view_ex : shows [120; 97; 98; 99; 100; 0] (1, 3)%nat [97; 98; 99] /\ cstr [120; 97; 98; 99; 100; 0] 1 [97; 98; 99; 100] /\
  view_cstr 7 [120; 97; 98; 99; 100; 0] 1 = Ok (1, 4)%nat /\
  view_at [120; 97; 98; 99; 100; 0] (1, 3)%nat 2 = Ok (Some 99) /\ view_at [120; 97; 98; 99; 100; 0] (1, 3)%nat 3 = Ok None /\
  remove_prefix (1, 3)%nat 2 = (3, 1)%nat /\ remove_prefix (1, 3)%nat 9 = (4, 0)%nat /\ remove_suffix (1, 3)%nat 2 = (1, 1)%nat /\
  remove_suffix_mut (1, 3)%nat 4 = (1, 0)%nat.
Proof.
  repeat split; try reflexivity; try (intros i x; do 4 (destruct i as [|i]; [cbn; congruence|]); cbn; destruct i; discriminate); cbn; lia.
Qed.

(** ** C141: substr, copy *)
(** The length asked for must not reach behind the end. *)
Theorem view_substr_partial : forall r M m v cs pos n, shows m v cs -> (size v < M - 1)%nat -> (1 < r)%nat ->
  (n <= length cs - pos)%nat \/ n = (M - 1)%nat ->
  if (pos <=? length cs)%nat
  then exists w, view_substr r M v pos n = Ok (Some w) /\ fst w = (fst v + pos)%nat /\ shows m w (sub cs pos n)
  else view_substr r M v pos n = Ok None.
Proof. exact @view_substr_lemma. Qed.
Print Assumptions view_substr_partial.
(** Otherwise the new view is longer than what is left, and may leave the array. *)
Theorem view_substr_refuted : forall r M m v cs pos n, shows m v cs -> (0 < r)%nat -> (pos <= length cs)%nat ->
  (length cs - pos < n < M - 1)%nat ->
  exists w, view_substr r M v pos n = Ok (Some w) /\ size w = n /\ (length (sub cs pos n) < size w)%nat.
Proof. exact @view_substr_over_lemma. Qed.
Print Assumptions view_substr_refuted.
Theorem view_copy_partial : forall k m v cs s n pos, shows m v cs -> (pos < length cs)%nat ->
  (s + Nat.min n (length cs - pos) <= length m)%nat -> (length cs < k)%nat ->
  (s + Nat.min n (length cs - pos) <= fst v \/ fst v + size v <= s)%nat ->
  view_copy k m v s n pos = Ok (paste m s (sub cs pos n), Some (length (sub cs pos n))).
Proof. exact @view_copy_lemma. Qed.
Print Assumptions view_copy_partial.
Theorem view_copy_refuted : forall k m v cs s n, shows m v cs -> view_copy k m v s n (length cs) = Ok (m, None).
Proof. exact @view_copy_end_lemma. Qed.
Print Assumptions view_copy_refuted.
Example view_substr_ex : shows [120; 97; 98; 99; 100; 7; 7] (1, 3)%nat [97; 98; 99] /\
  view_substr 2 256 (1, 3)%nat 1 2 = Ok (Some (2, 2)%nat) /\ view_substr 2 256 (1, 3)%nat 1 255 = Ok (Some (2, 2)%nat) /\
  view_substr 2 256 (1, 3)%nat 4 0 = Ok None /\ view_substr 2 256 (1, 3)%nat 1 200 = Ok (Some (2, 200)%nat) /\
  view_copy 9 [120; 97; 98; 99; 100; 7; 7] (1, 3)%nat 5 2 1 = Ok ([120; 97; 98; 99; 100; 98; 99], Some 2%nat) /\
  view_copy 9 [120; 97; 98; 99; 100; 7; 7] (1, 3)%nat 5 2 3 = Ok ([120; 97; 98; 99; 100; 7; 7], None).
Proof.
  repeat split; try reflexivity. intros i x. do 4 (destruct i as [|i]; [cbn; congruence|]). cbn. destruct i; discriminate.
Qed.

(** ** C142: comparison *)
Theorem view_compare_pointer_partial : forall d m m2 v cs, shows m v cs -> (depth_bound (length cs) <= d)%nat ->
  forall pos1 n1 s ys, block m2 s ys -> comparable (sub cs pos1 n1) ys ->
  if (pos1 <=? length cs)%nat
  then exists r, view_compare_ptr d m m2 v pos1 n1 s (length ys) = Ok (Some r) /\ reports r (lexcmp (sub cs pos1 n1) ys)
  else view_compare_ptr d m m2 v pos1 n1 s (length ys) = Ok None.
Proof. exact @view_compare_ptr_lemma. Qed.
Print Assumptions view_compare_pointer_partial.
Theorem view_compare_substrings_partial : forall d m m2 v cs, shows m v cs -> (depth_bound (length cs) <= d)%nat ->
  forall pos1 n1 w cs2 pos2 n2, shows m2 w cs2 -> comparable cs cs2 ->
  if ((pos1 <=? length cs) && (pos2 <=? length cs2))%nat%bool
  then exists r, view_compare_sub d m m2 v pos1 n1 w pos2 n2 = Ok (Some r) /\
                 reports r (lexcmp (sub cs pos1 n1) (sub cs2 pos2 n2))
  else view_compare_sub d m m2 v pos1 n1 w pos2 n2 = Ok None.
Proof. exact @view_compare_sub_lemma. Qed.
Print Assumptions view_compare_substrings_partial.
Theorem view_compare_substring_partial : forall d m m2 v cs, shows m v cs -> (depth_bound (length cs) <= d)%nat ->
  forall M pos1 n1 w cs2, shows m2 w cs2 -> comparable cs cs2 -> (length cs2 < M)%nat ->
  if (pos1 <=? length cs)%nat
  then exists r, view_compare_part d M m m2 v pos1 n1 w = Ok (Some r) /\ reports r (lexcmp (sub cs pos1 n1) cs2)
  else view_compare_part d M m m2 v pos1 n1 w = Ok None.
Proof. exact @view_compare_part_lemma. Qed.
Print Assumptions view_compare_substring_partial.
Theorem view_operators_partial : forall d m m2 v w cs cs2, shows m v cs -> shows m2 w cs2 -> comparable cs cs2 ->
  (depth_bound (length cs) <= d)%nat -> (depth_bound (length cs2) <= d)%nat ->
  answers (view_eq d m m2 v w) (cs = cs2) /\ answers (view_ne d m m2 v w) (cs <> cs2) /\
  answers (view_lt d m m2 v w) (lexcmp cs cs2 = Lt) /\ answers (view_gt d m m2 v w) (lexcmp cs cs2 = Gt) /\
  answers (view_le d m m2 v w) (lexcmp cs cs2 <> Gt) /\ answers (view_ge d m m2 v w) (lexcmp cs cs2 <> Lt).
Proof. exact @view_ops_lemma. Qed.
Print Assumptions view_operators_partial.
Theorem view_c_string_operators_partial : forall d m m2 v s cs ys, shows m v cs -> cstr m2 s ys -> comparable cs ys ->
  (depth_bound (length cs) <= d)%nat -> (depth_bound (length ys) <= d)%nat ->
  answers (view_eq_cstr d m m2 v s) (cs = ys) /\
  answers (view_lt_cstr d m m2 v s) (lexcmp cs ys = Lt) /\ answers (view_gt_cstr d m m2 v s) (lexcmp cs ys = Gt) /\
  answers (view_le_cstr d m m2 v s) (lexcmp cs ys <> Gt) /\ answers (view_ge_cstr d m m2 v s) (lexcmp cs ys <> Lt).
Proof. exact @view_cstr_ops_lemma. Qed.
Print Assumptions view_c_string_operators_partial.
(** whatever follows a null character is not compared *)
Theorem view_equality_refuted : forall d m m2 v w a s t, shows m v (a ++ 0 :: s) -> shows m2 w (a ++ 0 :: t) -> length s = length t -> ~ In 0 a ->
  (depth_bound (length (a ++ 0%Z :: s)) <= d)%nat -> view_eq d m m2 v w = Ok (Some true).
Proof. exact @view_eq_nul_lemma. Qed.
Print Assumptions view_equality_refuted.
Example view_compare_ex : shows [120; 97; 98; 121] (1, 2)%nat [97; 98] /\ shows [97; 99] (0, 2)%nat [97; 99] /\ comparable [97; 98] [97; 99] /\
  view_lt 5 [120; 97; 98; 121] [97; 99] (1, 2)%nat (0, 2)%nat = Ok (Some true) /\
  view_ge 5 [120; 97; 98; 121] [97; 99] (1, 2)%nat (0, 2)%nat = Ok (Some false) /\
  view_eq_cstr 5 [120; 97; 98; 121] [97; 98; 0] (1, 2)%nat 0 = Ok (Some true) /\
  view_compare_sub 5 [120; 97; 98; 121] [97; 99] (1, 2)%nat 1 9 (0, 2)%nat 2 9 = Ok (Some 1) /\
  view_compare_sub 5 [120; 97; 98; 121] [97; 99] (1, 2)%nat 1 9 (0, 2)%nat 3 9 = Ok None /\
  view_eq 5 [97; 0; 98] [97; 0; 99] (0, 3)%nat (0, 3)%nat = Ok (Some true).
Proof.
  repeat split; try reflexivity; try (intros i x; do 3 (destruct i as [|i]; [cbn; congruence|]); cbn; destruct i; discriminate).
  left. cbn. lia.
Qed.

(** ** C143: find, rfind *)
Theorem view_find_partial : forall d m ms v w cs ys, shows m v cs -> shows ms w ys -> ~ In 0 ys -> (depth_bound (length ys) <= d)%nat ->
  forall r pos, (length cs < r)%nat ->
  (exists o, view_find r d m ms v w pos = Ok o /\ first_from (occurs cs ys) pos o) /\
  (exists o, view_rfind r d m ms v w pos = Ok o /\ last_upto (occurs cs ys) pos o).
Proof. exact @view_find_lemma. Qed.
Print Assumptions view_find_partial.
Theorem view_find_c_string : forall d m ms v s cs ys, shows m v cs -> cstr ms s ys -> (depth_bound (length ys) <= d)%nat ->
  forall r pos, (length cs < r)%nat ->
  (exists o, view_find_cstr r d m ms v s pos = Ok o /\ first_from (occurs cs ys) pos o) /\
  (exists o, view_rfind_cstr r d m ms v s pos = Ok o /\ last_upto (occurs cs ys) pos o).
Proof. exact @view_find_cstr_lemma. Qed.
Print Assumptions view_find_c_string.
Theorem view_find_character : forall m v cs, shows m v cs -> forall r d c pos, (depth_bound (length cs) <= d)%nat -> (length cs < r)%nat ->
  (exists o, view_find_c d m v c pos = Ok o /\ first_from (char_at (eq c) cs) pos o) /\
  (exists o, view_rfind_c r m v c pos = Ok o /\ last_upto (char_at (eq c) cs) pos o).
Proof. exact @view_find_c_lemma. Qed.
Print Assumptions view_find_character.
Theorem view_rfind_refuted : forall r d m ms v w cs ys zs, shows m v cs -> shows ms w ys -> ys = 0 :: zs ->
  (depth_bound (length ys) <= d)%nat -> (0 < r)%nat -> (length ys <= length cs)%nat -> nth_error cs (length cs - length ys) = Some 0 ->
  view_rfind r d m ms v w (length cs) = Ok (Some (length cs - length ys)%nat).
Proof. exact @view_rfind_nul_lemma. Qed.
Print Assumptions view_rfind_refuted.
(** "abab" without the "ab" behind it *)
Example view_find_ex : shows [97; 98; 97; 98; 97; 98] (0, 4)%nat [97; 98; 97; 98] /\ cstr [98; 97; 0] 0 [98; 97] /\
  view_find 5 5 [97; 98; 97; 98; 97; 98] [97; 98] (0, 4)%nat (0, 2)%nat 1 = Ok (Some 2%nat) /\
  view_find 5 5 [97; 98; 97; 98; 97; 98] [97; 98] (0, 4)%nat (0, 2)%nat 3 = Ok None /\
  view_rfind 5 5 [97; 98; 97; 98; 97; 98] [97; 98] (0, 4)%nat (0, 2)%nat 9 = Ok (Some 2%nat) /\
  view_rfind_cstr 5 5 [97; 98; 97; 98; 97; 98] [98; 97; 0] (0, 4)%nat 0 9 = Ok (Some 1%nat) /\
  view_find_c 5 [97; 98; 97; 98; 97; 98] (0, 4)%nat 98 2 = Ok (Some 3%nat) /\ view_find_c 5 [97; 98; 97; 98; 97; 98] (0, 4)%nat 97 3 = Ok None /\
  view_rfind_c 5 [97; 98; 97; 98; 97; 98] (0, 4)%nat 97 9 = Ok (Some 2%nat).
Proof.
  repeat split; try reflexivity; try (intros i x; do 5 (destruct i as [|i]; [cbn; congruence|]); cbn; destruct i; discriminate); cbn; lia.
Qed.

(** ** C144: searches for characters of a set *)
Theorem view_find_of : forall m ms v w cs xs, shows m v cs -> shows ms w xs -> forall r d pos, (depth_bound (length xs) <= d)%nat -> (length cs < r)%nat ->
  (exists o, view_find_first_of r d m ms v w pos = Ok o /\ first_from (char_at (fun x => In x xs) cs) pos o) /\
  (exists o, view_find_last_of r d m ms v w pos = Ok o /\ last_upto (char_at (fun x => In x xs) cs) pos o) /\
  (exists o, view_find_first_not_of r d m ms v w pos = Ok o /\ first_from (char_at (fun x => ~ In x xs) cs) pos o) /\
  (exists o, view_find_last_not_of r d m ms v w pos = Ok o /\ last_upto (char_at (fun x => ~ In x xs) cs) pos o).
Proof. exact @view_find_of_lemma. Qed.
Print Assumptions view_find_of.
Theorem view_find_of_character : forall m v cs, shows m v cs -> forall r d c pos, (depth_bound (length cs) <= d)%nat -> (length cs < r)%nat ->
  (exists o, view_find_first_of_c d m v c pos = Ok o /\ first_from (char_at (eq c) cs) pos o) /\
  (exists o, view_find_last_of_c r m v c pos = Ok o /\ last_upto (char_at (eq c) cs) pos o) /\
  (exists o, view_find_first_not_of_c r m v c pos = Ok o /\ first_from (char_at (fun x => x <> c) cs) pos o) /\
  (exists o, view_find_last_not_of_c r m v c pos = Ok o /\ last_upto (char_at (fun x => x <> c) cs) pos o).
Proof. exact @view_find_of_c_lemma. Qed.
Print Assumptions view_find_of_character.
Example view_find_of_ex : shows [97; 98; 99; 97; 98] (0, 4)%nat [97; 98; 99; 97] /\
  view_find_first_of 6 5 [97; 98; 99; 97; 98] [98; 99] (0, 4)%nat (0, 2)%nat 0 = Ok (Some 1%nat) /\
  view_find_last_of 6 5 [97; 98; 99; 97; 98] [98; 99] (0, 4)%nat (0, 2)%nat 9 = Ok (Some 2%nat) /\
  view_find_first_not_of 6 5 [97; 98; 99; 97; 98] [98; 99] (0, 4)%nat (0, 2)%nat 1 = Ok (Some 3%nat) /\
  view_find_last_not_of 6 5 [97; 98; 99; 97; 98] [98; 99] (0, 4)%nat (0, 2)%nat 2 = Ok (Some 0%nat) /\
  view_find_last_not_of_c 6 [97; 98; 99; 97; 98] (0, 4)%nat 97 9 = Ok (Some 2%nat).
Proof.
  repeat split; try reflexivity. intros i x. do 5 (destruct i as [|i]; [cbn; congruence|]). cbn. destruct i; discriminate.
Qed.

(** ** C145: starts_with, ends_with *)
Theorem view_starts_with_character : forall m v cs c, shows m v cs ->
  exists b, starts_with_c m v c = Ok b /\ (b = true <-> is_prefix cs [c]).
Proof. exact @starts_with_c_lemma. Qed.
Print Assumptions view_starts_with_character.
Theorem view_ends_with_character : forall m v cs c, shows m v cs ->
  exists b, ends_with_c m v c = Ok b /\ (b = true <-> is_suffix cs [c]).
Proof. exact @ends_with_c_lemma. Qed.
Print Assumptions view_ends_with_character.
Theorem view_starts_with_partial : forall d m m2 v w cs ys, shows m v cs -> shows m2 w ys -> ~ In 0 ys -> (depth_bound (length ys) <= d)%nat ->
  exists b, starts_with d m m2 v w = Ok b /\ (b = true <-> is_prefix cs ys).
Proof. exact @starts_with_lemma. Qed.
Print Assumptions view_starts_with_partial.
Theorem view_ends_with_partial : forall d m m2 v w cs ys, shows m v cs -> shows m2 w ys -> ~ In 0 ys -> (depth_bound (length ys) <= d)%nat ->
  exists b, ends_with d m m2 v w = Ok b /\ (b = true <-> is_suffix cs ys).
Proof. exact @ends_with_lemma. Qed.
Print Assumptions view_ends_with_partial.
Theorem view_starts_with_refuted : forall d m m2 v w a s t, shows m v (a ++ 0 :: s) -> shows m2 w (a ++ 0 :: t) -> (length t <= length s)%nat -> ~ In 0 a ->
  (depth_bound (length (a ++ 0%Z :: t)) <= d)%nat -> starts_with d m m2 v w = Ok true.
Proof. exact @starts_with_nul_lemma. Qed.
Print Assumptions view_starts_with_refuted.
Example view_starts_ex : shows [97; 98; 99; 97; 98] (0, 4)%nat [97; 98; 99; 97] /\ shows [99; 97; 98] (0, 2)%nat [99; 97] /\
  starts_with 5 [97; 98; 99; 97; 98] [97; 98] (0, 4)%nat (0, 2)%nat = Ok true /\ starts_with 5 [97; 98; 99; 97; 98] [97; 99] (0, 4)%nat (0, 2)%nat = Ok false /\
  ends_with 5 [97; 98; 99; 97; 98] [99; 97; 98] (0, 4)%nat (0, 2)%nat = Ok true /\ ends_with 5 [97; 98; 99; 97; 98] [99; 97; 98] (0, 4)%nat (0, 3)%nat = Ok false /\
  ends_with_c [97; 98; 99; 97; 98] (0, 4)%nat 98 = Ok false /\ starts_with_c [97] (0, 0)%nat 97 = Ok false /\
  starts_with 5 [97; 0; 98] [97; 0; 99] (0, 3)%nat (0, 3)%nat = Ok true.
Proof.
  repeat split; try reflexivity; intros i x; do 5 (destruct i as [|i]; [cbn; congruence|]); cbn; destruct i; discriminate.
Qed.

(** ** C146: conversions *)
(** [rest]: what follows the view up to a null character, which has to be there *)
Theorem view_to_string_partial : forall d N m v cs rest, shows m v cs -> cstr m (fst v) (cs ++ rest) -> (depth_bound (length (cs ++ rest)) <= d)%nat ->
  to_string d N m v = built N cs.
Proof. exact @to_string_plain_lemma. Qed.
Print Assumptions view_to_string_partial.
Theorem view_to_string_null_refuted : forall d N m v a s, shows m v (a ++ 0 :: s) -> ~ In 0 a -> (depth_bound (length a) <= d)%nat ->
  to_string d N m v = built N a.
Proof. exact @to_string_nul_lemma. Qed.
Print Assumptions view_to_string_null_refuted.
Theorem view_to_string_unterminated_refuted : forall d N m v, (forall i, nth_error m (fst v + i) <> Some 0) ->
  forall r, to_string d N m v <> Ok r.
Proof. exact @to_string_open_lemma. Qed.
Print Assumptions view_to_string_unterminated_refuted.
(** string_to_int converts up to the terminator, not up to the end of the view. *)
Theorem view_to_int_partial : forall il t base m v cs rest r, sgn t = true -> base_ok base -> shows m v cs -> Forall character (cs ++ rest) ->
  cstr m (fst v) (cs ++ rest) -> (length (cs ++ rest) + 1 < r)%nat ->
  base = 0 \/ base = 16 \/ zero_x (tail_of (cs ++ rest)) = false -> denotes base (cs ++ rest) <> (true, tmax t) ->
  view_to_int il t r m v base = Ok (c_strtol t base (cs ++ rest)).
Proof. exact @view_to_int_lemma. Qed.
Print Assumptions view_to_int_partial.
Theorem view_to_int_refuted : exists m v, shows m v [49; 50] /\ view_to_int 2 (Ity true 2) 9 m v 10 = Ok 123 /\
  c_strtol (Ity true 2) 10 [49; 50] = 12.
Proof. exact @view_to_int_over_lemma. Qed.
Print Assumptions view_to_int_refuted.
Example view_conversion_ex : shows [97; 98; 99; 0] (0, 2)%nat [97; 98] /\ cstr [97; 98; 99; 0] 0 ([97; 98] ++ [99]) /\
  to_string 5 3 [97; 98; 99; 0] (0, 2)%nat = Ok (Some ([97; 98; 0; 0], 2%nat)) /\ to_string 5 3 [97; 98; 99] (0, 2)%nat = UB /\
  to_string 5 3 [97; 0; 98; 0] (0, 3)%nat = Ok (Some ([97; 0; 0; 0], 1%nat)) /\ to_string 5 1 [97; 98; 99; 0] (0, 2)%nat = Ok None.
Proof.
  repeat split; try reflexivity; try (intros i x; do 4 (destruct i as [|i]; [cbn; congruence|]); cbn; destruct i; discriminate); cbn; lia.
Qed.
