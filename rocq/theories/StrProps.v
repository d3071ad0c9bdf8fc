(** C55-C60: the functions of <cstring>.  Strings are described by [cstr]: the characters before
    the terminator; nothing is assumed about the array after it, so a result other than [UB]
    means that nothing after the terminator is read or written. *)
From Coq Require Import List Arith ZArith Lia.
From Verif Require Import Base BitModel BitSpec ShaModel SearchSpec SearchProof OrderSpec MutSpec StrModel StrSpec StrProof StrProof2 StrProof3.
Import ListNotations.
Open Scope Z_scope.

(** ** C55 *)
Theorem strlen_correct : forall d m p s, cstr m p s -> (depth_bound (length s) <= d)%nat ->
  strlen d m p = Ok (length s).
Proof. exact strlen_lemma. Qed.
Print Assumptions strlen_correct.

(** the bounded form: at most n characters are read *)
Theorem strlen_n_correct : forall d m p n s, cstr_n m p n s -> (depth_bound n <= d)%nat ->
  strlen_n d m p n = Ok (length s).
Proof. exact strlen_n_lemma. Qed.
Print Assumptions strlen_n_correct.

(** the character sought is first converted to the character type *)
Theorem strchr_correct : forall ct d m p s c, cstr m p s -> (depth_bound (length s) <= d)%nat ->
  exists r, strchr ct d m p c = Ok (option_map (Nat.add p) r) /\ first_of (eq (conv ct c)) (s ++ [0]) r.
Proof. exact strchr_lemma. Qed.
Print Assumptions strchr_correct.

Theorem strrchr_correct : forall ct d m p s c, cstr m p s -> (depth_bound (length s) <= d)%nat ->
  exists r, strrchr ct d m p c = Ok (option_map (Nat.add p) r) /\ last_of (eq (conv ct c)) (s ++ [0]) r.
Proof. exact strrchr_lemma. Qed.
Print Assumptions strrchr_correct.

(** the array may end right after the first byte sought *)
Theorem memchr_correct : forall d m p c n bs, block m p bs -> (length bs <= n)%nat ->
  ((length bs < n)%nat -> In (uchar c) bs) -> (depth_bound n <= d)%nat ->
  exists r, memchr d m p c n = Ok (option_map (Nat.add p) r) /\ first_of (eq (uchar c)) bs r.
Proof. exact memchr_lemma. Qed.
Print Assumptions memchr_correct.

Example c55_case : let m := [9; 65; 66; 65; 0] in
  cstr m 1 [65; 66; 65] /\ cstr_n m 1 2 [65; 66] /\ block m 1 [65; 66] /\
  strlen 20 m 1 = Ok 3%nat /\ strlen_n 20 m 1 2 = Ok 2%nat /\ strlen_n 20 m 1 100 = Ok 3%nat /\
  strchr (Ity true 0) 20 m 1 66 = Ok (Some 2%nat) /\ strchr (Ity true 0) 20 m 1 (65 + 256) = Ok (Some 1%nat) /\
  strchr (Ity true 0) 20 m 1 0 = Ok (Some 4%nat) /\ strchr (Ity true 0) 20 m 1 9 = Ok None /\
  strrchr (Ity true 0) 20 m 1 65 = Ok (Some 3%nat) /\ strrchr (Ity true 0) 20 m 1 0 = Ok (Some 4%nat) /\
  strrchr (Ity true 0) 20 m 1 9 = Ok None /\
  memchr 20 m 1 66 100 = Ok (Some 2%nat) /\ memchr 20 m 1 66 1 = Ok None /\ memchr 20 m 1 7 100 = UB.
Proof.
  cbv zeta. repeat apply conj; try reflexivity; try (cbn; intros; lia);
    intros [|[|[|i]]] x; cbn; intros H; try exact H; try discriminate; match goal with i : nat |- _ => destruct i; discriminate end.
Qed.

(** ** C56 *)

(** As in C when no character has the top bit set. *)
Theorem strcmp_partial : forall d m1 m2 p1 p2 s t, cstr m1 p1 s -> cstr m2 p2 t ->
  (depth_bound (Nat.min (length s) (length t)) <= d)%nat ->
  Forall (fun x => 0 <= x < 128) s -> Forall (fun x => 0 <= x < 128) t ->
  exists r, strcmp d m1 m2 p1 p2 = Ok r /\ reports r (lexcmp (map uchar s) (map uchar t)).
Proof. exact strcmp_partial_lemma. Qed.
Print Assumptions strcmp_partial.

(** In general the characters are compared as they are, not as unsigned char. *)
Theorem strcmp_compares_plain_char : forall d m1 m2 p1 p2 s t, cstr m1 p1 s -> cstr m2 p2 t ->
  (depth_bound (Nat.min (length s) (length t)) <= d)%nat ->
  exists r, strcmp d m1 m2 p1 p2 = Ok r /\ reports r (lexcmp s t).
Proof. exact strcmp_stored_lemma. Qed.
Print Assumptions strcmp_compares_plain_char.

(** So with a signed char type the result is wrong whenever a character with the top bit set meets
    one without. *)
Theorem strcmp_refuted : forall d m1 m2 p1 p2 s t x y, cstr m1 p1 (x :: s) -> cstr m2 p2 (y :: t) ->
  (depth_bound (Nat.min (length (x :: s)) (length (y :: t))) <= d)%nat -> -128 <= x < 0 -> 0 <= y < 128 ->
  exists r, strcmp d m1 m2 p1 p2 = Ok r /\ r < 0 /\ ~ reports r (lexcmp (map uchar (x :: s)) (map uchar (y :: t))).
Proof. exact strcmp_refuted_lemma. Qed.
Print Assumptions strcmp_refuted.

Theorem strncmp_partial : forall d m1 m2 p1 p2 n s t, cstr_n m1 p1 n s -> cstr_n m2 p2 n t -> (depth_bound n <= d)%nat ->
  Forall (fun x => 0 <= x < 128) s -> Forall (fun x => 0 <= x < 128) t ->
  exists r, strncmp d m1 m2 p1 p2 n = Ok r /\ reports r (lexcmp (map uchar s) (map uchar t)).
Proof. exact strncmp_partial_lemma. Qed.
Print Assumptions strncmp_partial.

Theorem strncmp_compares_plain_char : forall d m1 m2 p1 p2 n s t, cstr_n m1 p1 n s -> cstr_n m2 p2 n t ->
  (depth_bound n <= d)%nat ->
  exists r, strncmp d m1 m2 p1 p2 n = Ok r /\ reports r (lexcmp s t).
Proof. exact strncmp_lemma. Qed.
Print Assumptions strncmp_compares_plain_char.

Theorem strncmp_refuted : forall d m1 m2 p1 p2 n s t x y, cstr_n m1 p1 n (x :: s) -> cstr_n m2 p2 n (y :: t) ->
  (depth_bound n <= d)%nat -> -128 <= x < 0 -> 0 <= y < 128 ->
  exists r, strncmp d m1 m2 p1 p2 n = Ok r /\ r < 0 /\ ~ reports r (lexcmp (map uchar (x :: s)) (map uchar (y :: t))).
Proof. exact strncmp_refuted_lemma. Qed.
Print Assumptions strncmp_refuted.

(** memcmp compares the bytes, which are unsigned. *)
Theorem memcmp_correct : forall d m1 m2 p1 p2 s t n, block m1 p1 s -> block m2 p2 t -> length s = n -> length t = n ->
  (p1 <= length m1)%nat -> (p2 <= length m2)%nat -> (depth_bound n <= d)%nat ->
  exists r, memcmp d m1 m2 p1 p2 n = Ok r /\ reports r (lexcmp s t).
Proof. exact memcmp_lemma. Qed.
Print Assumptions memcmp_correct.

Example c56_case : let a := [65; 66; 0] in let b := [65; 66; 67; 0] in let x := [-1; 0] in
  cstr a 0 [65; 66] /\ cstr b 0 [65; 66; 67] /\ cstr x 0 [-1] /\ cstr_n b 0 2 [65; 66] /\
  strcmp 20 a b 0 0 = Ok (-1) /\ strcmp 20 b a 0 0 = Ok 1 /\ strcmp 20 a a 0 0 = Ok 0 /\ strcmp 20 x a 0 0 = Ok (-1) /\
  strncmp 20 a b 0 0 2 = Ok 0 /\ strncmp 20 a b 0 0 3 = Ok (-1) /\ strncmp 20 x a 0 0 50 = Ok (-1) /\
  memcmp 20 a b 0 0 3 = Ok (-1) /\ memcmp 20 a b 0 0 2 = Ok 0.
Proof.
  cbv zeta. repeat apply conj; try reflexivity; try (cbn; intros; lia);
    intros [|[|[|i]]] y; cbn; intros H; try exact H; try discriminate; match goal with i : nat |- _ => destruct i; discriminate end.
Qed.

(** ** C57 *)
Theorem strspn_correct : forall d d2 m1 m2 p1 p2 s t, cstr m1 p1 s -> cstr m2 p2 t ->
  (depth_bound (length s) <= d)%nat -> (depth_bound (length t) <= d2)%nat ->
  exists n, strspn d d2 m1 m2 p1 p2 = Ok n /\ prefix_len (fun x => In x t) s n.
Proof. exact (span_lemma true). Qed.
Print Assumptions strspn_correct.

Theorem strcspn_correct : forall d d2 m1 m2 p1 p2 s t, cstr m1 p1 s -> cstr m2 p2 t ->
  (depth_bound (length s) <= d)%nat -> (depth_bound (length t) <= d2)%nat ->
  exists n, strcspn d d2 m1 m2 p1 p2 = Ok n /\ prefix_len (fun x => ~ In x t) s n.
Proof. exact (span_lemma false). Qed.
Print Assumptions strcspn_correct.

Theorem strpbrk_correct : forall ct d d2 m1 m2 p1 p2 s t, cstr m1 p1 s -> cstr m2 p2 t -> Forall (is_val ct) s ->
  (depth_bound (length s) <= d)%nat -> (depth_bound (length t) <= d2)%nat ->
  exists r, strpbrk ct d d2 m1 m2 p1 p2 = Ok (option_map (Nat.add p1) r) /\ first_of (fun x => In x t) s r.
Proof. exact strpbrk_lemma. Qed.
Print Assumptions strpbrk_correct.

Example c57_case : let a := [65; 66; 67; 0] in let b := [66; 65; 0] in let x := [67; 0] in
  cstr a 0 [65; 66; 67] /\ cstr b 0 [66; 65] /\ cstr x 0 [67] /\ Forall (is_val (Ity true 0)) [65; 66; 67] /\
  strspn 20 20 a b 0 0 = Ok 2%nat /\ strcspn 20 20 a x 0 0 = Ok 2%nat /\ strcspn 20 20 a b 0 0 = Ok 0%nat /\
  strspn 20 20 b a 0 0 = Ok 2%nat /\
  strpbrk (Ity true 0) 20 20 a x 0 0 = Ok (Some 2%nat) /\ strpbrk (Ity true 0) 20 20 b x 0 0 = Ok None.
Proof.
  cbv zeta. repeat apply conj; try reflexivity; try (cbn; intros; lia); try (repeat constructor; cbn; lia);
    intros [|[|[|i]]] y; cbn; intros H; try exact H; try discriminate; match goal with i : nat |- _ => destruct i; discriminate end.
Qed.

(** ** C58 *)

(** Missing: both strings empty. *)
Theorem strstr_partial : forall d d2 m1 m2 p1 p2 s t, cstr m1 p1 s -> cstr m2 p2 t -> s <> [] \/ t <> [] ->
  (depth_bound (length s) <= d)%nat -> (depth_bound (length t) <= d2)%nat ->
  exists r, strstr d d2 m1 m2 p1 p2 = Ok (option_map (Nat.add p1) r) /\ first_occurrence s t r.
Proof. exact strstr_lemma. Qed.
Print Assumptions strstr_partial.

(** strstr("", "") is null, though the empty string occurs at index 0. *)
Theorem strstr_refuted : forall d d2 m1 m2 p1 p2, cstr m1 p1 [] -> cstr m2 p2 [] ->
  strstr d d2 m1 m2 p1 p2 = Ok None /\ first_occurrence [] [] (Some 0%nat).
Proof. exact strstr_empty_lemma. Qed.
Print Assumptions strstr_refuted.

Example c58_case : let a := [65; 65; 66; 65; 66; 67; 0] in let b := [65; 66; 67; 0] in let x := [67; 65; 0] in let e := [0] in
  cstr a 0 [65; 65; 66; 65; 66; 67] /\ cstr b 0 [65; 66; 67] /\ cstr x 0 [67; 65] /\ cstr e 0 [] /\
  strstr 20 20 a b 0 0 = Ok (Some 3%nat) /\ strstr 20 20 a x 0 0 = Ok None /\ strstr 20 20 a e 0 0 = Ok (Some 0%nat) /\
  strstr 20 20 e a 0 0 = Ok None /\ strstr 20 20 e e 0 0 = Ok None.
Proof.
  cbv zeta. repeat apply conj; try reflexivity; try (cbn; intros; lia);
    intros [|[|[|[|[|[|i]]]]]] y; cbn; intros H; try exact H; try discriminate; match goal with i : nat |- _ => destruct i; discriminate end.
Qed.

(** ** C59 *)
Theorem strcpy_correct : forall k m s1 s2 s, cstr m s2 s -> (s1 <= s2 \/ s2 + length s < s1)%nat ->
  (s1 + length s < length m)%nat -> (length s < k)%nat -> strcpy k m s1 s2 = Ok (paste m s1 (s ++ [0]), s1).
Proof. exact strcpy_lemma. Qed.
Print Assumptions strcpy_correct.

Theorem strncpy_correct : forall k m s1 s2 n s, cstr_n m s2 n s ->
  (s1 <= s2 \/ s2 + Nat.min n (S (length s)) <= s1)%nat -> (s1 + n <= length m)%nat -> (n < k)%nat ->
  strncpy k m s1 s2 n = Ok (paste m s1 (s ++ repeat 0 (n - length s)), s1).
Proof. exact strncpy_lemma. Qed.
Print Assumptions strncpy_correct.

(** strcat writes one position too far: after the terminator of the first string, which stays, so
    that nothing is appended. *)
Theorem strcat_refuted : forall k m s1 s2 s t, cstr m s1 s -> cstr m s2 t ->
  (s1 + length s < s2 \/ s2 + length t <= s1 + length s)%nat ->
  (s1 + length s + 1 + length t < length m)%nat -> (length s < k)%nat -> (length t < k)%nat ->
  let m' := paste m (s1 + length s + 1) (t ++ [0]) in
  strcat k m s1 s2 = Ok (m', s1) /\ cstr m' s1 s.
Proof. exact strcat_lemma. Qed.
Print Assumptions strcat_refuted.

(** With a buffer that just holds the result it writes past the end. *)
Theorem strcat_overrun_refuted : forall k m s1 s2 s t, cstr m s1 s -> cstr m s2 t ->
  (s2 + length t < s1)%nat ->
  length m = (s1 + length s + length t + 1)%nat -> (length s < k)%nat -> (length t < k)%nat ->
  strcat k m s1 s2 = UB.
Proof. exact strcat_overrun_lemma. Qed.
Print Assumptions strcat_overrun_refuted.

(** strncat is right when the source is cut off. *)
Theorem strncat_partial : forall k m s1 s2 n s t, cstr m s1 s -> cstr_n m s2 n t -> length t = n ->
  (s1 + length s < s2 \/ s2 + length t <= s1 + length s)%nat ->
  (s1 + length s + length t < length m)%nat -> (length s < k)%nat -> (n < k)%nat ->
  strncat k m s1 s2 n = Ok (paste m (s1 + length s) (t ++ [0]), s1).
Proof. exact strncat_partial_lemma. Qed.
Print Assumptions strncat_partial.

(** Otherwise it writes a second terminator, past the end of a buffer that just holds the result. *)
Theorem strncat_refuted : forall k m s1 s2 n s t, cstr m s1 s -> cstr_n m s2 n t -> (length t < n)%nat ->
  (s1 + length s < s2 \/ s2 + length t < s1 + length s)%nat -> (length s < k)%nat -> (n < k)%nat ->
  ((s1 + length s + length t + 1 < length m)%nat ->
     strncat k m s1 s2 n = Ok (paste m (s1 + length s) (t ++ [0; 0]), s1)) /\
  (length m = (s1 + length s + length t + 1)%nat -> strncat k m s1 s2 n = UB).
Proof. exact strncat_refuted_lemma. Qed.
Print Assumptions strncat_refuted.

Example c59_case : let m := [65; 66; 0; 67; 0; 1; 2; 3] in
  cstr m 0 [65; 66] /\ cstr m 3 [67] /\ cstr_n m 0 1 [65] /\
  strcpy 9 m 5 0 = Ok ([65; 66; 0; 67; 0; 65; 66; 0], 5%nat) /\
  strncpy 9 m 5 3 3 = Ok ([65; 66; 0; 67; 0; 67; 0; 0], 5%nat) /\
  strncpy 9 m 5 0 1 = Ok ([65; 66; 0; 67; 0; 65; 2; 3], 5%nat) /\
  strcat 9 m 3 0 = Ok ([65; 66; 0; 67; 0; 65; 66; 0], 3%nat) /\ cstr [65; 66; 0; 67; 0; 65; 66; 0] 3 [67] /\
  strcat 9 [65; 66; 0; 67; 0; 1; 2] 3 0 = UB /\
  strncat 9 m 3 0 1 = Ok ([65; 66; 0; 67; 65; 0; 2; 3], 3%nat) /\
  strncat 9 m 3 0 3 = Ok ([65; 66; 0; 67; 65; 66; 0; 0], 3%nat) /\ strncat 9 [65; 66; 0; 67; 0; 1; 2] 3 0 3 = UB.
Proof.
  cbv zeta. repeat apply conj; try reflexivity; try (cbn; intros; lia);
    intros [|[|[|i]]] y; cbn; intros H; try exact H; try discriminate; match goal with i : nat |- _ => destruct i; discriminate end.
Qed.

(** ** C60 *)
Theorem memcpy_correct : forall k m s1 s2 n, (s2 + n <= length m)%nat -> (s1 + n <= length m)%nat ->
  (s1 <= s2 \/ s2 + n <= s1)%nat -> (n < k)%nat ->
  memcpy k m s1 s2 n = Ok (paste m s1 (slice m s2 (s2 + n)), s1).
Proof. exact memcpy_lemma. Qed.
Print Assumptions memcpy_correct.

(** memmove passes the beginning of the destination where its end is needed: it writes the n bytes
    before the destination. *)
Theorem memmove_refuted : forall k m s1 s2 n, (s2 + n <= length m)%nat -> (n <= s1 <= length m)%nat ->
  (s2 + n <= s1 \/ s1 <= s2)%nat -> (n < k)%nat ->
  memmove k m s1 s2 n = Ok (paste m (s1 - n) (slice m s2 (s2 + n)), s1).
Proof. exact memmove_before_lemma. Qed.
Print Assumptions memmove_refuted.

(** and it writes before the array if there are no n bytes there. *)
Theorem memmove_underrun_refuted : forall k m s1 s2 n, (s2 + n <= length m)%nat -> (s1 + n <= length m)%nat ->
  (s1 < n)%nat -> (n < k)%nat -> memmove k m s1 s2 n = UB.
Proof. exact memmove_under_lemma. Qed.
Print Assumptions memmove_underrun_refuted.

Theorem memset_correct : forall k m s c n, (s + n <= length m)%nat -> (n < k)%nat ->
  memset k m s c n = Ok (paste m s (repeat (uchar c) n), s).
Proof. exact memset_lemma. Qed.
Print Assumptions memset_correct.

Example c60_case : let m := [1; 2; 3; 4; 5] in
  memcpy 9 m 0 1 3 = Ok ([2; 3; 4; 4; 5], 0%nat) /\ memcpy 9 m 3 1 2 = Ok ([1; 2; 3; 2; 3], 3%nat) /\
  memmove 9 m 3 3 2 = Ok ([1; 4; 5; 4; 5], 3%nat) /\ memmove 9 m 1 2 2 = UB /\
  memset 9 m 1 (-1) 2 = Ok ([1; 255; 255; 4; 5], 1%nat).
Proof. repeat apply conj; reflexivity. Qed.
