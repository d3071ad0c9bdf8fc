(** Proofs about BstrModel.v: the modifiers. *)
From Coq Require Import List Arith ZArith Bool Lia.
From Coq Require Import ZifyBool ZifyNat.
From Verif Require Import Base BaseProof ListFacts SearchModel SearchSpec SearchProof OrderSpec OrderProof MutModel MutSpec MutProof
  MutProof2 MutProof4 BsModel StrModel StrSpec StrProof StrProof3 BstrModel BstrSpec.
Import ListNotations.
Open Scope Z_scope.

Ltac mem_eq :=
  match goal with
  | |- Ok (?a, _, _) = Ok (?c, _, _) => cut (a = c); [intros ->; reflexivity|]
  | |- Ok (?a, _) = Ok (?c, _) => cut (a = c); [intros ->; reflexivity|]
  end.

Lemma lst_ext (l k : list Z) : length l = length k -> (forall i, (i < length l)%nat -> nth i l 0 = nth i k 0) -> l = k.
Proof. intros L H. apply (nth_ext l k 0 0 L H). Qed.

Lemma ne_firstn {A} (l : list A) n : forall i, (i < n)%nat -> nth_error (firstn n l) i = nth_error l i.
Proof.
  revert l. induction n as [|n IH]; intros [|x l] [|i] H; cbn; try lia; try reflexivity. apply IH. lia.
Qed.
Lemma ne_skipn {A} (l : list A) n : forall i, nth_error (skipn n l) i = nth_error l (n + i).
Proof. revert l. induction n as [|n IH]; intros [|x l] i; cbn; try reflexivity; [now destruct i|apply IH]. Qed.

Lemma nth_ne (l : list Z) i : nth i l 0 = match nth_error l i with Some x => x | None => 0 end.
Proof. revert i. induction l as [|x l IH]; intros [|i]; cbn; auto. Qed.

Lemma paste_nth m p ws i : (p + length ws <= length m)%nat ->
  nth i (paste m p ws) 0 = if ((p <=? i) && (i <? p + length ws))%nat then nth (i - p) ws 0 else nth i m 0.
Proof.
  intros H. rewrite !nth_ne. destruct (Nat.leb_spec p i); destruct (Nat.ltb_spec i (p + length ws)); cbn [andb].
  - now rewrite nth_paste_in by lia.
  - now rewrite nth_paste_out by lia.
  - now rewrite nth_paste_out by lia.
  - now rewrite nth_paste_out by lia.
Qed.

Lemma nth_pad (cs : list Z) n j : nth j (cs ++ repeat 0 n) 0 = nth j cs 0.
Proof.
  destruct (Nat.lt_ge_cases j (length cs)) as [C|C].
  - now rewrite app_nth1.
  - rewrite app_nth2, (nth_overflow cs) by lia. apply nth_repeat.
Qed.

Lemma image_nth N cs j : nth j (image N cs) 0 = nth j cs 0.
Proof. apply nth_pad. Qed.
Lemma image_length N cs : (length cs <= N)%nat -> length (image N cs) = (N + 1)%nat.
Proof. intros H. unfold image. rewrite app_length, repeat_length. lia. Qed.

Lemma holds_nth m b N len cs j : holds m b N len cs -> (j <= N)%nat -> nth (b + j) m 0 = nth j cs 0.
Proof.
  intros (H1 & H2 & H3 & H4) J. rewrite <- (image_nth N cs). rewrite (nth_ne m).
  rewrite (H4 j (nth j (image N cs) 0)); [reflexivity|].
  apply ok_nth. rewrite image_length by lia. lia.
Qed.

(** the resulting memory, element by element *)
Lemma put_ok m b N cs m2 : length m2 = length m -> (b + N + 1 <= length m)%nat -> (length cs <= N)%nat ->
  (forall i, (i < length m)%nat -> nth i m2 0 = if ((b <=? i) && (i <? b + N + 1))%nat then nth (i - b) cs 0 else nth i m 0) ->
  m2 = paste m b (image N cs).
Proof.
  intros L B C H. pose proof (image_length N cs C) as I. apply lst_ext; [rewrite paste_length; lia|].
  intros i Hi. rewrite H by lia. rewrite paste_nth by lia. rewrite image_nth, I.
  now replace (b + (N + 1))%nat with (b + N + 1)%nat by lia.
Qed.

Lemma paste_length' {A} (m : list A) p ws n : length ws = n -> (p + n <= length m)%nat -> length (paste m p ws) = length m.
Proof. intros <- H. now apply paste_length. Qed.

(** put_terminator after [ws] was written behind the first [p] characters *)
Lemma finish_ok k m b N len cs p ws n :
  holds m b N len cs -> (p <= len)%nat -> n = (p + length ws)%nat -> (n <= N)%nat -> (N < k)%nat ->
  put_terminator k (paste m (b + p) ws) b len n = Ok (put m b N (firstn p cs ++ ws)).
Proof.
  intros H P E NN K. pose proof (fun j => holds_nth _ _ _ _ _ j H) as HN. destruct H as (H1 & H2 & H3 & _).
  assert (Lc : length (firstn p cs ++ ws) = n) by (rewrite app_length, firstn_length; lia).
  assert (HC : forall j, nth j (firstn p cs ++ ws) 0 = if (j <? p)%nat then nth j cs 0 else nth (j - p) ws 0).
  { intros j. destruct (Nat.ltb_spec j p).
    - rewrite app_nth1 by (rewrite firstn_length; lia). rewrite !nth_ne. now rewrite ne_firstn.
    - rewrite app_nth2 by (rewrite firstn_length; lia). rewrite firstn_length. now replace (Nat.min p (length cs)) with p by lia. }
  assert (R : forall m2, length m2 = length m ->
     (forall i, (i < length m)%nat -> nth i m2 0 = if ((b + n <=? i) && (i <? b + len))%nat then 0 else nth i (paste m (b + p) ws) 0) ->
     m2 = paste m b (image N (firstn p cs ++ ws))).
  { intros m2 L2 H'. apply put_ok; try lia. intros i Hi. rewrite H' by lia. rewrite paste_nth by lia. rewrite HC.
    specialize (HN (i - b)%nat).
    destruct (Nat.leb_spec b i); destruct (Nat.ltb_spec i (b + N + 1)); cbn [andb].
    - replace (b + (i - b))%nat with i in HN by lia.
      destruct (Nat.leb_spec (b + n) i); destruct (Nat.ltb_spec i (b + len)); destruct (Nat.leb_spec (b + p) i);
        destruct (Nat.ltb_spec i (b + p + length ws)); destruct (Nat.ltb_spec (i - b) p); cbn [andb]; try lia;
        try (rewrite nth_overflow by lia; reflexivity); try (f_equal; lia); try (apply HN; lia).
      rewrite (nth_overflow ws) by lia. rewrite HN by lia. now rewrite nth_overflow by lia.
    - destruct (Nat.leb_spec (b + n) i); destruct (Nat.ltb_spec i (b + len)); destruct (Nat.leb_spec (b + p) i);
        destruct (Nat.ltb_spec i (b + p + length ws)); cbn [andb]; try lia; reflexivity.
    - destruct (Nat.leb_spec (b + n) i); destruct (Nat.ltb_spec i (b + len)); destruct (Nat.leb_spec (b + p) i);
        destruct (Nat.ltb_spec i (b + p + length ws)); cbn [andb]; try lia; reflexivity.
    - lia. }
  assert (Lp : length (paste m (b + p) ws) = length m) by (apply paste_length; lia).
  unfold put_terminator, put. rewrite Lc. destruct (Nat.ltb_spec n len) as [C|C].
  - unfold traits_assign. rewrite fill_correct_lemma by (unfold valid; lia). cbn [bind]. mem_eq. apply R.
    + rewrite (paste_length' _ _ _ (len - n)); [exact Lp| |lia]. rewrite repeat_length. lia.
    + intros i Hi. rewrite paste_nth by (rewrite repeat_length; lia). rewrite repeat_length.
      replace (b + n + (b + n + (len - n) - (b + n)))%nat with (b + len)%nat by lia.
      destruct ((b + n <=? i) && (i <? b + len))%nat; [apply nth_repeat|reflexivity].
  - cbn [bind]. mem_eq. apply R; [exact Lp|]. intros i Hi.
    replace ((b + n <=? i) && (i <? b + len))%nat with false by lia. reflexivity.
Qed.

(** ** Where the characters come from *)
Lemma block_slice m s xs : block m s xs -> (s + length xs <= length m)%nat -> slice m s (s + length xs) = xs.
Proof.
  intros H L. apply list_ext. intros j. destruct (Nat.lt_ge_cases j (length xs)) as [C|C].
  - rewrite nth_error_slice by lia. rewrite (block_nth m s xs) by assumption. symmetry. now apply ok_nth.
  - rewrite (proj2 (nth_error_None xs j) C). apply nth_error_None. rewrite slice_length by lia. lia.
Qed.

Lemma traits_move_ok k m p s xs : block m s xs -> (s + length xs <= length m)%nat ->
  (s <= p \/ p + length xs <= s)%nat -> (p + length xs <= length m)%nat -> (length xs < k)%nat ->
  traits_move k m p s (length xs) = Ok (paste m p xs).
Proof.
  intros H L S P K. unfold traits_move. rewrite copy_backward_correct_lemma; unfold valid, backward_safe; try lia.
  cbn [bind fst]. rewrite block_slice by assumption. do 2 f_equal. lia.
Qed.

Lemma traits_assign_ok k m p n c : (p + n <= length m)%nat -> (n < k)%nat ->
  traits_assign k m p n c = Ok (paste m p (repeat c n)).
Proof.
  intros P K. unfold traits_assign. rewrite fill_correct_lemma by (unfold valid; lia). do 3 f_equal. lia.
Qed.

Lemma addz_id M a b : (a + b < M)%nat -> addz M a b = (a + b)%nat.
Proof. intros H. apply Nat.mod_small. exact H. Qed.
Lemma subz_id M a b : (b <= a < M)%nat -> subz M a b = (a - b)%nat.
Proof.
  intros H. unfold subz. replace (a + M - b)%nat with (a - b + 1 * M)%nat by lia.
  rewrite Nat.mod_add by lia. apply Nat.mod_small. lia.
Qed.

Lemma firstn_len {A} (l : list A) n : n = length l -> firstn n l = l.
Proof. intros ->. apply firstn_all. Qed.

(** ** append *)
Section Modifiers.
  Variables (k : nat) (m : list Z) (b N len : nat) (cs : list Z).
  Hypothesis H : holds m b N len cs.
  Hypothesis K : (N < k)%nat.

  Lemma append_n_lemma M s xs : block m s xs -> (s + length xs <= length m)%nat ->
    apart b N s (length xs) \/ inside b len s (length xs) -> (len + length xs < M)%nat ->
    append_n k M N m b len s (length xs) = becomes m b N len (cs ++ xs).
  Proof.
    intros B L A W. pose proof H as (H1 & H2 & H3 & _). unfold append_n, becomes, throw, ret.
    rewrite addz_id by exact W. rewrite app_length, <- H1.
    destruct (Nat.ltb_spec N (len + length xs)) as [C|C].
    { replace (len + length xs <=? N)%nat with false by lia. reflexivity. }
    replace (len + length xs <=? N)%nat with true by lia.
    rewrite traits_move_ok; try assumption; unfold apart, inside in *; try lia. cbn [bind].
    rewrite (finish_ok k m b N len cs len xs) by (assumption || lia). cbn [bind]. now rewrite firstn_len.
  Qed.

  Lemma append_cstr_lemma d M s xs : cstr m s xs -> apart b N s (length xs) \/ inside b len s (length xs) ->
    (len + length xs < M)%nat -> (depth_bound (length xs) <= d)%nat ->
    append_cstr k d M N m b len s = becomes m b N len (cs ++ xs).
  Proof.
    intros C A W D. unfold append_cstr, traits_length. rewrite (strlen_lemma d m s xs C D). cbn [bind].
    destruct C as (C1 & C2 & _). apply append_n_lemma; try assumption.
    assert (s + length xs < length m)%nat by (apply nth_error_Some; congruence). lia.
  Qed.

  Lemma holds_block b2 N2 len2 cs2 : holds m b2 N2 len2 cs2 -> block m b2 cs2.
  Proof.
    intros (E & L & B & I) i x X. apply I. unfold image. rewrite nth_error_app1; [exact X|].
    apply nth_error_Some. congruence.
  Qed.
  Lemma block_skip b2 xs pos n : block m b2 xs -> block m (b2 + pos) (sub xs pos n).
  Proof.
    intros B i x X. unfold sub in X. replace (b2 + pos + i)%nat with (b2 + (pos + i))%nat by lia. apply B.
    assert (I : (i < n)%nat).
    { destruct (Nat.lt_ge_cases i n); [assumption|]. exfalso.
      assert (nth_error (firstn n (skipn pos xs)) i <> None) by congruence. apply nth_error_Some in H1.
      rewrite firstn_length in H1. lia. }
    rewrite ne_firstn in X by exact I. now rewrite ne_skipn in X.
  Qed.

  Lemma append_string_lemma M b2 N2 len2 cs2 : holds m b2 N2 len2 cs2 ->
    (b2 + N2 + 1 <= b \/ b + N + 1 <= b2)%nat \/ (b2 = b /\ len2 = len) -> (len + len2 < M)%nat ->
    append_string k M N m b len b2 len2 = becomes m b N len (cs ++ cs2).
  Proof.
    intros H2 A W. pose proof H2 as (E & L & B & _). unfold append_string. subst len2.
    apply append_n_lemma; [eapply holds_block; eassumption|lia| |exact W].
    unfold apart, inside. destruct A as [A|(-> & A)]; [left; lia|right; lia].
  Qed.

  Lemma sub_length xs pos n : length (sub xs pos n) = Nat.min n (length xs - pos).
  Proof. unfold sub. now rewrite firstn_length, skipn_length. Qed.
  Lemma rlen_ok M xs pos n : (pos <= length xs < M)%nat -> (n < M)%nat -> rlen M (length xs) pos n = length (sub xs pos n).
  Proof.
    intros P NN. unfold rlen. rewrite subz_id by lia. rewrite sub_length. unfold npos.
    destruct (Nat.eqb_spec n (M - 1)); cbn [negb]; lia.
  Qed.

  Lemma append_sub_lemma M b2 N2 len2 cs2 pos n : holds m b2 N2 len2 cs2 ->
    (b2 + N2 + 1 <= b \/ b + N + 1 <= b2)%nat \/ (b2 = b /\ len2 = len) -> (len + len2 < M)%nat -> (n < M)%nat ->
    (pos < len2)%nat ->
    append_sub k M N m b len b2 len2 pos n = becomes m b N len (cs ++ sub cs2 pos n).
  Proof.
    intros H2 A W NN P. pose proof H2 as (E & L & B & _). unfold append_sub, rangecheck. subst len2.
    replace (length cs2 <=? pos)%nat with false by lia. rewrite rlen_ok by lia.
    pose proof (sub_length cs2 pos n) as SL.
    apply append_n_lemma; [apply block_skip; eapply holds_block; eassumption|lia| |lia].
    unfold apart, inside. destruct A as [A|(-> & A)]; [left; lia|right; lia].
  Qed.

  Lemma append_sub_end_lemma M b2 len2 n :
    append_sub k M N m b len b2 len2 len2 n = Ok (m, len, Some Out_of_range_error).
  Proof. unfold append_sub, rangecheck. now rewrite Nat.leb_refl. Qed.

  Lemma append_fill_lemma M n c : (len + n < M)%nat ->
    append_fill k M N m b len n c = becomes m b N len (cs ++ repeat c n).
  Proof.
    intros W. pose proof H as (H1 & H2 & H3 & _). unfold append_fill, becomes, throw, ret.
    rewrite addz_id by exact W. rewrite app_length, <- H1, repeat_length.
    destruct (Nat.ltb_spec N (len + n)) as [C|C].
    { replace (len + n <=? N)%nat with false by lia. reflexivity. }
    replace (len + n <=? N)%nat with true by lia.
    rewrite traits_assign_ok by lia. cbn [bind].
    rewrite (finish_ok k m b N len cs len) by (assumption || rewrite ?repeat_length; lia). cbn [bind]. now rewrite firstn_len.
  Qed.

  Lemma push_back_lemma M c : (N + 1 < M)%nat -> push_back k M N m b len c = becomes m b N len (cs ++ [c]).
  Proof. intros W. pose proof H as (H1 & H2 & _). unfold push_back. rewrite append_fill_lemma by lia. reflexivity. Qed.

  (** ** assign *)
  Lemma assign_n_lemma s xs : block m s xs -> (s + length xs <= length m)%nat ->
    apart b N s (length xs) \/ s = b \/ (b + length xs <= s)%nat ->
    assign_n k N m b len s (length xs) = becomes m b N len xs.
  Proof.
    intros B L A. pose proof H as (H1 & H2 & H3 & _). unfold assign_n, becomes, throw, ret.
    destruct (Nat.ltb_spec N (length xs)) as [C|C].
    { replace (length xs <=? N)%nat with false by lia. reflexivity. }
    replace (length xs <=? N)%nat with true by lia.
    rewrite traits_move_ok; try assumption; unfold apart in *; try lia. cbn [bind].
    replace b with (b + 0)%nat at 1 by lia.
    rewrite (finish_ok k m b N len cs 0 xs) by (assumption || lia). reflexivity.
  Qed.

  Lemma assign_cstr_lemma d s xs : cstr m s xs -> apart b N s (length xs) \/ s = b \/ (b + length xs <= s)%nat ->
    (depth_bound (length xs) <= d)%nat -> assign_cstr k d N m b len s = becomes m b N len xs.
  Proof.
    intros C A D. unfold assign_cstr, traits_length. rewrite (strlen_lemma d m s xs C D). cbn [bind].
    destruct C as (C1 & C2 & _). apply assign_n_lemma; try assumption.
    assert (s + length xs < length m)%nat by (apply nth_error_Some; congruence). lia.
  Qed.

  Lemma assign_sub_lemma M b2 N2 len2 cs2 pos n : holds m b2 N2 len2 cs2 ->
    (b2 + N2 + 1 <= b \/ b + N + 1 <= b2)%nat \/ (b2 = b /\ pos = 0%nat) -> (len2 < M)%nat -> (n < M)%nat ->
    (pos < len2)%nat ->
    assign_sub k M N m b len b2 len2 pos n = becomes m b N len (sub cs2 pos n).
  Proof.
    intros H2 A W NN P. pose proof H2 as (E & L & B & _). unfold assign_sub, rangecheck. subst len2.
    replace (length cs2 <=? pos)%nat with false by lia. rewrite rlen_ok by lia.
    pose proof (sub_length cs2 pos n) as SL.
    apply assign_n_lemma; [apply block_skip; eapply holds_block; eassumption|lia|].
    unfold apart. destruct A as [A|(-> & ->)]; lia.
  Qed.

  Lemma sub_all xs n : (length xs <= n)%nat -> sub xs 0 n = xs.
  Proof. intros L. unfold sub. cbn [skipn]. now rewrite firstn_all2. Qed.

  Lemma assign_string_lemma M b2 N2 len2 cs2 : holds m b2 N2 len2 cs2 ->
    (b2 + N2 + 1 <= b \/ b + N + 1 <= b2)%nat \/ b2 = b -> (len2 < M)%nat -> cs2 <> [] ->
    assign_string k M N m b len b2 len2 = becomes m b N len cs2.
  Proof.
    intros H2 A W Ne. pose proof H2 as (E & L & B & _). unfold assign_string.
    assert (0 < len2)%nat by (destruct cs2; [congruence|cbn in E; lia]).
    rewrite (assign_sub_lemma M b2 N2 len2 cs2) by (try assumption; unfold npos; try lia).
    now rewrite sub_all by (unfold npos; lia).
  Qed.
  Lemma assign_string_empty_lemma M b2 : assign_string k M N m b len b2 0 = Ok (m, len, Some Out_of_range_error).
  Proof. reflexivity. Qed.

  Lemma assign_fill_lemma n c : (n <= N)%nat -> assign_fill k N m b len n c = becomes m b N len (repeat c n).
  Proof.
    intros L. pose proof H as (H1 & H2 & H3 & _). unfold assign_fill, becomes, throw, ret. rewrite repeat_length.
    replace (N <? n)%nat with false by lia. replace (n <=? N)%nat with true by lia.
    rewrite traits_assign_ok by lia. cbn [bind]. replace b with (b + 0)%nat at 1 by lia.
    rewrite (finish_ok k m b N len cs 0) by (assumption || rewrite ?repeat_length; lia). reflexivity.
  Qed.
  Lemma assign_fill_long_lemma n c : (N < n)%nat -> assign_fill k N m b len n c = Ok (m, len, Some Out_of_range_error).
  Proof. intros L. unfold assign_fill. now replace (N <? n)%nat with true by lia. Qed.

End Modifiers.

(** ** Input and forward ranges *)
Lemma write_input_lemma N b xs : forall m it, (b + N + 1 <= length m)%nat -> (b <= it <= b + N + 1)%nat ->
  write_input N m b it xs =
    if (it - b + length xs <=? N + 1)%nat then Ok (paste m it xs, (it + length xs)%nat, true)
    else Ok (paste m it (firstn (N + 1 - (it - b)) xs), (b + N + 1)%nat, false).
Proof.
  induction xs as [|x xs IH]; intros m it L B; cbn [write_input length].
  - rewrite paste_nil. replace (it - b + 0 <=? N + 1)%nat with true by lia. now rewrite Nat.add_0_r.
  - destruct (Nat.ltb_spec N (it - b)) as [C|C].
    + replace (it - b + S (length xs) <=? N + 1)%nat with false by lia.
      replace (N + 1 - (it - b))%nat with 0%nat by lia. cbn [firstn]. rewrite paste_nil. do 3 f_equal. lia.
    + rewrite StrProof3.wr_ok by lia. cbn [bind]. rewrite IH by (rewrite ?upd_length; lia).
      replace (S it - b + length xs <=? N + 1)%nat with (it - b + S (length xs) <=? N + 1)%nat by lia.
      destruct (Nat.leb_spec (it - b + S (length xs)) (N + 1)) as [D|D].
      * rewrite paste_step by lia. do 3 f_equal. lia.
      * replace (N + 1 - (it - b))%nat with (S (N + 1 - (S it - b))) by lia. cbn [firstn].
        rewrite paste_step; [reflexivity|]. rewrite firstn_length. lia.
Qed.

Lemma write_forward_lemma k m it first last : valid m first last -> forward_safe first last it ->
  (it + (last - first) <= length m)%nat -> (last - first < k)%nat ->
  write_forward k m it first last = Ok (paste m it (slice m first last), (it + (last - first))%nat).
Proof. intros. unfold write_forward. now apply (copy_correct_lemma k m first last it). Qed.

Section Ranges.
  Variables (k : nat) (m : list Z) (b N len : nat) (cs : list Z).
  Hypothesis H : holds m b N len cs.
  Hypothesis K : (N < k)%nat.

  Lemma assign_input_lemma xs : length xs <> (N + 1)%nat ->
    assign_input k N m b len xs =
      if (length xs <=? N)%nat then Ok (put m b N xs, None)
      else Ok (paste m b (firstn (N + 1) xs), len, Some Length_error).
  Proof.
    intros E. pose proof H as (H1 & H2 & H3 & _). unfold assign_input, ret, throw.
    rewrite write_input_lemma by lia. rewrite Nat.sub_diag, Nat.sub_0_r. cbn [Nat.add].
    replace (length xs <=? N + 1)%nat with (length xs <=? N)%nat by lia.
    destruct (Nat.leb_spec (length xs) N); cbn [bind]; [|reflexivity].
    replace b with (b + 0)%nat at 1 by lia.
    rewrite (finish_ok k m b N len cs 0 xs) by (assumption || lia). reflexivity.
  Qed.
  Lemma assign_input_over_lemma xs : length xs = (N + 1)%nat ->
    assign_input k N m b len xs = Ok (paste m b xs, (N + 1)%nat, None).
  Proof.
    intros E. pose proof H as (H1 & H2 & H3 & _). unfold assign_input, ret, throw.
    rewrite write_input_lemma by lia. rewrite Nat.sub_diag. cbn [Nat.add].
    replace (length xs <=? N + 1)%nat with true by lia. cbn [bind].
    unfold put_terminator. replace (b + length xs - b <? len)%nat with false by lia. cbn [bind]. do 3 f_equal. lia.
  Qed.

  Lemma append_input_lemma xs : (len + length xs)%nat <> (N + 1)%nat ->
    append_input k N m b len xs =
      if (len + length xs <=? N)%nat then Ok (put m b N (cs ++ xs), None)
      else Ok (paste m (b + len) (firstn (N + 1 - len) xs), len, Some Length_error).
  Proof.
    intros E. pose proof H as (H1 & H2 & H3 & _). unfold append_input, ret, throw.
    rewrite write_input_lemma by lia.
    replace (b + len - b)%nat with len by lia.
    replace (len + length xs <=? N + 1)%nat with (len + length xs <=? N)%nat by lia.
    destruct (Nat.leb_spec (len + length xs) N); cbn [bind]; [|reflexivity].
    rewrite (finish_ok k m b N len cs len xs) by (assumption || lia). cbn [bind]. now rewrite firstn_len.
  Qed.
  Lemma append_input_over_lemma xs : (len + length xs)%nat = (N + 1)%nat ->
    append_input k N m b len xs = Ok (paste m (b + len) xs, (N + 1)%nat, None).
  Proof.
    intros E. pose proof H as (H1 & H2 & H3 & _). unfold append_input, ret, throw.
    rewrite write_input_lemma by lia. replace (b + len - b + length xs <=? N + 1)%nat with true by lia. cbn [bind].
    unfold put_terminator. replace (len + (b + len + length xs - (b + len)) <? len)%nat with false by lia.
    cbn [bind]. do 3 f_equal. lia.
  Qed.

  Lemma assign_forward_lemma s xs : block m s xs -> (s + length xs <= length m)%nat ->
    (b <= s \/ s + length xs <= b)%nat ->
    assign_forward k N m b len s (s + length xs) = becomes m b N len xs.
  Proof.
    intros B L A. pose proof H as (H1 & H2 & H3 & _). unfold assign_forward, becomes, throw, ret.
    replace (s + length xs - s)%nat with (length xs) by lia.
    destruct (Nat.ltb_spec N (length xs)) as [C|C].
    { replace (length xs <=? N)%nat with false by lia. reflexivity. }
    replace (length xs <=? N)%nat with true by lia.
    rewrite write_forward_lemma; unfold valid, forward_safe; try lia. cbn [bind fst snd].
    rewrite block_slice by assumption. replace b with (b + 0)%nat at 1 by lia.
    rewrite (finish_ok k m b N len cs 0 xs) by (assumption || lia). reflexivity.
  Qed.
  Lemma append_forward_lemma s xs : block m s xs -> (s + length xs <= length m)%nat ->
    apart b N s (length xs) \/ inside b len s (length xs) ->
    append_forward k N m b len s (s + length xs) = becomes m b N len (cs ++ xs).
  Proof.
    intros B L A. pose proof H as (H1 & H2 & H3 & _). unfold append_forward, becomes, throw, ret.
    replace (s + length xs - s)%nat with (length xs) by lia. rewrite app_length, <- H1.
    destruct (Nat.ltb_spec N (len + length xs)) as [C|C].
    { replace (len + length xs <=? N)%nat with false by lia. reflexivity. }
    replace (len + length xs <=? N)%nat with true by lia.
    rewrite write_forward_lemma; unfold valid, forward_safe, apart, inside in *; try lia. cbn [bind fst snd].
    rewrite block_slice by assumption.
    rewrite (finish_ok k m b N len cs len xs) by (assumption || lia). cbn [bind]. now rewrite firstn_len.
  Qed.

  (** ** resize, clear, pop_back, swap, operator>>= *)
  Lemma firstn_app_rep n c : (len <= n)%nat -> firstn n (cs ++ repeat c (n - len)) = cs ++ repeat c (n - len).
  Proof. intros L. apply firstn_all2. pose proof H as (H1 & _). rewrite app_length, repeat_length. lia. Qed.

  Lemma resize_lemma n c :
    resize k N m b len n c = if (n <=? N)%nat then Ok (put m b N (firstn n (cs ++ repeat c (n - len))), None)
                             else Ok (m, len, Some Length_error).
  Proof.
    pose proof H as (H1 & H2 & H3 & _). unfold resize, throw, ret.
    destruct (Nat.ltb_spec N n) as [C|C].
    { replace (n <=? N)%nat with false by lia. reflexivity. }
    replace (n <=? N)%nat with true by lia.
    destruct (Nat.ltb_spec len n) as [D|D].
    - rewrite traits_assign_ok by lia. cbn [bind].
      rewrite (finish_ok k m b N len cs len) by (assumption || rewrite ?repeat_length; lia). cbn [bind].
      rewrite firstn_len by assumption. now rewrite firstn_app_rep by lia.
    - cbn [bind]. replace m with (paste m (b + n) []) at 1 by apply paste_nil.
      rewrite (finish_ok k m b N len cs n) by (assumption || cbn; lia). cbn [bind].
      replace (n - len)%nat with 0%nat by lia. cbn [repeat]. now rewrite !app_nil_r.
  Qed.
  Lemma clear_lemma : clear k m b len = Ok (put m b N []).
  Proof.
    unfold clear. replace m with (paste m (b + 0) []) at 1 by apply paste_nil.
    rewrite (finish_ok k m b N len cs 0) by (assumption || cbn; lia). reflexivity.
  Qed.
  Lemma pop_back_lemma M xs x : (N < M)%nat -> cs = xs ++ [x] -> pop_back k M m b len = Ok (put m b N xs).
  Proof.
    intros W E. pose proof H as (H1 & H2 & H3 & _). assert (L : len = S (length xs)) by (rewrite H1, E, app_length; cbn; lia).
    unfold pop_back. rewrite subz_id by lia. replace m with (paste m (b + (len - 1)) []) at 1 by apply paste_nil.
    rewrite (finish_ok k m b N len cs (len - 1)) by (assumption || cbn; lia). rewrite E, firstn_app, app_nil_r.
    replace (len - 1 - length xs)%nat with 0%nat by lia. cbn [firstn]. rewrite app_nil_r.
    now rewrite firstn_len by lia.
  Qed.

  Lemma prepend_n_lemma M s xs : block m s xs -> (s + length xs <= length m)%nat -> apart b N s (length xs) ->
    (len + length xs < M)%nat -> (length xs < k)%nat ->
    prepend_n k M N m b len s (length xs) = becomes m b N len (xs ++ cs).
  Proof.
    intros B L A W K2. pose proof H as (H1 & H2 & H3 & _). unfold prepend_n, becomes, throw, ret.
    rewrite addz_id by exact W. rewrite app_length, <- H1.
    destruct (Nat.ltb_spec N (len + length xs)) as [C|C].
    { replace (length xs + len <=? N)%nat with false by lia. reflexivity. }
    replace (length xs + len <=? N)%nat with true by lia.
    rewrite H1 at 1.
    rewrite (traits_move_ok k m (b + length xs) b cs) by (try (eapply holds_block; eassumption); lia). cbn [bind].
    rewrite traits_move_ok; try (rewrite ?paste_length; unfold apart in *; lia).
    2:{ intros i x X. assert (i < length xs)%nat by (apply nth_error_Some; congruence).
        rewrite nth_paste_out; [now apply B|lia|unfold apart in *; lia]. }
    cbn [bind].
    assert (E : paste (paste m (b + length xs) cs) b xs = paste m (b + 0) (xs ++ cs)).
    { apply lst_ext; [rewrite !paste_length; rewrite ?paste_length; rewrite ?app_length; lia|].
      intros i Hi. rewrite !paste_nth by (rewrite ?paste_length; rewrite ?app_length; lia). rewrite app_length.
      rewrite Nat.add_0_r.
      destruct (Nat.leb_spec b i); destruct (Nat.ltb_spec i (b + length xs)); destruct (Nat.leb_spec (b + length xs) i);
        destruct (Nat.ltb_spec i (b + length xs + length cs)); destruct (Nat.ltb_spec i (b + (length xs + length cs)));
        cbn [andb]; try lia; try reflexivity.
      - now rewrite app_nth1 by lia.
      - rewrite app_nth2 by lia. f_equal. lia. }
    rewrite E. rewrite (finish_ok k m b N len cs 0 (xs ++ cs)) by (assumption || rewrite ?app_length; lia). reflexivity.
  Qed.

  Lemma prepend_char_lemma M c : (N + 1 < M)%nat -> prepend_char k M N m b len c = becomes m b N len (c :: cs).
  Proof.
    intros W. pose proof H as (H1 & H2 & H3 & _). unfold prepend_char, becomes, throw, ret.
    rewrite addz_id by lia. cbn [length]. rewrite <- H1.
    destruct (Nat.ltb_spec N (len + 1)) as [C|C].
    { replace (S len <=? N)%nat with false by lia. reflexivity. }
    replace (S len <=? N)%nat with true by lia.
    rewrite H1 at 1.
    rewrite (traits_move_ok k m (b + 1) b cs) by (try (eapply holds_block; eassumption); lia). cbn [bind].
    rewrite traits_assign_ok by (rewrite ?paste_length; lia). cbn [bind repeat].
    assert (E : paste (paste m (b + 1) cs) b [c] = paste m (b + 0) (c :: cs)).
    { apply lst_ext; [rewrite !paste_length; rewrite ?paste_length; cbn [length]; lia|].
      intros i Hi. rewrite !paste_nth by (rewrite ?paste_length; cbn [length]; lia). cbn [length].
      rewrite Nat.add_0_r.
      destruct (Nat.leb_spec b i); destruct (Nat.ltb_spec i (b + 1)); destruct (Nat.leb_spec (b + 1) i);
        destruct (Nat.ltb_spec i (b + 1 + length cs)); destruct (Nat.ltb_spec i (b + S (length cs)));
        cbn [andb]; try lia; try reflexivity.
      - now replace (i - b)%nat with 0%nat by lia.
      - now replace (i - b)%nat with (S (i - (b + 1))) by lia. }
    rewrite E. rewrite (finish_ok k m b N len cs 0 (c :: cs)) by (assumption || cbn [length]; lia). reflexivity.
  Qed.
End Ranges.

(** Two strings of the same capacity exchange their contents. *)
Lemma swap_strings_lemma k m b b2 N len len2 cs cs2 : holds m b N len cs -> holds m b2 N len2 cs2 ->
  (b + N + 1 <= b2 \/ b2 + N + 1 <= b)%nat -> (N < k)%nat ->
  swap_strings k N m b len b2 len2 = Ok (paste (paste m b (image N cs2)) b2 (image N cs), length cs2, length cs).
Proof.
  intros H H2 A K. pose proof (fun j => holds_nth _ _ _ _ _ j H) as HN. pose proof (fun j => holds_nth _ _ _ _ _ j H2) as HN2.
  destruct H as (E & L & B & _). destruct H2 as (E2 & L2 & B2 & _).
  pose proof (image_length N cs ltac:(lia)) as I. pose proof (image_length N cs2 ltac:(lia)) as I2.
  unfold swap_strings. rewrite swap_ranges_correct_lemma by (unfold valid; lia). cbn [bind fst]. rewrite <- E, <- E2.
  mem_eq.
  assert (S1 : length (slice m b (b + (b2 + N - b2))) = N) by (rewrite slice_length by lia; lia).
  assert (S2 : length (slice m b2 (b2 + N)) = N) by (rewrite slice_length by lia; lia).
  assert (SN : forall p e j, (j < e - p)%nat -> (e <= length m)%nat -> nth j (slice m p e) 0 = nth (p + j) m 0).
  { intros p e j J1 J2. rewrite !nth_ne. rewrite nth_error_slice by lia. reflexivity. }
  apply lst_ext; [rewrite !paste_length; rewrite ?paste_length; lia|].
  intros i Hi. rewrite !paste_nth by (rewrite ?paste_length; lia). rewrite S1, S2, I, I2, !image_nth.
  destruct (Nat.leb_spec b i); destruct (Nat.ltb_spec i (b + N)); destruct (Nat.ltb_spec i (b + (N + 1)));
    destruct (Nat.leb_spec b2 i); destruct (Nat.ltb_spec i (b2 + N)); destruct (Nat.ltb_spec i (b2 + (N + 1))); cbn [andb];
    try lia; try reflexivity.
  all: try (rewrite SN by lia; first [rewrite <- HN2 by lia; f_equal; lia | rewrite <- HN by lia; f_equal; lia]).
  all: first [assert (i = b + N)%nat by lia; subst i; rewrite HN by lia; rewrite !nth_overflow by lia; reflexivity
             | assert (i = b2 + N)%nat by lia; subst i; rewrite HN2 by lia; rewrite !nth_overflow by lia; reflexivity].
Qed.

(** ** What goes wrong *)

(** assigning a string the rest of itself from position 1 on *)
Lemma copy_back_by_one n : forall k m b x, (b + n < length m)%nat -> nth (b + n) m 0 = x -> (n < k)%nat ->
  traits_move k m b (b + 1) n = Ok (paste m b (repeat x n)).
Proof.
  intros k m b x L X K. unfold traits_move, copy_backward.
  assert (G : forall j k m', (j <= n)%nat -> (j < k)%nat -> m' = paste m (b + j) (repeat x (n - j)) ->
    iter k (fun '((m, last, result) : list Z * nat * nat) =>
      if (b + 1 =? last)%nat then Ok (inr (m, result))
      else
        last <- dec last ;; y <- rd m last ;;
        result <- dec result ;; m <- wr m result y ;; Ok (inl (m, last, result))) (m', (b + 1 + j)%nat, (b + j)%nat)
    = Ok (paste m b (repeat x n), b)).
  { clear k K. induction j as [|j IH]; intros [|k] m' J K E; try lia; cbn [iter].
    - replace (b + 1 =? b + 1 + 0)%nat with true by lia. cbn [bind]. subst m'. rewrite Nat.add_0_r, Nat.sub_0_r. reflexivity.
    - replace (b + 1 =? b + 1 + S j)%nat with false by lia.
      replace (b + 1 + S j)%nat with (S (b + 1 + j)) by lia. replace (b + S j)%nat with (S (b + j)) by lia.
      cbn [dec bind].
      assert (Lm : length m' = length m) by (subst m'; apply paste_length; rewrite repeat_length; lia).
      assert (R : rd m' (b + 1 + j) = Ok x).
      { apply StrProof3.rd_ok. rewrite ok_nth by lia. f_equal. subst m'. rewrite paste_nth by (rewrite repeat_length; lia).
        rewrite repeat_length. destruct (Nat.eq_dec (S j) n) as [En|En].
        - replace ((b + S j <=? b + 1 + j) && (b + 1 + j <? b + S j + (n - S j)))%nat with false by lia. rewrite <- X. f_equal. lia.
        - replace ((b + S j <=? b + 1 + j) && (b + 1 + j <? b + S j + (n - S j)))%nat with true by lia.
          replace (b + 1 + j - (b + S j))%nat with 0%nat by lia. replace (n - S j)%nat with (S (n - S (S j))) by lia. reflexivity. }
      rewrite R. cbn [bind]. rewrite StrProof3.wr_ok by lia. cbn [bind].
      apply IH; try lia. subst m'. replace (n - j)%nat with (S (n - S j)) by lia. cbn [repeat].
      replace (b + j)%nat with (b + S j - 1)%nat at 1 by lia. rewrite paste_cons by (rewrite ?repeat_length; lia).
      f_equal. lia. }
  specialize (G n k m ltac:(lia) K). rewrite Nat.sub_diag in G. cbn [repeat] in G. rewrite paste_nil in G.
  rewrite G by reflexivity. reflexivity.
Qed.

Lemma assign_self_lemma k M m b N len cs x : holds m b N len (cs ++ [x]) -> (N < M)%nat -> (N < k)%nat -> (1 <= length cs)%nat ->
  assign_sub k M N m b len b len 1 (npos M) = Ok (put m b N (repeat x (len - 1)), None).
Proof.
  intros H W K C. pose proof H as (E & L & B & _). rewrite app_length in E. cbn [length] in E.
  unfold assign_sub, rangecheck. replace (len <=? 1)%nat with false by lia.
  unfold rlen. rewrite Nat.eqb_refl. cbn [negb]. rewrite subz_id by lia. unfold assign_n.
  replace (N <? len - 1)%nat with false by lia.
  rewrite (copy_back_by_one (len - 1) k m b x); try lia.
  2:{ rewrite (holds_nth _ _ _ _ _ (len - 1) H) by lia. rewrite app_nth2 by lia. now replace (len - 1 - length cs)%nat with 0%nat by lia. }
  cbn [bind]. replace b with (b + 0)%nat at 1 by lia.
  rewrite (finish_ok k m b N len _ 0 _ _ H) by (rewrite ?repeat_length; lia). reflexivity.
Qed.

Lemma fill_over n : forall k m p c, (p <= length m)%nat -> (length m < p + n)%nat -> (length m - p < k)%nat ->
  traits_assign k m p n c = UB.
Proof.
  intros k m p c. unfold traits_assign, fill.
  assert (G : forall e k m p, (p <= length m)%nat -> (length m < e)%nat -> (length m - p < k)%nat ->
    iter k (fun '((m, first) : list Z * nat) =>
      if (first =? e)%nat then Ok (inr m) else m <- wr m first c ;; Ok (inl (m, S first))) (m, p) = UB).
  { clear. intros e. induction k as [|k IH]; intros m p P E K; [lia|]. cbn [iter].
    replace (p =? e)%nat with false by lia. unfold wr. destruct (Nat.ltb_spec p (length m)) as [C|C].
    - cbn [bind]. apply IH; rewrite upd_length; lia.
    - reflexivity. }
  intros. apply G; lia.
Qed.

Lemma append_fill_wrap_lemma k M m b N len cs c : holds m b N len cs -> (0 < len)%nat -> (N < M)%nat ->
  (length m < b + M)%nat -> (length m < k)%nat -> append_fill k M N m b len (M - len) c = UB.
Proof.
  intros (E & L & B & _) P W ML K. unfold append_fill, addz. replace (len + (M - len))%nat with M by lia.
  rewrite Nat.mod_same by lia. cbn [Nat.ltb Nat.leb]. rewrite fill_over by lia. reflexivity.
Qed.

Lemma pop_back_empty_lemma k M m b : (1 < M)%nat -> pop_back k M m b 0 = Ok (m, npos M).
Proof.
  intros W. unfold pop_back, subz, put_terminator. replace (0 + M - 1)%nat with (M - 1)%nat by lia.
  rewrite Nat.mod_small by lia. reflexivity.
Qed.
