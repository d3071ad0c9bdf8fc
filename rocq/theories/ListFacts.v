(** Facts about slices and lists, used by the proofs. *)
From Coq Require Import List Arith Bool ZArith Lia Permutation Sorted.
From Coq Require Import ZifyBool ZifyNat.
From Verif Require Import Base BaseProof SearchSpec SearchProof OrderSpec OrderProof.
Import ListNotations.
Ltac Zify.zify_post_hook ::= Z.div_mod_to_equations.

Section Slices.
  Context {A : Type}.
  Implicit Types l : list A.

  Lemma slice_nil l first last : last <= first -> slice l first last = [].
  Proof. intros H. unfold slice. replace (last - first) with 0 by lia. reflexivity. Qed.

  Lemma slice_length l first last : last <= length l -> length (slice l first last) = last - first.
  Proof. intros H. unfold slice. rewrite firstn_length, skipn_length. lia. Qed.

  Lemma nth_error_skipn l n i : nth_error (skipn n l) i = nth_error l (n + i).
  Proof.
    revert l. induction n as [|n IH]; intros l; [reflexivity|].
    destruct l as [|x l]; cbn; [now destruct i|apply IH].
  Qed.

  Lemma nth_error_firstn l n i : i < n -> nth_error (firstn n l) i = nth_error l i.
  Proof.
    revert l i. induction n as [|n IH]; intros l i H; [lia|].
    destruct l as [|x l]; cbn; [now destruct i|]. destruct i as [|i]; cbn; [reflexivity|].
    apply IH. lia.
  Qed.

  Lemma nth_error_slice l first last i : i < last - first ->
    nth_error (slice l first last) i = nth_error l (first + i).
  Proof. intros H. unfold slice. rewrite nth_error_firstn by exact H. apply nth_error_skipn. Qed.

  Lemma slice_cons l first last x : first < last -> nth_error l first = Some x ->
    slice l first last = x :: slice l (S first) last.
  Proof.
    intros H Hx. unfold slice. replace (last - first) with (S (last - S first)) by lia.
    assert (E : skipn first l = x :: skipn (S first) l).
    { clear H. revert l Hx. induction first as [|n IH]; intros l Hx.
      - destruct l; [discriminate|]. cbn in Hx. injection Hx as ->. reflexivity.
      - destruct l as [|y l]; [discriminate|]. cbn in Hx. cbn [skipn]. rewrite IH by exact Hx.
        reflexivity. }
    rewrite E. reflexivity.
  Qed.

  Lemma firstn_add l a b : firstn (a + b) l = firstn a l ++ firstn b (skipn a l).
  Proof.
    revert l. induction a as [|a IH]; intros l; [reflexivity|].
    destruct l as [|x l]; cbn; [now rewrite firstn_nil|]. now rewrite IH.
  Qed.

  Lemma skipn_add l a b : skipn a (skipn b l) = skipn (b + a) l.
  Proof.
    revert l. induction b as [|b IH]; intros l; [reflexivity|].
    destruct l as [|x l]; cbn; [now rewrite skipn_nil|]. apply IH.
  Qed.

  Lemma slice_app l first mid last : first <= mid <= last ->
    slice l first last = slice l first mid ++ slice l mid last.
  Proof.
    intros H. unfold slice.
    replace (last - first) with ((mid - first) + (last - mid)) by lia.
    rewrite firstn_add, skipn_add. replace (first + (mid - first)) with mid by lia. reflexivity.
  Qed.

  Lemma slice_snoc l first last x : first <= last -> nth_error l last = Some x ->
    slice l first (S last) = slice l first last ++ [x].
  Proof.
    intros H Hx. rewrite (slice_app l first last (S last)) by lia. f_equal.
    rewrite (slice_cons l last (S last) x) by (auto; lia). rewrite slice_nil by lia. reflexivity.
  Qed.

  Lemma slice_full l : slice l 0 (length l) = l.
  Proof. unfold slice. cbn. rewrite Nat.sub_0_r. apply firstn_all. Qed.

  Lemma slice_all l first last : valid l first last ->
    l = slice l 0 first ++ slice l first last ++ slice l last (length l).
  Proof.
    intros [H1 H2]. rewrite <- slice_app, <- slice_app by lia. symmetry. apply slice_full.
  Qed.

  Lemma in_slice l first last x : In x (slice l first last) <->
    exists i, first <= i < last /\ nth_error l i = Some x.
  Proof.
    split.
    - intros H. apply In_nth_error in H. destruct H as [k Hk].
      destruct (Nat.lt_ge_cases k (last - first)) as [Hlt|Hge].
      + rewrite nth_error_slice in Hk by exact Hlt. exists (first + k). split; [lia|exact Hk].
      + exfalso. assert (length (slice l first last) <= k).
        { unfold slice. rewrite firstn_length. lia. }
        apply nth_error_None in H. congruence.
    - intros (i&Hi&Hx). apply nth_error_In with (i - first).
      rewrite nth_error_slice by lia. replace (first + (i - first)) with i by lia. exact Hx.
  Qed.

  Lemma slice_eq l (l' : list A) first last first' : last <= length l ->
    first' + (last - first) <= length l' ->
    (forall i, i < last - first -> nth_error l (first + i) = nth_error l' (first' + i)) ->
    slice l first last = slice l' first' (first' + (last - first)).
  Proof.
    remember (last - first) as n eqn:En. revert first first' En.
    induction n as [|n IH]; intros first first' En HL HL' H.
    - rewrite !slice_nil by lia. reflexivity.
    - destruct (nth_error_ex l first ltac:(lia)) as [x Hx].
      assert (Hx' : nth_error l' first' = Some x).
      { rewrite <- Hx. specialize (H 0 ltac:(lia)). rewrite !Nat.add_0_r in H. now symmetry. }
      rewrite (slice_cons l first last x) by (auto; lia).
      rewrite (slice_cons l' first' _ x) by (auto; lia). f_equal.
      replace (first' + S n) with (S first' + n) by lia. apply IH; try lia.
      intros i Hi. specialize (H (S i) ltac:(lia)).
      replace (S first + i) with (first + S i) by lia. replace (S first' + i) with (first' + S i) by lia.
      exact H.
  Qed.
End Slices.

Lemma occurrences_cons {A} (f : A -> bool) x xs :
  occurrences f (x :: xs) = (if f x then 1 else 0) + occurrences f xs.
Proof. unfold occurrences. cbn. now destruct (f x). Qed.

Lemma occurrences_app {A} (f : A -> bool) xs ys :
  occurrences f (xs ++ ys) = occurrences f xs + occurrences f ys.
Proof. unfold occurrences. now rewrite filter_app, app_length. Qed.

Lemma occurrences_0 {A} (f : A -> bool) xs :
  (forall x, In x xs -> f x = false) -> occurrences f xs = 0.
Proof.
  induction xs as [|x xs IH]; intros H; [reflexivity|].
  rewrite occurrences_cons, (H x) by now left. rewrite IH; [reflexivity|]. intros; apply H; now right.
Qed.

Lemma occurrences_in {A} (f : A -> bool) xs x : In x xs -> f x = true -> 1 <= occurrences f xs.
Proof.
  intros Hi Hf. destruct (in_split _ _ Hi) as (a&b&->).
  rewrite occurrences_app, occurrences_cons, Hf. lia.
Qed.

Lemma occurrences_pos {A} (f : A -> bool) xs : 1 <= occurrences f xs -> exists x, In x xs /\ f x = true.
Proof.
  induction xs as [|x xs IH]; [cbn; lia|]. rewrite occurrences_cons.
  destruct (f x) eqn:E; intros H.
  - exists x. split; [now left|exact E].
  - destruct IH as (y&Hy&Hf); [lia|]. exists y. split; [now right|exact Hf].
Qed.

Lemma occurrences_perm {A} (f : A -> bool) xs ys : Permutation xs ys -> occurrences f xs = occurrences f ys.
Proof. induction 1; rewrite ?occurrences_cons in *; try lia. Qed.

Lemma cnt_occurrences {A} (f : A -> bool) (l : list A) n : forall first, first + n <= length l ->
  cnt (tst f l) first n = occurrences f (slice l first (first + n)).
Proof.
  induction n as [|n IH]; intros first H.
  - rewrite slice_nil by lia. reflexivity.
  - rewrite cnt_S, IH by lia. destruct (nth_error_ex l first ltac:(lia)) as [x Hx].
    rewrite (slice_cons l first (first + S n) x) by (auto; lia).
    rewrite occurrences_cons. unfold tst. rewrite Hx.
    replace (S first + n) with (first + S n) by lia. reflexivity.
Qed.

(** Sorted lists, as a list-level notion. *)
Definition leq {A} (comp : A -> A -> bool) (a b : A) : Prop := comp b a = false.

Definition ssorted {A} (comp : A -> A -> bool) (xs : list A) : Prop := StronglySorted (leq comp) xs.

Lemma sorted_range_slice {A} (comp : A -> A -> bool) (W : strict_weak_order comp) l first last :
  valid l first last -> (sorted_range comp l first last <-> ssorted comp (slice l first last)).
Proof.
  intros [V1 V2]. split.
  - intros HS. pose proof (sorted_pairs comp W l first last ltac:(now split) HS) as HP.
    clear HS. remember (last - first) as n eqn:En. revert first V1 HP En.
    induction n as [|n IH]; intros first V1 HP En.
    + rewrite slice_nil by lia. constructor.
    + destruct (nth_error_ex l first ltac:(lia)) as [x Hx].
      rewrite (slice_cons l first last x) by (auto; lia). constructor.
      * apply IH; try lia. intros i j ???. apply HP; lia.
      * apply Forall_forall. intros y Hy. apply in_slice in Hy. destruct Hy as (j&Hj&Hy).
        specialize (HP first j ltac:(lia) ltac:(lia) ltac:(lia)).
        rewrite (rel_val _ _ _ _ _ _ _ Hy Hx) in HP. now apply not_true_iff_false in HP.
  - remember (last - first) as n eqn:En. revert first V1 En.
    induction n as [|n IH]; intros first V1 En HS i Hi1 Hi2; [lia|].
    destruct (nth_error_ex l first ltac:(lia)) as [x Hx].
    rewrite (slice_cons l first last x) in HS by (auto; lia). inversion HS as [|? ? HS' HF]; subst.
    destruct (Nat.eq_dec i first) as [->|Hne].
    + destruct (nth_error_ex l (S first) ltac:(lia)) as [y Hy].
      rewrite (rel_val _ _ _ _ _ _ _ Hy Hx). rewrite Forall_forall in HF.
      apply not_true_iff_false, HF. apply in_slice. exists (S first). split; [lia|exact Hy].
    + apply (IH (S first)); auto; lia.
Qed.
