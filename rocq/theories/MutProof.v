(** Reasoning rules for programs over a list memory. *)
From Coq Require Import List Arith Bool Lia Permutation.
From Verif Require Import Base SearchModel SearchSpec SearchProof OrderSpec ListFacts MutModel MutSpec.
Import ListNotations.

(** The program ends normally in a state satisfying [Q]. *)
Definition wp {A} (m : res A) (Q : A -> Prop) : Prop :=
  match m with
  | Ok a => Q a
  | _ => False
  end.

Section Wp.
  Context {A B : Type}.
  Lemma wp_ok (a : A) (Q : A -> Prop) : Q a -> wp (Ok a) Q.
  Proof. exact (fun h => h). Qed.

  Lemma wp_bind (m : res A) (f : A -> res B) (Q : B -> Prop) :
    wp m (fun a => wp (f a) Q) -> wp (bind m f) Q.
  Proof. destruct m; cbn; auto. Qed.

  Lemma wp_mono (m : res A) (P Q : A -> Prop) : wp m P -> (forall a, P a -> Q a) -> wp m Q.
  Proof. destruct m; cbn; auto. Qed.

  Lemma wp_eq (m : res A) a (Q : A -> Prop) : m = Ok a -> Q a -> wp m Q.
  Proof. now intros ->. Qed.

  Lemma wp_out (m : res A) (Q : A -> Prop) : wp m Q -> exists a, m = Ok a /\ Q a.
  Proof. destruct m; cbn; try easy. intros H. now exists a. Qed.

  Lemma wp_ex (m : res A) (Q : A -> Prop) : (exists a, m = Ok a /\ Q a) -> wp m Q.
  Proof. now intros (a & -> & H). Qed.

  Lemma wp_det (m : res A) a : wp m (fun b => b = a) -> m = Ok a.
  Proof. destruct m; cbn; try easy. now intros ->. Qed.

  Lemma wp_rd (l : list A) i x (Q : A -> Prop) : nth_error l i = Some x -> Q x -> wp (rd l i) Q.
  Proof. unfold rd. intros -> H. exact H. Qed.

  Lemma wp_rd' (l : list A) i (Q : A -> Prop) :
    i < length l -> (forall x, nth_error l i = Some x -> Q x) -> wp (rd l i) Q.
  Proof.
    intros H HQ. destruct (nth_error_ex l i H) as [x Hx]. eapply wp_rd; eauto.
  Qed.

  Lemma wp_wr (l : list A) i x (Q : list A -> Prop) : i < length l -> Q (upd l i x) -> wp (wr l i x) Q.
  Proof. unfold wr. intros H HQ. apply Nat.ltb_lt in H. now rewrite H. Qed.

  Lemma wp_dec i (Q : nat -> Prop) : 0 < i -> Q (i - 1) -> wp (dec i) Q.
  Proof. destruct i; [lia|]. cbn. now rewrite Nat.sub_0_r. Qed.

  Lemma wp_if (b : bool) (m1 m2 : res A) (Q : A -> Prop) :
    (b = true -> wp m1 Q) -> (b = false -> wp m2 Q) -> wp (if b then m1 else m2) Q.
  Proof. destruct b; auto. Qed.
End Wp.

(** Loop rule: an invariant and a measure that decreases. *)
Lemma wp_iter {S R} (I : S -> Prop) (mu : S -> nat) (body : S -> res (S + R)) (Q : R -> Prop) :
  (forall s, I s -> wp (body s) (fun x => match x with inl s' => I s' /\ mu s' < mu s | inr r => Q r end)) ->
  forall k s, I s -> mu s < k -> wp (iter k body s) Q.
Proof.
  intros H. induction k as [|k IH]; intros s Hs Hk; [lia|].
  cbn [iter]. apply wp_bind. eapply wp_mono; [apply H; exact Hs|].
  intros [s'|r]; [|auto]. intros [H1 H2]. apply IH; [exact H1|lia].
Qed.

Section Lists.
  Context {A : Type}.
  Implicit Types (m l xs ys P : list A).

  Lemma nth_error_end l i : length l <= i -> nth_error l i = None.
  Proof. apply nth_error_None. Qed.

  Lemma nth_error_lt l i x : nth_error l i = Some x -> i < length l.
  Proof. intros H. apply nth_error_Some. congruence. Qed.

  Lemma upd_length l i (x : A) : length (upd l i x) = length l.
  Proof. revert i. induction l as [|y t IH]; intros [|i]; cbn; auto. Qed.

  Lemma upd_eq l i x : i < length l -> nth_error (upd l i x) i = Some x.
  Proof. revert i. induction l as [|y t IH]; intros [|i] H; cbn in *; try lia; try reflexivity; apply IH; lia. Qed.

  Lemma upd_neq l i j x : i <> j -> nth_error (upd l i x) j = nth_error l j.
  Proof.
    revert i j. induction l as [|y t IH]; intros [|i] [|j] H; cbn; auto; try lia; now (apply IH; lia).
  Qed.

  Lemma list_ext l l' : (forall i, nth_error l i = nth_error l' i) -> l = l'.
  Proof.
    revert l'. induction l as [|x t IH]; intros [|x' t'] H; auto.
    - specialize (H 0). discriminate.
    - specialize (H 0). discriminate.
    - pose proof (H 0) as H0. cbn in H0. injection H0 as ->. f_equal. apply IH. intros i. apply (H (S i)).
  Qed.

  Lemma upd_app l x y r : upd (l ++ x :: r) (length l) y = l ++ y :: r.
  Proof. induction l as [|z t IH]; cbn; [reflexivity|]. now rewrite IH. Qed.

  Lemma nth_error_mid l x r : nth_error (l ++ x :: r) (length l) = Some x.
  Proof. induction l as [|z t IH]; cbn; auto. Qed.

  (** ** paste *)
  Lemma paste_length m i xs : i + length xs <= length m -> length (paste m i xs) = length m.
  Proof. intros H. unfold paste. rewrite !app_length, firstn_length, skipn_length. lia. Qed.

  Lemma paste_nil m i : paste m i [] = m.
  Proof. unfold paste. cbn. rewrite Nat.add_0_r. apply firstn_skipn. Qed.

  Lemma nth_paste_in m i xs j : i + length xs <= length m -> i <= j < i + length xs ->
    nth_error (paste m i xs) j = nth_error xs (j - i).
  Proof.
    intros H Hj. unfold paste. rewrite nth_error_app2; rewrite firstn_length; [|lia].
    rewrite nth_error_app1 by lia. f_equal. lia.
  Qed.

  Lemma nth_paste_out m i xs j : i + length xs <= length m -> j < i \/ i + length xs <= j ->
    nth_error (paste m i xs) j = nth_error m j.
  Proof.
    intros H [Hj|Hj]; unfold paste.
    - rewrite nth_error_app1 by (rewrite firstn_length; lia). now apply nth_error_firstn.
    - rewrite nth_error_app2; rewrite firstn_length; [|lia].
      rewrite nth_error_app2 by lia. rewrite nth_error_skipn. f_equal. lia.
  Qed.

  Lemma paste_ext m i xs m' : i + length xs <= length m ->
    (forall j, i <= j < i + length xs -> nth_error m' j = nth_error xs (j - i)) ->
    (forall j, j < i \/ i + length xs <= j -> nth_error m' j = nth_error m j) ->
    m' = paste m i xs.
  Proof.
    intros H H1 H2. apply list_ext. intros j.
    destruct (Nat.lt_ge_cases j i) as [C|C]; [|destruct (Nat.lt_ge_cases j (i + length xs)) as [D|D]].
    - rewrite H2 by lia. symmetry. apply nth_paste_out; lia.
    - rewrite H1 by lia. symmetry. apply nth_paste_in; lia.
    - rewrite H2 by lia. symmetry. apply nth_paste_out; lia.
  Qed.

  Lemma paste_snoc m i xs x : i + length xs < length m ->
    upd (paste m i xs) (i + length xs) x = paste m i (xs ++ [x]).
  Proof.
    intros H. apply paste_ext; rewrite ?app_length; cbn [length]; [lia| |].
    - intros j Hj. destruct (Nat.eq_dec j (i + length xs)) as [->|N].
      + rewrite upd_eq by (rewrite paste_length; lia). rewrite nth_error_app2 by lia.
        replace (i + length xs - i - length xs) with 0 by lia. reflexivity.
      + rewrite upd_neq by lia. rewrite nth_paste_in by lia. rewrite nth_error_app1 by lia. reflexivity.
    - intros j Hj. rewrite upd_neq by lia. apply nth_paste_out; lia.
  Qed.

  Lemma paste_cons m i xs x : 0 < i -> i + length xs <= length m ->
    upd (paste m i xs) (i - 1) x = paste m (i - 1) (x :: xs).
  Proof.
    intros Hi H. apply paste_ext; cbn [length]; [lia| |].
    - intros j Hj. destruct (Nat.eq_dec j (i - 1)) as [->|N].
      + rewrite upd_eq by (rewrite paste_length; lia). rewrite Nat.sub_diag. reflexivity.
      + rewrite upd_neq by lia. rewrite nth_paste_in by lia.
        replace (j - (i - 1)) with (S (j - i)) by lia. reflexivity.
    - intros j Hj. rewrite upd_neq by lia. apply nth_paste_out; lia.
  Qed.

  Lemma paste_slice m first last : valid m first last -> paste m first (slice m first last) = m.
  Proof.
    intros [V1 V2]. symmetry. apply paste_ext; rewrite ?slice_length by lia; [lia| |auto].
    intros j Hj. rewrite nth_error_slice by lia. f_equal. lia.
  Qed.

  Lemma slice_paste m i xs : i + length xs <= length m -> slice (paste m i xs) i (i + length xs) = xs.
  Proof.
    intros H. apply list_ext. intros j.
    destruct (Nat.lt_ge_cases j (length xs)) as [C|C].
    - rewrite nth_error_slice by lia. rewrite nth_paste_in by lia. f_equal. lia.
    - rewrite !nth_error_end; rewrite ?slice_length; rewrite ?paste_length; lia || reflexivity.
  Qed.

  Lemma slice_paste_out m i xs a b : i + length xs <= length m -> b <= i \/ i + length xs <= a -> b <= length m ->
    slice (paste m i xs) a b = slice m a b.
  Proof.
    intros H Hab Hb. apply list_ext. intros j.
    destruct (Nat.lt_ge_cases j (b - a)) as [C|C].
    - rewrite !nth_error_slice by lia. rewrite nth_paste_out by lia. reflexivity.
    - rewrite !nth_error_end; rewrite ?slice_length; rewrite ?paste_length; lia || reflexivity.
  Qed.

  Lemma paste_paste m i xs ys : length xs = length ys -> i + length xs <= length m ->
    paste (paste m i xs) i ys = paste m i ys.
  Proof.
    intros E H. apply paste_ext; [lia| |].
    - intros j Hj. apply nth_paste_in; rewrite ?paste_length; lia.
    - intros j Hj. rewrite nth_paste_out by (rewrite ?paste_length; lia). apply nth_paste_out; lia.
  Qed.

  Lemma paste_app m i xs ys : i + length xs + length ys <= length m ->
    paste (paste m i xs) (i + length xs) ys = paste m i (xs ++ ys).
  Proof.
    intros H. apply paste_ext; rewrite ?app_length; [lia| |].
    - intros j Hj. destruct (Nat.lt_ge_cases j (i + length xs)) as [C|C].
      + rewrite nth_paste_out by (rewrite ?paste_length; lia). rewrite nth_paste_in by lia.
        now rewrite nth_error_app1 by lia.
      + rewrite nth_paste_in by (rewrite ?paste_length; lia). rewrite nth_error_app2 by lia. f_equal. lia.
    - intros j Hj. rewrite nth_paste_out by (rewrite ?paste_length; lia). apply nth_paste_out; lia.
  Qed.

  Lemma paste_split m P l r xs : m = P ++ l ++ r -> length xs = length l ->
    paste m (length P) xs = P ++ xs ++ r.
  Proof.
    intros -> E. unfold paste. f_equal; [|f_equal].
    - rewrite firstn_app, firstn_all, Nat.sub_diag. cbn. apply app_nil_r.
    - rewrite E, app_assoc, <- app_length, skipn_app, skipn_all, Nat.sub_diag. reflexivity.
  Qed.

  (** ** swaps *)
  Lemma wp_swap m i j (Q : list A -> Prop) : i < length m -> j < length m ->
    (forall m', length m' = length m -> nth_error m' i = nth_error m j -> nth_error m' j = nth_error m i ->
       (forall n, n <> i -> n <> j -> nth_error m' n = nth_error m n) -> Q m') ->
    wp (iter_swap m i j) Q.
  Proof.
    intros Hi Hj H. unfold iter_swap.
    apply wp_bind, wp_rd'; [exact Hi|]. intros x Hx.
    apply wp_bind, wp_rd'; [exact Hj|]. intros y Hy.
    apply wp_bind, wp_wr; [exact Hi|]. apply wp_wr; [now rewrite upd_length|].
    apply H.
    - now rewrite !upd_length.
    - destruct (Nat.eq_dec i j) as [->|N].
      + rewrite upd_eq by now rewrite upd_length. congruence.
      + rewrite upd_neq by congruence. rewrite upd_eq by exact Hi. congruence.
    - rewrite upd_eq by now rewrite upd_length. congruence.
    - intros n N1 N2. rewrite !upd_neq by congruence. reflexivity.
  Qed.

  Lemma swap_split m P a l b r : m = P ++ a :: l ++ b :: r ->
    iter_swap m (length P) (length P + S (length l)) = Ok (P ++ b :: l ++ a :: r).
  Proof.
    intros ->. apply wp_det. unfold iter_swap.
    apply wp_bind, (wp_rd _ _ a); [apply nth_error_mid|].
    assert (E : P ++ a :: l ++ b :: r = (P ++ a :: l) ++ b :: r) by now rewrite <- app_assoc.
    assert (EL : length P + S (length l) = length (P ++ a :: l)) by now rewrite app_length.
    apply wp_bind, (wp_rd _ _ b). { rewrite E, EL. apply nth_error_mid. }
    apply wp_bind, wp_wr. { rewrite !app_length. cbn. lia. }
    rewrite upd_app. apply wp_wr. { rewrite !app_length. cbn. rewrite app_length. cbn. lia. }
    replace (P ++ b :: l ++ b :: r) with ((P ++ b :: l) ++ b :: r) by now rewrite <- app_assoc.
    replace (length P + S (length l)) with (length (P ++ b :: l)) by now rewrite app_length.
    rewrite upd_app. now rewrite <- app_assoc.
  Qed.

  (** A swap permutes any range that contains both positions. *)
  Lemma swap_facts m i j m' : iter_swap m i j = Ok m' ->
    i < length m /\ j < length m /\ length m' = length m /\ nth_error m' i = nth_error m j /\
    nth_error m' j = nth_error m i /\ forall n, n <> i -> n <> j -> nth_error m' n = nth_error m n.
  Proof.
    intros E.
    assert (Hi : i < length m).
    { unfold iter_swap, rd in E. destruct (nth_error m i) eqn:H; [|discriminate]. now apply nth_error_lt in H. }
    assert (Hj : j < length m).
    { unfold iter_swap, rd in E. destruct (nth_error m i); [|discriminate]. cbn in E.
      destruct (nth_error m j) eqn:H; [|discriminate]. now apply nth_error_lt in H. }
    assert (W : wp (iter_swap m i j) (fun m' => length m' = length m /\ nth_error m' i = nth_error m j /\
      nth_error m' j = nth_error m i /\ forall n, n <> i -> n <> j -> nth_error m' n = nth_error m n)).
    { apply wp_swap; auto. }
    rewrite E in W. cbn in W. tauto.
  Qed.

  Lemma swap_same m i : i < length m -> iter_swap m i i = Ok m.
  Proof.
    intros H. apply wp_det. apply wp_swap; auto. intros m' L H1 _ H3.
    apply list_ext. intros n. destruct (Nat.eq_dec n i) as [->|N]; auto.
  Qed.
End Lists.
