(** Element values as a total function, for proofs about in-place algorithms. *)
From Coq Require Import List Arith Bool Lia Permutation.
From Verif Require Import Base BaseProof SearchSpec SearchProof OrderSpec OrderProof ListFacts
  MutModel MutSpec MutProof MutProof3.
Import ListNotations.

Section V.
  Context {A : Type}.
  Variable d0 : A.
  Implicit Types (m l V : list A) (first last i j n : nat).

  Definition v m i : A := nth i m d0.

  Lemma nth_error_v m i : i < length m -> nth_error m i = Some (v m i).
  Proof. intros H. unfold v. now apply nth_error_nth'. Qed.

  Lemma v_nth_error m i x : nth_error m i = Some x -> v m i = x.
  Proof. intros H. unfold v. now apply nth_error_nth. Qed.

  Lemma rd_v m i : i < length m -> rd m i = Ok (v m i).
  Proof. intros H. unfold rd. now rewrite nth_error_v. Qed.

  Lemma wr_v m i x : i < length m -> wr m i x = Ok (upd m i x).
  Proof. intros H. unfold wr. apply Nat.ltb_lt in H. now rewrite H. Qed.

  Lemma v_upd m i x j : i < length m -> v (upd m i x) j = if j =? i then x else v m j.
  Proof.
    intros H. destruct (Nat.eqb_spec j i) as [->|N].
    - apply v_nth_error. now apply upd_eq.
    - unfold v. destruct (Nat.lt_ge_cases j (length m)) as [C|C].
      + apply nth_error_nth. rewrite upd_neq by congruence. now apply nth_error_nth'.
      + rewrite !nth_overflow; auto. now rewrite upd_length.
  Qed.

  Lemma v_ext m m' : length m = length m' -> (forall i, i < length m -> v m i = v m' i) -> m = m'.
  Proof. intros L H. apply (nth_ext m m' d0 d0 L). exact H. Qed.

  Lemma v_out m m' first last j : valid m first last -> rearranged m first last m' -> j < first \/ last <= j ->
    v m' j = v m j.
  Proof.
    intros V H Hj. apply rearranged_iff in H; [|exact V]. destruct H as (L & O & _).
    destruct (Nat.lt_ge_cases j (length m)) as [C|C].
    - apply v_nth_error. rewrite O by exact Hj. now apply nth_error_v.
    - unfold v. rewrite !nth_overflow; lia || reflexivity.
  Qed.

  Lemma rearranged_length m first last m' : valid m first last -> rearranged m first last m' -> length m' = length m.
  Proof. intros V H. apply rearranged_iff in H; [|exact V]. apply H. Qed.

  (** A swap described by values. *)
  Lemma swap_rearr m m' i j first last : valid m first last -> length m' = length m ->
    first <= i < last -> first <= j < last ->
    (forall n, n < length m -> v m' n = if n =? i then v m j else if n =? j then v m i else v m n) ->
    rearranged m first last m'.
  Proof.
    intros [V1 V2] L Hi Hj H. apply rearranged_iff; [split; lia|]. split; [exact L|].
    assert (E : forall n, nth_error m' n = if n =? i then nth_error m j else if n =? j then nth_error m i else nth_error m n).
    { intros n. destruct (Nat.lt_ge_cases n (length m)) as [C|C].
      - rewrite nth_error_v by lia. rewrite H by exact C.
        destruct (Nat.eqb_spec n i), (Nat.eqb_spec n j); symmetry; apply nth_error_v; lia.
      - destruct (Nat.eqb_spec n i), (Nat.eqb_spec n j); try lia. rewrite !nth_error_end by lia. reflexivity. }
    split.
    - intros n Hn. rewrite E. destruct (Nat.eqb_spec n i), (Nat.eqb_spec n j); lia || reflexivity.
    - apply (swap_perm _ _ (i - first) (j - first)); rewrite ?slice_length by lia; try lia.
      + rewrite !nth_error_slice by lia. rewrite E.
        replace (first + (i - first)) with i by lia. replace (first + (j - first)) with j by lia. now rewrite Nat.eqb_refl.
      + rewrite !nth_error_slice by lia. rewrite E.
        replace (first + (i - first)) with i by lia. replace (first + (j - first)) with j by lia. rewrite Nat.eqb_refl.
        now destruct (Nat.eqb_spec j i) as [->|].
      + intros n N1 N2. destruct (Nat.lt_ge_cases n (last - first)).
        * rewrite !nth_error_slice by lia. rewrite E.
          destruct (Nat.eqb_spec (first + n) i), (Nat.eqb_spec (first + n) j); lia || reflexivity.
        * rewrite !nth_error_end; rewrite ?slice_length; auto; lia.
  Qed.

  Lemma wp_swap_v m i j (Q : list A -> Prop) : i < length m -> j < length m ->
    (forall m', length m' = length m ->
       (forall n, v m' n = if n =? i then v m j else if n =? j then v m i else v m n) ->
       (forall first last, last <= length m -> first <= i < last -> first <= j < last -> rearranged m first last m') ->
       Q m') ->
    wp (iter_swap m i j) Q.
  Proof.
    intros Hi Hj H. apply wp_swap; auto. intros m' L H1 H2 H3.
    assert (E : forall n, v m' n = if n =? i then v m j else if n =? j then v m i else v m n).
    { intros n. destruct (Nat.eqb_spec n i) as [->|N1]; [|destruct (Nat.eqb_spec n j) as [->|N2]].
      - apply v_nth_error. rewrite H1. now apply nth_error_v.
      - apply v_nth_error. rewrite H2. now apply nth_error_v.
      - destruct (Nat.lt_ge_cases n (length m)) as [C|C].
        + apply v_nth_error. rewrite H3 by auto. now apply nth_error_v.
        + unfold v. rewrite !nth_overflow; lia || reflexivity. }
    apply H; auto. intros first last Hl Fi Fj. apply (swap_rearr m m' i j); auto. split; lia.
  Qed.

  Lemma wp_rd_v m i (Q : A -> Prop) : i < length m -> Q (v m i) -> wp (rd m i) Q.
  Proof. intros H HQ. rewrite rd_v by exact H. exact HQ. Qed.

  (** Properties of all elements of a range survive rearranging. *)
  Lemma rearranged_forall (P : A -> Prop) m first last m' : valid m first last -> rearranged m first last m' ->
    (forall i, first <= i < last -> P (v m i)) -> forall i, first <= i < last -> P (v m' i).
  Proof.
    intros V H HP i Hi. pose proof V as [V1 V2]. apply rearranged_iff in H; [|exact V]. destruct H as (L & _ & HPm).
    assert (I : In (v m' i) (slice m' first last)).
    { apply in_slice. exists i. split; [exact Hi|]. apply nth_error_v. lia. }
    apply (Permutation_in _ (Permutation_sym HPm)) in I. apply in_slice in I. destruct I as (j & Hj & Ej).
    apply v_nth_error in Ej. rewrite <- Ej. now apply HP.
  Qed.

  Lemma rearranged_sym m first last m' : valid m first last -> rearranged m first last m' -> rearranged m' first last m.
  Proof.
    intros V H. pose proof (rearranged_valid m first last m' first last V H V) as V'.
    apply rearranged_iff in H; [|exact V]. destruct H as (L & O & HP). apply rearranged_iff; [exact V'|].
    split; [lia|]. split; [|now symmetry]. intros j Hj. symmetry. now apply O.
  Qed.

  Section Comp.
    Variable comp : A -> A -> bool.

    Lemma rel_v m i m' j : i < length m -> j < length m' ->
      (rel comp m i m' j <-> comp (v m i) (v m' j) = true).
    Proof.
      intros Hi Hj. split.
      - intros (x & y & Hx & Hy & H). apply v_nth_error in Hx, Hy. now subst.
      - intros H. exists (v m i), (v m' j). repeat split; auto using nth_error_v.
    Qed.

    Lemma nrel_v m i m' j : i < length m -> j < length m' ->
      (~ rel comp m i m' j <-> comp (v m i) (v m' j) = false).
    Proof.
      intros Hi Hj. rewrite rel_v by assumption. destruct (comp _ _); split; congruence.
    Qed.

    Lemma sorted_v m first last : valid m first last ->
      (sorted_range comp m first last <-> forall i, first <= i -> S i < last -> comp (v m (S i)) (v m i) = false).
    Proof.
      intros [V1 V2]. split; intros H i H1 H2.
      - apply nrel_v; try lia. now apply H.
      - apply nrel_v; try lia. now apply H.
    Qed.

    Hypothesis W : strict_weak_order comp.

    Lemma sorted_v2 m first last : valid m first last ->
      (sorted_range comp m first last <-> forall i j, first <= i -> i < j -> j < last -> comp (v m j) (v m i) = false).
    Proof.
      intros V. rewrite sorted_v by exact V. split; intros H.
      - intros i j Hi Hij Hj. induction j as [|j IH]; [lia|].
        destruct (Nat.eq_dec i j) as [->|]; [apply H; lia|].
        apply (swo_neg comp W _ (v m j)); [apply H; lia|apply IH; lia].
      - intros i Hi Hj. apply H; lia.
    Qed.

    Lemma heap_v m first last : valid m first last ->
      (heap comp m first last <-> forall i, 0 < i -> first + i < last ->
         comp (v m (first + (i - 1) / 2)) (v m (first + i)) = false).
    Proof.
      intros [V1 V2]. split; intros H i H1 H2; pose proof (Nat.div_le_upper_bound (i - 1) 2 i ltac:(lia) ltac:(lia)) as D.
      - apply nrel_v; try lia. now apply H.
      - apply nrel_v; try lia. now apply H.
    Qed.
  End Comp.
End V.
