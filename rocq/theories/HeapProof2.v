(** push_heap, pop_heap, sort_heap, make_heap and partial sorting. *)
From Coq Require Import ZArith List Arith Bool Lia Permutation ZifyBool ZifyNat.
From Verif Require Import Base BaseProof SearchSpec SearchProof OrderSpec OrderProof ListFacts
  MutModel MutSpec MutProof MutProof2 MutProof3 ValFacts HeapModel HeapProof.
Import ListNotations.
Ltac Zify.zify_post_hook ::= Z.div_mod_to_equations.

Section P.
  Context {A : Type}.
  Variable comp : A -> A -> bool.
  Hypothesis W : strict_weak_order comp.

  Section D.
  Variable d0 : A.
  Notation v := (v d0).
  Notation hv := (hv d0).
  Implicit Types (m V : list A) (first last len c p k : nat).

  Lemma hv_v m first i : first <= i -> v m i = hv m first (i - first).
  Proof. intros H. unfold HeapProof.hv. f_equal. lia. Qed.

  Lemma pop_heap_impl_ok (G : Prop) k m first len : first + len <= length m -> len <= k -> 0 < len ->
    (G -> heapf comp (hv m first) len) ->
    wp (pop_heap_impl comp k m first (first + len) len)
       (fun m' => rearranged m first (first + len) m' /\
          (G -> heapf comp (hv m' first) (len - 1) /\ v m' (first + len - 1) = v m first)).
  Proof.
    intros L Hk Hlen HG. unfold pop_heap_impl.
    destruct (Nat.ltb_spec 1 len) as [C|C].
    2: { cbn [wp]. split; [apply rearranged_refl; split; lia|]. intros _. split; [intros i H1 H2; lia|f_equal; lia]. }
    apply wp_bind, wp_dec; [lia|]. apply wp_bind, (wp_swap_v d0); [lia|lia|]. intros m1 L1 E1 R1.
    assert (V : valid m first (first + len)) by (split; lia).
    eapply wp_mono; [apply (push_heap_front_ok comp W d0 G k m1 first (first + len - 1) (len - 1)); [lia|lia|]|].
    { intros g. specialize (HG g). split; [|intros; lia]. intros i H1 H2 H3. pose proof (par_lt i H1). unfold HeapProof.hv.
      rewrite !E1.
      destruct (Nat.eqb_spec (first + par i) first); [lia|]. destruct (Nat.eqb_spec (first + par i) (first + len - 1)); [lia|].
      destruct (Nat.eqb_spec (first + i) first); [lia|]. destruct (Nat.eqb_spec (first + i) (first + len - 1)); [lia|].
      apply HG; lia. }
    intros m2 [R2 H2]. specialize (R1 first (first + len) ltac:(lia) ltac:(lia) ltac:(lia)).
    split.
    - eapply rearranged_trans; [exact V|exact R1|].
      eapply rearranged_wider; [| |apply Nat.le_refl| |exact R2]; [split; lia|lia|lia].
    - intros g. split; [now apply H2|]. rewrite (v_out d0 m1 m2 first (first + (len - 1)));
        [|split; lia|exact R2|lia].
      rewrite E1. destruct (Nat.eqb_spec (first + len - 1) first); [lia|]. now rewrite Nat.eqb_refl.
  Qed.

  Lemma sort_heap_ok (G : Prop) k m first len : first + len <= length m -> len < k ->
    (G -> heapf comp (hv m first) len) ->
    wp (sort_heap comp k m first (first + len))
       (fun m' => rearranged m first (first + len) m' /\
          (G -> forall i j, first <= i -> i < j -> j < first + len -> comp (v m' j) (v m' i) = false)).
  Proof.
    intros L Hk HG. unfold sort_heap. replace (first + len - first) with len by lia.
    assert (V : valid m first (first + len)) by (split; lia).
    apply (wp_iter (fun '((m', last, n) : list A * nat * nat) =>
        last = first + n /\ n <= len /\ rearranged m first (first + len) m' /\
        (G -> heapf comp (hv m' first) n /\
          forall i j, first <= i -> i < j -> first + n <= j -> j < first + len -> comp (v m' j) (v m' i) = false))
      (fun '((m', last, n) : list A * nat * nat) => n)).
    - intros [[m' last] n] (-> & Hn & R & H). pose proof (rearranged_length _ _ _ _ V R) as LM.
      destruct (Nat.ltb_spec 1 n) as [C|C].
      + apply wp_bind. eapply wp_mono; [apply (pop_heap_impl_ok G k m' first n); [lia|lia|lia|intros g; now apply H]|].
        intros m2 [R2 H2]. apply wp_bind, wp_dec; [lia|]. cbn [wp].
        assert (Vn : valid m' first (first + n)) by (split; lia).
        split; [|lia]. split; [lia|]. split; [lia|]. split.
        { eapply rearranged_trans; [exact V|exact R|].
          eapply rearranged_wider; [| |apply Nat.le_refl| |exact R2]; [split; lia|lia|lia]. }
        intros g. destruct (H2 g) as [H3 H4]. destruct (H g) as [H5 H6]. split; [exact H3|].
        intros i j Hi Hij Hj1 Hj2. destruct (Nat.lt_ge_cases j (first + n)) as [Cj|Cj].
        * assert (j = first + n - 1) as -> by lia. rewrite H4.
          apply (rearranged_forall d0 (fun x => comp (v m' first) x = false) m' first (first + n) m2 Vn R2); [|lia].
          intros t Ht. pose proof (heap_root comp W _ n H5 (t - first) ltac:(lia)) as Q.
          unfold HeapProof.hv in Q. rewrite Nat.add_0_r in Q. replace (first + (t - first)) with t in Q by lia. exact Q.
        * rewrite (v_out d0 m' m2 first (first + n) j) by (auto; lia).
          destruct (Nat.lt_ge_cases i (first + n)) as [Ci|Ci].
          -- apply (rearranged_forall d0 (fun x => comp (v m' j) x = false) m' first (first + n) m2 Vn R2); [|lia].
             intros t Ht. apply H6; lia.
          -- rewrite (v_out d0 m' m2 first (first + n) i) by (auto; lia). apply H6; lia.
      + cbn [wp]. split; [exact R|]. intros g i j Hi Hij Hj. destruct (H g) as [_ H6]. apply H6; lia.
    - split; [reflexivity|]. split; [lia|]. split; [now apply rearranged_refl|]. intros g. split; [now apply HG|]. intros; lia.
    - lia.
  Qed.

  (** make_heap only permutes, and leaves a descending range alone. *)
  Lemma push_heap_back_desc k m first len n : first + len <= length m -> n <= len -> 0 < len ->
    (forall i j, first <= i -> i < j -> j < first + len -> comp (v m i) (v m j) = false) ->
    push_heap_back comp k m first (first + len) n = Ok m.
  Proof.
    intros L Hn Hlen H. unfold push_heap_back. destruct (Nat.ltb_spec 1 n) as [C|C]; [|reflexivity].
    apply wp_det. apply wp_bind, wp_dec; [lia|].
    apply wp_bind, (wp_rd_v d0); [lia|]. apply wp_bind, (wp_rd_v d0); [lia|].
    rewrite H by lia. cbn. reflexivity.
  Qed.

  Lemma make_heap_ok (G : Prop) k m first last : valid m first last -> last - first < k ->
    (G -> forall i j, first <= i -> i < j -> j < last -> comp (v m i) (v m j) = false) ->
    wp (make_heap comp k m first last) (fun m' => rearranged m first last m' /\ (G -> m' = m)).
  Proof.
    intros V Hk HG. pose proof V as [V1 V2]. unfold make_heap. destruct (Nat.ltb_spec 1 (last - first)) as [C|C].
    2: { cbn [wp]. split; [now apply rearranged_refl|auto]. }
    apply (wp_iter (fun '((m', l, i) : list A * nat * nat) =>
        l = first + i /\ 0 < i <= last - first /\ rearranged m first last m' /\ (G -> m' = m))
      (fun '((m', l, i) : list A * nat * nat) => last - first - i)).
    - intros [[m' l] i] (-> & Hi & R & H). pose proof (rearranged_length _ _ _ _ V R) as LM.
      destruct (Nat.ltb_spec i (last - first)) as [D|D].
      + replace (S (first + i)) with (first + S i) by lia. apply wp_bind.
        apply (wp_mono _ (fun m2 => rearranged m' first last m2 /\ (G -> m2 = m))).
        2: { intros m2 [R2 H2]. cbn [wp]. split; [|lia]. split; [lia|]. split; [lia|]. split; [|exact H2].
             eapply rearranged_trans; eauto. }
        pose proof (push_heap_back_ok comp W d0 False k m' first (S i) i ltac:(lia) ltac:(lia) ltac:(lia) ltac:(lia)) as H1.
        destruct (wp_out _ _ (H1 ltac:(easy))) as (m2 & E2 & R2 & _). rewrite E2. cbn [wp]. split.
        * eapply rearranged_wider; [| |apply Nat.le_refl| |exact R2]; [split; lia|lia|lia].
        * intros g. specialize (H g). subst m'. rewrite push_heap_back_desc in E2; [now injection E2|lia|lia|lia|].
          intros a b Ha Hab Hb. apply (HG g); lia.
      + cbn [wp]. split; [exact R|exact H].
    - split; [lia|]. split; [lia|]. split; [now apply rearranged_refl|auto].
    - lia.
  Qed.

  (** *** partial_sort *)
  Lemma partial_sort_ok (G : Prop) k m first middle last : valid m first last -> first <= middle <= last -> last - first < k ->
    (G -> exists h, make_heap comp k m first middle = Ok h /\ heap comp h first middle) ->
    wp (partial_sort comp k m first middle last)
       (fun m' => rearranged m first last m' /\
          (G -> (forall i j, first <= i -> i < j -> j < middle -> comp (v m' j) (v m' i) = false) /\
                (forall i j, first <= i < middle -> middle <= j < last -> comp (v m' j) (v m' i) = false))).
  Proof.
    intros V Hm Hk HG. pose proof V as [V1 V2]. unfold partial_sort. apply wp_bind.
    assert (Vm : valid m first middle) by (split; lia).
    destruct (wp_out _ _ (make_heap_ok False k m first middle Vm ltac:(lia) ltac:(easy))) as (m0 & E0 & R0 & _).
    rewrite E0 in *. cbn [wp]. set (len := middle - first) in *.
    assert (Emid : middle = first + len) by (unfold len; lia).
    pose proof (rearranged_length _ _ _ _ Vm R0) as L0.
    assert (H0 : G -> heapf comp (hv m0 first) len).
    { intros g. destruct (HG g) as (h & Eh & Hh). injection Eh as <-. apply (heap_hv comp d0 m0 first len); [lia|]. now rewrite <- Emid. }
    assert (R0' : rearranged m first last m0) by (eapply rearranged_wider; [exact V| | | |exact R0]; lia).
    apply wp_bind.
    apply (wp_mono _ (fun m' => rearranged m first last m' /\
      (G -> heapf comp (hv m' first) len /\
        (forall i j, first <= i < middle -> middle <= j < last -> comp (v m' j) (v m' i) = false)))).
    - apply (wp_iter (fun '((m', i) : list A * nat) => middle <= i <= last /\ rearranged m first last m' /\
        (G -> heapf comp (hv m' first) len /\
          (forall a b, first <= a < middle -> middle <= b < i -> comp (v m' b) (v m' a) = false)))
        (fun '((m', i) : list A * nat) => last - i)).
      + intros [m' i] (Hi & R & H). pose proof (rearranged_length _ _ _ _ V R) as LM.
        destruct (Nat.eqb_spec i last) as [->|Ni].
        { cbn [wp]. split; [exact R|exact H]. }
        apply wp_bind, (wp_rd_v d0); [lia|]. apply wp_bind, (wp_rd_v d0); [lia|].
        assert (TOP : G -> len > 0 -> forall a, first <= a < middle -> comp (v m' first) (v m' a) = false).
        { intros g Hl a Ha. destruct (H g) as [H1 _]. pose proof (heap_root comp W _ len H1 (a - first) ltac:(lia)) as Q.
          unfold HeapProof.hv in Q. rewrite Nat.add_0_r in Q. replace (first + (a - first)) with a in Q by lia. exact Q. }
        destruct (comp (v m' i) (v m' first)) eqn:C.
        * apply wp_bind, (wp_swap_v d0); [lia|lia|]. intros m1 L1 E1 R1.
          apply wp_bind.
          eapply wp_mono; [apply (push_heap_front_ok comp W d0 G k m1 first middle len); [lia|lia|]|].
          { intros g. destruct (H g) as [H1 _]. split; [|intros; lia]. intros t T1 T2 T3. pose proof (par_lt t T1).
            unfold HeapProof.hv. rewrite !E1.
            destruct (Nat.eqb_spec (first + par t) i); [lia|]. destruct (Nat.eqb_spec (first + par t) first); [lia|].
            destruct (Nat.eqb_spec (first + t) i); [lia|]. destruct (Nat.eqb_spec (first + t) first); [lia|].
            apply H1; lia. }
          intros m2 [R2 H2]. cbn [wp]. split; [|lia]. split; [lia|].
          assert (Vm1 : valid m1 first (first + len)) by (split; lia).
          split.
          { eapply rearranged_trans; [exact V|exact R|].
            eapply rearranged_trans; [split; lia|apply (R1 first last); lia|].
            eapply rearranged_wider; [| |apply Nat.le_refl| |exact R2]; [split; lia|lia|lia]. }
          intros g. split; [now apply H2|]. intros a b Ha Hb. destruct (H g) as [H3 H4].
          rewrite (v_out d0 m1 m2 first (first + len) b) by (auto; lia).
          apply (rearranged_forall d0 (fun x => comp (v m1 b) x = false) m1 first (first + len) m2 Vm1 R2); [|lia].
          intros t Ht. rewrite !E1.
          destruct (Nat.eqb_spec t i); [lia|].
          destruct (Nat.eqb_spec b i) as [->|Nb].
          -- (* the old top, now at i *)
             destruct (Nat.eqb_spec t first) as [->|Nt]; [now apply (swo_asym comp W)|apply TOP; auto; lia].
          -- destruct (Nat.eqb_spec b first); [lia|].
             destruct (Nat.eqb_spec t first) as [->|Nt]; [|apply H4; lia].
             apply (swo_neg comp W _ (v m' first)); [apply H4; lia|now apply (swo_asym comp W)].
        * cbn [wp]. split; [|lia]. split; [lia|]. split; [exact R|]. intros g. destruct (H g) as [H3 H4].
          split; [exact H3|]. intros a b Ha Hb. destruct (Nat.eq_dec b i) as [->|Nb]; [|apply H4; lia].
          apply (swo_neg comp W _ (v m' first)); [exact C|]. apply TOP; auto; lia.
      + split; [lia|]. split; [exact R0'|]. intros g. split; [now apply H0|]. intros; lia.
      + lia.
    - intros m1 [R1 H1]. pose proof (rearranged_length _ _ _ _ V R1) as L1. rewrite Emid.
      eapply wp_mono; [apply (sort_heap_ok G k m1 first len); [lia|lia|intros g; now apply H1]|].
      intros m2 [R2 H2]. split.
      + eapply rearranged_trans; [exact V|exact R1|].
        eapply rearranged_wider; [| |apply Nat.le_refl| |exact R2]; [split; lia|lia|lia].
      + intros g. split; [now apply H2|]. intros i j Hi Hj. destruct (H1 g) as [_ H3].
        assert (V' : valid m1 first (first + len)) by (split; lia).
        rewrite (v_out d0 m1 m2 first (first + len) j) by (auto; lia).
        apply (rearranged_forall d0 (fun x => comp (v m1 j) x = false) m1 first (first + len) m2 V' R2); [|lia].
        intros t Ht. apply H3; lia.
  Qed.
  End D.

  (** ** Without default value *)
  Lemma push_heap_correct_lemma k m first last : valid m first last -> first < last ->
    heap comp m first (last - 1) -> last - first <= k ->
    exists m', push_heap comp k m first last = Ok m' /\ rearranged m first last m' /\ heap comp m' first last.
  Proof.
    intros [V1 V2] Hlt H Hk. destruct m as [|d0 m0]; [cbn in V2; lia|]. set (m := d0 :: m0) in *. clearbody m.
    apply wp_out. unfold push_heap.
    pose proof (push_heap_back_ok comp W d0 True k m first (last - first) (last - first) ltac:(lia) ltac:(lia) ltac:(lia) Hk) as Q.
    replace (first + (last - first)) with last in Q by lia.
    eapply wp_mono; [apply Q|].
    - intros _. split; [reflexivity|]. apply (heap_hv comp d0 m first (last - first - 1)); [lia|].
      replace (first + (last - first - 1)) with (last - 1) by lia. exact H.
    - intros m' [R H']. split; [exact R|]. pose proof (rearranged_length _ _ _ _ (conj V1 V2) R) as L.
      replace last with (first + (last - first)) by lia. apply (heap_hv comp d0); [lia|]. now apply H'.
  Qed.

  Lemma pop_heap_correct_lemma k m first last : valid m first last -> first < last ->
    heap comp m first last -> last - first <= k ->
    exists m', pop_heap comp k m first last = Ok m' /\ rearranged m first last m' /\
      heap comp m' first (last - 1) /\ nth_error m' (last - 1) = nth_error m first /\
      forall i, first <= i < last -> ~ rel comp m' (last - 1) m' i.
  Proof.
    intros V Hlt H Hk. pose proof V as [V1 V2]. destruct m as [|d0 m0]; [cbn in V2; lia|]. set (m := d0 :: m0) in *. clearbody m.
    apply wp_out. unfold pop_heap.
    assert (HH : heapf comp (hv d0 m first) (last - first)).
    { apply (heap_hv comp d0); [lia|]. now replace (first + (last - first)) with last by lia. }
    pose proof (pop_heap_impl_ok d0 True k m first (last - first) ltac:(lia) Hk ltac:(lia) ltac:(auto)) as Q.
    replace (first + (last - first)) with last in Q by lia.
    eapply wp_mono; [exact Q|]. intros m' [R H']. destruct (H' I) as [H1 H2].
    pose proof (rearranged_length _ _ _ _ V R) as L. split; [exact R|]. split.
    { replace (last - 1) with (first + (last - first - 1)) by lia. apply (heap_hv comp d0); [lia|exact H1]. }
    split; [rewrite !(nth_error_v d0) by lia; now rewrite H2|].
    intros i Hi. apply (nrel_v d0); [lia|lia|]. rewrite H2.
    apply (rearranged_forall d0 (fun x => comp (v d0 m first) x = false) m first last m' V R); [|exact Hi].
    intros t Ht. pose proof (heap_root comp W _ _ HH (t - first) ltac:(lia)) as G.
    unfold hv in G. rewrite Nat.add_0_r in G. replace (first + (t - first)) with t in G by lia. exact G.
  Qed.

  Lemma sort_heap_correct_lemma k m first last : valid m first last -> heap comp m first last -> last - first < k ->
    exists m', sort_heap comp k m first last = Ok m' /\ rearranged m first last m' /\ sorted_range comp m' first last.
  Proof.
    intros V H Hk. pose proof V as [V1 V2]. destruct m as [|d0 m0]; [|set (m := d0 :: m0) in *; clearbody m].
    - cbn in V2. exists []. unfold sort_heap.
      replace (last - first) with 0 by lia. destruct k; [lia|]. cbn. split; [reflexivity|].
      split; [apply rearranged_refl; split; cbn; lia|]. intros i Hi Hj. lia.
    - apply wp_out.
      pose proof (sort_heap_ok d0 True k m first (last - first) ltac:(lia) ltac:(lia)) as Q.
      replace (first + (last - first)) with last in Q by lia.
      eapply wp_mono; [apply Q|].
      + intros _. apply (heap_hv comp d0); [lia|]. now replace (first + (last - first)) with last by lia.
      + intros m' [R S]. split; [exact R|]. pose proof (rearranged_length _ _ _ _ V R) as L.
        apply (sorted_v2 d0 comp W); [split; lia|]. now apply S.
  Qed.

  Lemma make_heap_partial_lemma k m first last : valid m first last -> last - first < k ->
    exists m', make_heap comp k m first last = Ok m' /\ rearranged m first last m' /\
      (sorted_range (fun x y => comp y x) m first last -> m' = m /\ heap comp m' first last).
  Proof.
    intros V Hk. pose proof V as [V1 V2]. destruct m as [|d0 m0]; [|set (m := d0 :: m0) in *; clearbody m].
    - cbn in V2. exists []. unfold make_heap.
      replace (last - first) with 0 by lia. cbn. split; [reflexivity|].
      split; [apply rearranged_refl; split; cbn; lia|]. intros _. split; [reflexivity|]. intros i Hi Hj. lia.
    - apply wp_out.
      pose proof (make_heap_ok d0 (sorted_range (fun x y => comp y x) m first last) k m first last V Hk) as Q.
      assert (W' : strict_weak_order (fun x y => comp y x)).
      { destruct W as (I & T & E). split; [|split].
        - intros x. apply I.
        - intros x y z Hxy Hyz. eapply T; eauto.
        - intros x y z [H1 H2] [H3 H4]. destruct (E x y z) as [Q1 Q2]; [split; assumption|split; assumption|]. split; assumption. }
      assert (D : sorted_range (fun x y => comp y x) m first last ->
                  forall i j, first <= i -> i < j -> j < last -> comp (v d0 m i) (v d0 m j) = false).
      { intros S. exact (proj1 (sorted_v2 d0 _ W' m first last V) S). }
      eapply wp_mono; [apply Q; exact D|].
      intros m' [R S]. split; [exact R|]. intros HS. specialize (S HS). subst m'. split; [reflexivity|].
      apply (heap_v d0 comp); [exact V|]. intros i Hi Hj. apply (D HS); lia.
  Qed.

  Lemma partial_sort_partial_lemma k m first middle last : valid m first last -> first <= middle <= last -> last - first < k ->
    exists m', partial_sort comp k m first middle last = Ok m' /\ rearranged m first last m' /\
      ((exists h, make_heap comp k m first middle = Ok h /\ heap comp h first middle) ->
       sorted_range comp m' first middle /\
       forall i j, first <= i < middle -> middle <= j < last -> ~ rel comp m' j m' i).
  Proof.
    intros V Hm Hk. pose proof V as [V1 V2]. destruct m as [|d0 m0]; [|set (m := d0 :: m0) in *; clearbody m].
    - cbn in V2. exists []. assert (first = 0) as -> by lia. assert (middle = 0) as -> by lia.
      assert (last = 0) as -> by lia. unfold partial_sort, make_heap, sort_heap. cbn. destruct k; [lia|]. cbn. split; [reflexivity|].
      split; [apply rearranged_refl; split; cbn; lia|]. intros _. split; [intros i Hi Hj; lia|]. intros; lia.
    - apply wp_out.
      eapply wp_mono; [apply (partial_sort_ok d0 _ k m first middle last V Hm Hk (fun g => g))|].
      intros m' [R S]. split; [exact R|]. pose proof (rearranged_length _ _ _ _ V R) as L.
      intros g. destruct (S g) as [S1 S2]. split.
      + apply (sorted_v2 d0 comp W); [split; lia|exact S1].
      + intros i j Hi Hj. apply (nrel_v d0); [lia|lia|]. now apply S2.
  Qed.
End P.

Lemma make_heap_refuted_lemma :
  make_heap Nat.ltb 9 [1;2] 0 2 = Ok [1;2] /\ ~ heap Nat.ltb [1;2] 0 2.
Proof.
  split; [reflexivity|]. intros H. apply (H 1); [lia|lia|]. exists 1, 2. repeat split.
Qed.

Lemma partial_sort_refuted_lemma :
  partial_sort Nat.ltb 9 [1;2] 0 2 2 = Ok [2;1] /\ ~ sorted_range Nat.ltb [2;1] 0 2.
Proof.
  split; [reflexivity|]. intros H. apply (H 0); [lia|lia|]. exists 1, 2. repeat split.
Qed.
