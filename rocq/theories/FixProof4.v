(** Fixed containers: heaps without default value, permutations. *)
From Coq Require Import List Arith NArith Bool Lia Permutation ZArith ZifyBool ZifyNat.
From Verif Require Import Base BaseProof SearchModel SearchSpec SearchProof OrderSpec OrderModel OrderProof ListFacts
  MutModel MutSpec MutProof MutProof2 MutProof3 SetSpec SetProof ValFacts HeapProof SortSpec SortProof SortProof2 SortProof3
  SortProof5 SortProof6.
From Verif Require Import FixModel FixSpec FixProof FixProof2 FixProof3.
Import ListNotations.

Section P.
  Context {A : Type}.
  Variable comp : A -> A -> bool.
  Hypothesis W : strict_weak_order comp.
  Implicit Types (c : cont A).

  Lemma step_reordered c c' : step (csize c) c c' -> reordered c c'.
  Proof. exact (fun H => H). Qed.

  Lemma heap_g d0 c len : wf c -> len <= csize c ->
    (heap comp (cbase c) (coff c) (coff c + len) <-> heapf comp (g d0 c) len).
  Proof. intros Wc L. unfold wf in Wc. apply (heap_hv comp d0). lia. Qed.

  Lemma fx_push_heap_correct_lemma d c : wf c -> 0 < csize c -> csize c <= d ->
    heap comp (cbase c) (coff c) (coff c + csize c - 1) ->
    exists c', fx_push_heap comp d c = Ok c' /\ reordered c c' /\
      heap comp (cbase c') (coff c') (coff c' + csize c').
  Proof.
    intros Wc Hs Hd H. pose proof Wc as Wc'. unfold wf in Wc'.
    destruct (cbase c) as [|d0 m0] eqn:E; [cbn in Wc'; lia|]. rewrite <- E in *. clear E m0.
    apply wp_out. unfold fx_push_heap. replace (csize c =? 0) with false by lia.
    eapply wp_mono; [apply (push_heap_impl_ok comp W d0 d c (csize c) (csize c - 1) Wc); try lia|].
    - replace (coff c + csize c - 1) with (coff c + (csize c - 1)) in H by lia. apply (heap_g d0) in H; [|exact Wc|lia].
      split.
      + intros i H1 H2 H3. apply H; lia.
      + intros i H1 H2 H3 H4. pose proof (par_lt i H1). lia.
    - intros c' [S1 H1]. split; [exact S1|]. pose proof (step_wf _ _ _ Wc (Nat.le_refl _) S1) as W1.
      apply (heap_g d0); [exact W1|lia|]. destruct S1 as (_ & -> & _). exact H1.
  Qed.

  Lemma fx_pop_heap_correct_lemma d c : wf c -> 0 < csize c -> csize c <= d ->
    heap comp (cbase c) (coff c) (coff c + csize c) ->
    exists c', fx_pop_heap comp d c = Ok c' /\ reordered c c' /\
      heap comp (cbase c') (coff c') (coff c' + csize c' - 1) /\
      nth_error (cbase c') (coff c' + csize c' - 1) = nth_error (cbase c) (coff c) /\
      forall i, coff c' <= i < coff c' + csize c' -> ~ rel comp (cbase c') (coff c' + csize c' - 1) (cbase c') i.
  Proof.
    intros Wc Hs Hd H. pose proof Wc as Wc'. unfold wf in Wc'.
    destruct (cbase c) as [|d0 m0] eqn:E; [cbn in Wc'; lia|]. rewrite <- E in *. clear E m0.
    apply (heap_g d0) in H; [|exact Wc|lia]. pose proof (heap_root comp W (g d0 c) (csize c) H) as Top.
    apply wp_out. unfold fx_pop_heap. replace (csize c =? 0) with false by lia.
    pose proof (pop_root_ok comp W d0 d c (csize c) Wc (Nat.le_refl _) Hs Hd H) as P. unfold swap_at in P.
    rewrite Nat.add_0_r in P. replace (coff c + csize c - 1) with (coff c + (csize c - 1)) by lia.
    assert (SZ : forall c1, fx_swap_element c (coff c) (coff c + (csize c - 1)) = Ok c1 -> csize c1 = csize c).
    { intros c1. rewrite swap_element_iter by (assumption || lia). destruct (iter_swap _ _ _); cbn [bind]; [|easy..]. now intros [= <-]. }
    destruct (fx_swap_element c (coff c) (coff c + (csize c - 1))) as [c1| |] eqn:E; cbn [bind] in P |- *; try easy.
    rewrite (SZ c1 eq_refl). eapply wp_mono; [exact P|]. intros c' (S1 & H1 & H2).
    pose proof (step_wf _ _ _ Wc (Nat.le_refl _) S1) as W1. pose proof S1 as (E1 & E2 & _). pose proof W1 as W1'. unfold wf in W1'.
    split; [exact S1|]. split; [|split].
    - replace (coff c' + csize c' - 1) with (coff c' + (csize c - 1)) by lia. apply (heap_g d0); [exact W1|lia|exact H1].
    - rewrite !(nth_error_v d0) by lia. f_equal. unfold g, hv in H2. rewrite Nat.add_0_r in H2. rewrite <- H2. f_equal. lia.
    - intros i Hi. apply (nrel_v d0); [lia|lia|].
      assert (X : comp (g d0 c 0) (g d0 c' (i - coff c')) = false).
      { apply (step_forall d0 (fun x => comp (g d0 c 0) x = false) (csize c) c c'); [exact Wc|lia|exact S1|exact Top|lia]. }
      rewrite <- H2 in X. unfold g, hv in X. replace (coff c' + (i - coff c')) with i in X by lia.
      replace (coff c' + csize c' - 1) with (coff c' + (csize c - 1)) by lia. exact X.
  Qed.

  Lemma sorted_g d0 c c' len : wf c' -> csize c' = csize c -> coff c' = coff c -> len <= csize c ->
    (forall i j, i < j -> j < len -> comp (g d0 c' j) (g d0 c' i) = false) ->
    sorted_range comp (cbase c') (coff c') (coff c' + len).
  Proof.
    intros W1 E1 E2 L H. unfold wf in W1. apply (sorted_v2 d0 comp W); [split; lia|]. intros i j H1 H2 H3.
    specialize (H (i - coff c') (j - coff c') ltac:(lia) ltac:(lia)). unfold g, hv in H.
    replace (coff c' + (j - coff c')) with j in H by lia. now replace (coff c' + (i - coff c')) with i in H by lia.
  Qed.

  Lemma reordered_refl c : wf c -> reordered c c.
  Proof. intros Wc. apply step_reordered, step_refl; [exact Wc|lia]. Qed.

  Lemma fx_sort_heap_correct_lemma d c : wf c -> csize c < d ->
    heap comp (cbase c) (coff c) (coff c + csize c) ->
    exists c', fx_sort_heap comp d c = Ok c' /\ reordered c c' /\
      sorted_range comp (cbase c') (coff c') (coff c' + csize c').
  Proof.
    intros Wc Hd H. pose proof Wc as Wc'. unfold wf in Wc'. unfold fx_sort_heap.
    destruct (Nat.eq_dec (csize c) 0) as [Z|NZ].
    { exists c. rewrite Z. destruct d; [lia|]. split; [reflexivity|]. split; [now apply reordered_refl|]. intros i H1 H2. lia. }
    destruct (cbase c) as [|d0 m0] eqn:E; [cbn in Wc'; lia|]. rewrite <- E in *. clear E m0.
    apply (heap_g d0) in H; [|exact Wc|lia]. apply wp_out.
    eapply wp_mono; [apply (sort_heap_impl_ok comp W d0 (csize c) d c Wc (Nat.le_refl _) Hd H)|].
    intros c' [S1 H1]. split; [exact S1|]. pose proof (step_wf _ _ _ Wc (Nat.le_refl _) S1) as W1. pose proof S1 as (E1 & E2 & _).
    apply (sorted_g d0 c c'); [exact W1|exact E2|exact E1|lia|]. rewrite E2. exact H1.
  Qed.

  Lemma fx_make_heap_correct_lemma d c : wf c -> 2 * Nat.log2 (csize c) + 3 <= d ->
    exists c', fx_make_heap comp d c = Ok c' /\ reordered c c' /\
      heap comp (cbase c') (coff c') (coff c' + csize c').
  Proof.
    intros Wc Hd. pose proof Wc as Wc'. unfold wf in Wc'. unfold fx_make_heap.
    destruct (Nat.eq_dec (csize c) 0) as [Z|NZ].
    { exists c. rewrite Z. destruct d; [lia|]. split; [reflexivity|]. split; [now apply reordered_refl|]. intros i H1 H2. lia. }
    destruct (cbase c) as [|d0 m0] eqn:E; [cbn in Wc'; lia|]. rewrite <- E in *. clear E m0.
    apply wp_out. eapply wp_mono; [apply (make_heap_ok comp W d0 d c (csize c) Wc (Nat.le_refl _) Hd)|].
    intros c' [S1 H1]. split; [exact S1|]. pose proof (step_wf _ _ _ Wc (Nat.le_refl _) S1) as W1.
    apply (heap_g d0); [exact W1|lia|]. destruct S1 as (_ & -> & _). exact H1.
  Qed.

  Lemma fx_make_partial_heap_correct_lemma d c middle : wf c -> coff c <= middle <= coff c + csize c -> csize c + 3 <= d ->
    exists c', fx_make_partial_heap comp d c middle = Ok c' /\ reordered c c' /\
      heap comp (cbase c') (coff c') middle /\
      forall i j, coff c' <= i < middle -> middle <= j < coff c' + csize c' -> ~ rel comp (cbase c') j (cbase c') i.
  Proof.
    intros Wc M Hd. pose proof Wc as Wc'. unfold wf in Wc'. unfold fx_make_partial_heap.
    destruct (Nat.eq_dec (csize c) 0) as [Z|NZ].
    { exists c. rewrite Z. replace (middle - coff c) with 0 by lia. destruct d; [lia|]. split; [reflexivity|].
      split; [now apply reordered_refl|]. split; [intros i H1 H2|intros i j H1 H2]; lia. }
    destruct (cbase c) as [|d0 m0] eqn:E; [cbn in Wc'; lia|]. rewrite <- E in *. clear E m0.
    apply wp_out. eapply wp_mono; [apply (partial_heap_ok comp W d0 d c (middle - coff c) Wc); lia|].
    intros c' (S1 & H1 & B1). split; [exact S1|]. pose proof (step_wf _ _ _ Wc (Nat.le_refl _) S1) as W1.
    pose proof S1 as (E1 & E2 & _). pose proof W1 as W1'. unfold wf in W1'. split.
    - replace middle with (coff c' + (middle - coff c)) by lia. apply (heap_g d0); [exact W1|lia|exact H1].
    - intros i j Hi Hj. apply (nrel_v d0); [lia|lia|].
      pose proof (B1 (j - coff c') ltac:(lia) ltac:(lia)) as X.
      pose proof (heap_root comp W _ _ H1 (i - coff c') ltac:(lia)) as Y.
      pose proof (swo_neg comp W _ _ _ X Y) as Z. unfold g, hv in Z.
      replace (coff c' + (j - coff c')) with j in Z by lia. now replace (coff c' + (i - coff c')) with i in Z by lia.
  Qed.

  Lemma fx_partial_sort_correct_lemma d c middle : wf c -> coff c <= middle <= coff c + csize c -> csize c + 3 <= d ->
    exists c', fx_partial_sort comp d c middle = Ok c' /\ reordered c c' /\
      sorted_range comp (cbase c') (coff c') middle /\
      forall i j, coff c' <= i < middle -> middle <= j < coff c' + csize c' -> ~ rel comp (cbase c') j (cbase c') i.
  Proof.
    intros Wc M Hd. pose proof Wc as Wc'. unfold wf in Wc'.
    destruct (Nat.eq_dec (csize c) 0) as [Z|NZ].
    { exists c. unfold fx_partial_sort. rewrite Z. replace (middle - coff c) with 0 by lia. destruct d; [lia|]. split; [reflexivity|].
      split; [now apply reordered_refl|]. split; [intros i H1 H2|intros i j H1 H2]; lia. }
    destruct (cbase c) as [|d0 m0] eqn:E; [cbn in Wc'; lia|]. rewrite <- E in *. clear E m0.
    apply wp_out. eapply wp_mono; [apply (fx_partial_sort_ok comp W d0 d c middle Wc M Hd)|].
    intros c' (S1 & H1 & B1). split; [exact S1|]. pose proof (step_wf _ _ _ Wc (Nat.le_refl _) S1) as W1.
    pose proof S1 as (E1 & E2 & _). pose proof W1 as W1'. unfold wf in W1'. split.
    - replace middle with (coff c' + (middle - coff c)) by lia. apply (sorted_g d0 c c'); [exact W1|lia|lia|lia|exact H1].
    - intros i j Hi Hj. apply (nrel_v d0); [lia|lia|].
      pose proof (B1 (i - coff c') (j - coff c') ltac:(lia) ltac:(lia) ltac:(lia)) as Z. unfold g, hv in Z.
      replace (coff c' + (j - coff c')) with j in Z by lia. now replace (coff c' + (i - coff c')) with i in Z by lia.
  Qed.

  Lemma fx_nth_element_partial_lemma d c nth : wf c -> coff c <= nth < coff c + csize c -> csize c + 3 <= d ->
    exists c', fx_nth_element comp d c nth = Ok c' /\ reordered c c' /\
      (forall i, coff c' <= i < nth -> ~ rel comp (cbase c') nth (cbase c') i) /\
      (forall j, nth < j < coff c' + csize c' -> ~ rel comp (cbase c') j (cbase c') nth) /\
      (forall s, reordered c s -> sorted_range comp (cbase s) (coff s) (coff s + csize s) ->
         exists x y, nth_error (cbase c') nth = Some x /\ nth_error (cbase s) nth = Some y /\ equivalent comp x y).
  Proof.
    intros Wc M Hd. pose proof Wc as Wc'. unfold wf in Wc'.
    destruct (cbase c) as [|d0 m0] eqn:E; [cbn in Wc'; lia|]. rewrite <- E in *. clear E m0.
    apply wp_out. eapply wp_mono; [apply (fx_nth_element_ok comp W d0 d c nth Wc M Hd)|].
    intros c' (S1 & B1 & B2). pose proof (step_wf _ _ _ Wc (Nat.le_refl _) S1) as W1.
    pose proof S1 as (E1 & E2 & R1). pose proof W1 as W1'. unfold wf in W1'. unfold g, hv in B1, B2.
    replace (coff c' + (nth - coff c)) with nth in B1, B2 by lia.
    assert (C1 : forall i, coff c' <= i < nth -> comp (v d0 (cbase c') nth) (v d0 (cbase c') i) = false).
    { intros i Hi. specialize (B1 (i - coff c') ltac:(lia)). now replace (coff c' + (i - coff c')) with i in B1 by lia. }
    assert (C2 : forall i, nth < i < coff c' + csize c' -> comp (v d0 (cbase c') i) (v d0 (cbase c') nth) = false).
    { intros i Hi. specialize (B2 (i - coff c') ltac:(lia) ltac:(lia)). now replace (coff c' + (i - coff c')) with i in B2 by lia. }
    split; [exact S1|]. split; [|split].
    - intros i Hi. apply (nrel_v d0); [lia|lia|auto].
    - intros i Hi. apply (nrel_v d0); [lia|lia|auto].
    - intros s RS0 S. pose proof (step_wf _ _ _ Wc (Nat.le_refl _) RS0) as Ws. pose proof RS0 as (F1 & F2 & RS). unfold wf in Ws.
      assert (V : valid (cbase c) (coff c) (coff c + csize c)) by (split; lia).
      pose proof (rearranged_length _ _ _ _ V RS) as LS. pose proof (rearranged_length _ _ _ _ V R1) as L.
      rewrite F1, F2 in S.
      assert (S' : sorted_in comp d0 (cbase s) (coff c) (coff c + csize c)).
      { apply (sorted_in_range comp W d0); [split; lia|exact S]. }
      apply (sorted_pivoted comp d0 _ _ nth) in S'; [|lia].
      exists (v d0 (cbase c') nth), (v d0 (cbase s) nth). split; [apply nth_error_v; lia|]. split; [apply nth_error_v; lia|].
      assert (V' : valid (cbase c') (coff c) (coff c + csize c)) by (split; lia).
      assert (VS : valid (cbase s) (coff c) (coff c + csize c)) by (split; lia).
      assert (R2 : rr (coff c) (coff c + csize c) (cbase c') (cbase s)).
      { split; [lia|]. eapply rearranged_trans; [exact V'|apply rearranged_sym; [exact V|exact R1]|exact RS]. }
      assert (R3 : rr (coff c) (coff c + csize c) (cbase s) (cbase c')).
      { split; [lia|]. apply rearranged_sym; [exact V'|apply R2]. }
      assert (PV : pivoted comp d0 (cbase c') (coff c) nth (coff c + csize c)).
      { split; intros q Hq; [apply C1|apply C2]; lia. }
      split.
      + apply (pivot_unique comp W d0 (cbase c') (cbase s) (coff c) nth (coff c + csize c) V' R2); auto; lia.
      + apply (pivot_unique comp W d0 (cbase s) (cbase c') (coff c) nth (coff c + csize c) VS R3); auto; lia.
  Qed.

  (** ** Permutations *)
  Lemma slice_rev (xs : list A) a b : a <= b <= length xs ->
    slice (rev xs) (length xs - b) (length xs - a) = rev (slice xs a b).
  Proof.
    intros H. assert (L : length (rev (slice xs a b)) = b - a) by (rewrite rev_length, slice_length; lia).
    apply list_ext. intros n. destruct (Nat.lt_ge_cases n (b - a)) as [C|C].
    - rewrite nth_error_slice by lia. rewrite !nth_rev by (rewrite ?slice_length; lia).
      rewrite slice_length by lia. rewrite nth_error_slice by lia. f_equal. lia.
    - transitivity (@None A); [|symmetry]; apply nth_error_None; [rewrite slice_length; rewrite ?rev_length; lia|lia].
  Qed.

  Lemma copy_rev_ok d c n : wf c -> n <= csize c ->
    fx_copy_backward true d (rev (cbase c)) (static_size c - (coff c + csize c)) (static_size c - (coff c + n)) c =
    Ok (Cont (paste (cbase c) (coff c + n) (rev (slice (cbase c) (coff c + n) (coff c + csize c)))) (coff c) (csize c)).
  Proof.
    intros Wc L. pose proof Wc as Wc'. unfold wf in Wc'.
    change (fx_copy_backward true d) with (@fx_copy_backward A true (S (length (cbase c)))).
    unfold static_size. rewrite fx_copy_backward_correct_lemma; [|exact Wc|split; rewrite ?rev_length; lia|lia].
    rewrite slice_rev by lia. unfold with_back. rewrite rev_length, slice_length by lia.
    do 2 f_equal. replace (Nat.min (csize c) _) with (csize c - n) by lia.
    replace (coff c + csize c - (coff c + n) - (csize c - n)) with 0 by lia. cbn [skipn]. f_equal. lia.
  Qed.

  Lemma next_3_ok d0 : forall d c i ii j, wf c -> coff c <= i -> i < ii -> ii < j -> j <= coff c + csize c -> j - ii <= d ->
    comp (v d0 (cbase c) i) (v d0 (cbase c) ii) = true ->
    (forall n, j <= n < coff c + csize c -> comp (v d0 (cbase c) i) (v d0 (cbase c) n) = false) ->
    exists j', ii <= j' < coff c + csize c /\ comp (v d0 (cbase c) i) (v d0 (cbase c) j') = true /\
      (forall n, j' < n < coff c + csize c -> comp (v d0 (cbase c) i) (v d0 (cbase c) n) = false) /\
      fx_next_permutation_impl_3 comp d c i ii j = (c' <- fx_swap_element c i j' ;; fx_next_permutation_impl_4 c' (ii - coff c)).
  Proof.
    induction d as [|d IH]; intros c i ii j Wc Hi Hii Hj He Hd C H; [lia|]. pose proof Wc as Wc'. unfold wf in Wc'.
    cbn [fx_next_permutation_impl_3]. rewrite !(rd_v d0) by lia. cbn [bind].
    destruct (comp _ (v d0 (cbase c) (j - 1))) eqn:C'; cbn [negb].
    - exists (j - 1). split; [lia|]. split; [exact C'|]. split; [intros n Hn; apply H; lia|reflexivity].
    - assert (j - 1 <> ii) by (intros E; rewrite E in C'; congruence).
      apply IH; auto; try lia. intros n Hn. destruct (Nat.eq_dec n (j - 1)) as [->|]; [exact C'|apply H; lia].
  Qed.

  Definition next_result c (r : cont A * bool) : Prop :=
    exists ys, fst r = with_front c ys /\ length ys = csize c /\ next_post comp (elems c) (snd r) ys.

  Lemma next_swap_ok (d0 : A) c i ii j : wf c -> coff c <= i -> ii = S i -> ii <= j < coff c + csize c ->
    desc comp (slice (cbase c) ii (coff c + csize c)) ->
    comp (v d0 (cbase c) i) (v d0 (cbase c) j) = true ->
    (forall n, j < n < coff c + csize c -> comp (v d0 (cbase c) i) (v d0 (cbase c) n) = false) ->
    wp (c' <- fx_swap_element c i j ;; fx_next_permutation_impl_4 c' (ii - coff c)) (next_result c).
  Proof.
    intros Wc Hi Eii Hj D Cj Hlast. pose proof Wc as Wc'. unfold wf in Wc'.
    rewrite swap_element_iter by (lia || assumption).
    set (e := coff c + csize c) in *. set (m := cbase c) in *.
    assert (SL : forall i, i < e -> slice m i e = v d0 m i :: slice m (S i) e).
    { intros q Hq. apply slice_cons; [exact Hq|]. apply nth_error_v. lia. }
    assert (V : valid m (coff c) e) by (split; lia).
    destruct (split3 m (coff c) e V) as (P & Q & Hm & HP).
    set (x := v d0 m i) in *. set (y := v d0 m j) in *.
    set (p := slice m (coff c) i) in *. set (s1 := slice m ii j) in *. set (s2 := slice m (S j) e) in *.
    assert (ES : slice m ii e = s1 ++ y :: s2) by (rewrite (slice_app m ii j e), (SL j) by lia; reflexivity).
    assert (EX : slice m (coff c) e = p ++ x :: s1 ++ y :: s2).
    { rewrite (slice_app m (coff c) i e), (SL i) by lia. rewrite <- Eii. now rewrite ES. }
    assert (Lp : length p = i - coff c) by (apply slice_length; lia).
    assert (Ls1 : length s1 = j - ii) by (apply slice_length; lia).
    assert (Ls2 : length s2 = e - S j) by (apply slice_length; lia).
    assert (SW : iter_swap m i j = Ok (P ++ p ++ y :: s1 ++ x :: s2 ++ Q)).
    { replace i with (length (P ++ p)) by (rewrite app_length; lia).
      replace j with (length (P ++ p) + S (length s1)) by (rewrite app_length; lia).
      rewrite (swap_split m (P ++ p) x s1 y (s2 ++ Q)); [now rewrite <- ?app_assoc|].
      rewrite Hm at 1. rewrite EX. rewrite <- ?app_assoc. cbn [app]. rewrite <- !app_assoc. reflexivity. }
    rewrite SW. cbn [bind]. set (m1 := P ++ p ++ y :: s1 ++ x :: s2 ++ Q).
    assert (E1 : m1 = (P ++ p ++ [y]) ++ (s1 ++ x :: s2) ++ Q).
    { unfold m1. rewrite <- ?app_assoc. cbn [app]. rewrite <- ?app_assoc. reflexivity. }
    assert (LQ : length Q = length m - e).
    { apply (f_equal (@length A)) in Hm. rewrite !app_length, (slice_length m (coff c) e) in Hm by lia. lia. }
    assert (L1 : length m1 = length m) by (rewrite E1, !app_length; cbn [length]; lia).
    assert (LPp : length (P ++ p ++ [y]) = ii) by (rewrite !app_length; cbn [length]; lia).
    assert (E2 : slice m1 ii e = s1 ++ x :: s2).
    { unfold slice. rewrite E1. rewrite <- LPp at 2.
      rewrite skipn_app, skipn_all, Nat.sub_diag. cbn [app skipn].
      replace (e - ii) with (length (s1 ++ x :: s2)) by (rewrite app_length; cbn [length]; lia).
      rewrite firstn_app, firstn_all, Nat.sub_diag. cbn [firstn]. apply app_nil_r. }
    unfold fx_next_permutation_impl_4.
    rewrite copy_rev_ok; [|unfold wf; cbn [cbase coff csize]; lia|cbn [csize]; lia].
    cbn [cbase coff csize bind wp]. fold e. replace (coff c + (ii - coff c)) with ii by lia. rewrite E2.
    exists (p ++ y :: rev (s1 ++ x :: s2)). cbn [fst snd].
    assert (LY : length (p ++ y :: rev (s1 ++ x :: s2)) = csize c).
    { rewrite app_length. cbn [length]. rewrite rev_length, app_length. cbn [length]. lia. }
    split; [|split; [exact LY|]].
    - rewrite with_front_all by lia. f_equal. fold m.
      rewrite <- LPp at 1. rewrite (paste_split m1 _ _ _ _ E1) by apply rev_length.
      rewrite <- HP. rewrite (paste_split m P (slice m (coff c) e) Q); [|exact Hm|rewrite LY, slice_length; lia].
      rewrite <- !app_assoc. cbn [app]. reflexivity.
    - unfold elems. fold m e. rewrite EX.
      assert (NX : next_of comp (p ++ x :: s1 ++ y :: s2) (p ++ y :: rev (s1 ++ x :: s2))).
      { apply (next_of_step comp W); [now rewrite <- ES|exact Cj|].
        intros z Hz. apply in_slice in Hz. destruct Hz as (q & Hq & En). rewrite <- (v_nth_error d0 m q z En). apply Hlast. lia. }
      split; [apply NX|exact NX].
  Qed.

  Lemma next_2_ok (d0 : A) : forall n d c i ii, wf c -> i = coff c + n -> ii = S i -> ii < coff c + csize c -> n + csize c + 2 <= d ->
    desc comp (slice (cbase c) ii (coff c + csize c)) ->
    wp (fx_next_permutation_impl_2 comp d c i ii) (next_result c).
  Proof.
    assert (SWAP : forall d c i ii, wf c -> coff c <= i -> ii = S i -> ii < coff c + csize c -> csize c <= d ->
      desc comp (slice (cbase c) ii (coff c + csize c)) -> comp (v d0 (cbase c) i) (v d0 (cbase c) ii) = true ->
      wp (fx_next_permutation_impl_3 comp d c i ii (coff c + csize c)) (next_result c)).
    { intros d c i ii Wc Hi Eii He Hd D C.
      destruct (next_3_ok d0 d c i ii (coff c + csize c) Wc) as (j & Hj & Cj & Hlast & ->); try lia; [exact C|].
      apply (next_swap_ok d0); auto. }
    assert (SL : forall c i, wf c -> i < coff c + csize c ->
      slice (cbase c) i (coff c + csize c) = v d0 (cbase c) i :: slice (cbase c) (S i) (coff c + csize c)).
    { intros c q Wc Hq. unfold wf in Wc. apply slice_cons; [exact Hq|]. apply nth_error_v. lia. }
    assert (DOWN : forall c i, wf c -> S i < coff c + csize c -> desc comp (slice (cbase c) (S i) (coff c + csize c)) ->
      comp (v d0 (cbase c) i) (v d0 (cbase c) (S i)) = false -> desc comp (slice (cbase c) i (coff c + csize c))).
    { intros c i Wc Hi D C. rewrite (SL c i Wc) by lia. rewrite (SL c (S i) Wc) in D |- * by lia. now apply desc_cons. }
    induction n as [|n IH]; intros [|d] c i ii Wc Ei Eii He Hd D; try lia;
      pose proof Wc as Wc'; unfold wf in Wc'; cbn [fx_next_permutation_impl_2]; rewrite !(rd_v d0) by lia; cbn [bind];
      destruct (comp (v d0 (cbase c) i) (v d0 (cbase c) ii)) eqn:C; try (apply SWAP; auto; lia);
      subst ii; pose proof (DOWN c i Wc He D C) as D'.
    - replace (i =? coff c) with true by lia.
      rewrite fx_reverse_copy_correct_lemma; [|exact Wc|split; lia|lia]. cbn [bind wp].
      eexists. cbn [fst snd]. split; [reflexivity|]. split; [rewrite rev_length, slice_length; lia|].
      replace i with (coff c) in D' by lia. unfold elems.
      destruct (last_perm_desc comp W _ D') as [F1 F2].
      split; [apply Permutation_rev|]. split; [exact F1|]. split; [exact F2|]. apply (asc_sorted comp W). now apply asc_rev.
    - replace (i =? coff c) with false by lia. apply (IH d c (i - 1) i Wc); try lia. exact D'.
  Qed.

  Lemma fx_next_ok d c : wf c -> 2 * csize c + 1 <= d ->
    wp (fx_next_permutation comp d c) (next_result c).
  Proof.
    intros Wc Hd. pose proof Wc as Wc'. unfold wf in Wc'.
    assert (LE : length (elems c) = csize c) by (unfold elems; rewrite slice_length; lia).
    assert (SELF : with_front c (elems c) = c).
    { rewrite with_front_all by lia. unfold elems. rewrite paste_slice by (split; lia). now destruct c. }
    assert (SHORT : csize c <= 1 -> exists ys, c = with_front c ys /\ length ys = csize c /\ next_post comp (elems c) false ys).
    { intros H. exists (elems c). split; [now rewrite SELF|]. split; [exact LE|].
      assert (D : desc comp (elems c)).
      { destruct (elems c) as [|x [|y l]]; cbn in *; [tauto|split; [easy|tauto]|lia]. }
      assert (E : rev (elems c) = elems c) by (destruct (elems c) as [|x [|y l]]; cbn in *; auto; lia).
      destruct (last_perm_desc comp W _ D) as [F1 F2]. rewrite E in F2. split; [reflexivity|]. split; [exact F1|]. split; [exact F2|].
      apply (asc_sorted comp W). rewrite <- E. now apply asc_rev. }
    unfold fx_next_permutation. destruct (Nat.eqb_spec (csize c) 0) as [Z|N]; [cbn [wp fst snd]; apply SHORT; lia|].
    destruct (Nat.eqb_spec (S (coff c)) (coff c + csize c)) as [Z|N']; [cbn [wp fst snd]; apply SHORT; lia|].
    destruct (cbase c) as [|d0 m0] eqn:E; [cbn in Wc'; lia|]. rewrite <- E in *. clear E m0.
    apply (next_2_ok d0 (csize c - 2)); try lia; [exact Wc|].
    rewrite (slice_cons (cbase c) _ _ (v d0 (cbase c) (coff c + csize c - 1))); [|lia|apply nth_error_v; lia].
    rewrite slice_nil by lia. cbn. split; [easy|tauto].
  Qed.

  Lemma fx_next_permutation_correct_lemma d c : wf c -> 2 * csize c + 1 <= d ->
    exists ys b, fx_next_permutation comp d c = Ok (with_front c ys, b) /\ Permutation (elems c) ys /\
      (b = true -> next_of comp (elems c) ys) /\
      (b = false -> is_last_perm comp (elems c) /\ is_first_perm comp ys /\ sorted_list comp ys).
  Proof.
    intros Wc Hd. pose proof (fx_next_ok d c Wc Hd) as H.
    destruct (fx_next_permutation comp d c) as [[c' b]| |]; cbn [wp fst snd] in H; try easy.
    destruct H as (ys & H0 & _ & HP & H). cbn [fst snd] in *. subst c'. exists ys, b. split; [reflexivity|]. split; [exact HP|].
    destruct b; split; intros E; try discriminate; auto.
  Qed.
End P.

Section Q.
  Context {A : Type}.
  Variable comp : A -> A -> bool.
  Hypothesis W : strict_weak_order comp.
  Implicit Types (c : cont A).
  Let flp x y := comp y x.

  Lemma fx_prev_3 : forall d c i ii j, fx_prev_permutation_impl_3 comp d c i ii j = fx_next_permutation_impl_3 flp d c i ii j.
  Proof.
    induction d as [|d IH]; intros c i ii j; [reflexivity|]. cbn [fx_prev_permutation_impl_3 fx_next_permutation_impl_3].
    unfold rd. destruct (nth_error (cbase c) (j - 1)) as [y|], (nth_error (cbase c) i) as [x|]; cbn [bind]; try reflexivity.
    now rewrite IH.
  Qed.

  Lemma fx_prev_2 : forall d c i ii, fx_prev_permutation_impl_2 comp d c i ii = fx_next_permutation_impl_2 flp d c i ii.
  Proof.
    induction d as [|d IH]; intros c i ii; [reflexivity|]. cbn [fx_prev_permutation_impl_2 fx_next_permutation_impl_2].
    unfold rd. destruct (nth_error (cbase c) ii) as [y|], (nth_error (cbase c) i) as [x|]; cbn [bind]; try reflexivity.
    now rewrite IH, fx_prev_3.
  Qed.

  Lemma fx_prev_permutation_correct_lemma d c : wf c -> 2 * csize c + 1 <= d ->
    exists ys b, fx_prev_permutation comp d c = Ok (with_front c ys, b) /\ Permutation (elems c) ys /\
      (b = true -> next_of comp ys (elems c)) /\
      (b = false -> is_first_perm comp (elems c) /\ is_last_perm comp ys).
  Proof.
    intros Wc Hd. assert (E : fx_prev_permutation comp d c = fx_next_permutation flp d c).
    { unfold fx_prev_permutation, fx_next_permutation. now rewrite fx_prev_2. }
    rewrite E. destruct (fx_next_permutation_correct_lemma flp (flip_swo comp W) d c Wc Hd) as (ys & b & E' & HP & H1 & H2).
    exists ys, b. split; [exact E'|]. split; [exact HP|]. split.
    - intros Hb. destruct (H1 Hb) as (P1 & P2 & P3). split; [now apply Permutation_sym|]. split; [now apply (before_flip comp)|].
      intros zs Q1 Q2 Q3. apply (P3 zs); [now transitivity ys|now apply (before_flip comp)|now apply (before_flip comp)].
    - intros Hb. destruct (H2 Hb) as (P1 & P2 & _). split; intros zs Q1 Q2.
      + apply (P1 zs Q1). now apply (before_flip comp).
      + apply (P2 zs Q1). now apply (before_flip comp).
  Qed.
End Q.
