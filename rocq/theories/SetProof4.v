(** What the searches over two sorted ranges find. *)
From Coq Require Import List Arith Bool Lia Sorted Permutation.
From Verif Require Import Base BaseProof SearchSpec SearchProof OrderModel OrderSpec OrderProof OrderProof2 ListFacts
  MutModel MutSpec MutProof SetModel SetSpec SetProof SetProof3.
Import ListNotations.

Section S.
  Context {A : Type}.
  Variable comp : A -> A -> bool.
  Hypothesis W : strict_weak_order comp.
  Variables la lb : list A.
  Variables first1 last1 first2 last2 : nat.
  Hypothesis V1 : valid la first1 last1.
  Hypothesis V2 : valid lb first2 last2.

  Lemma find_symmetric_difference_correct_lemma d :
    depth_bound ((last1 - first1) + (last2 - first2) + 1) <= d ->
    exists n, find_symmetric_difference comp d la lb first1 last1 first2 last2 = Ok (first1 + n, first2 + n) /\
      first1 + n <= last1 /\ first2 + n <= last2 /\
      (forall t, t < n -> equivalent_at comp la (first1 + t) lb (first2 + t)) /\
      (first1 + n < last1 -> first2 + n < last2 -> ~ equivalent_at comp la (first1 + n) lb (first2 + n)).
  Proof.
    intros Hd. destruct V1 as [P1 P1'], V2 as [P2 P2'].
    destruct (find_symmetric_difference_inv comp la lb last1 last2 P1' P2' d first1 first2
      (fun i j => i - first1 = j - first2 /\ forall t, t < i - first1 -> equivalent_at comp la (first1 + t) lb (first2 + t)) P1 P2)
      as (i & j & B1 & B2 & (E & H) & F & D).
    - split; [lia|]. intros t Ht. lia.
    - intros i j Hi Hj [E H] Q. split; [lia|]. intros t Ht.
      destruct (Nat.eq_dec t (i - first1)) as [->|]; [|apply H; lia].
      rewrite E at 2. replace (first1 + (i - first1)) with i by lia. replace (first2 + (j - first2)) with j by lia. exact Q.
    - exact Hd.
    - exists (i - first1). replace (first1 + (i - first1)) with i by lia. replace (first2 + (i - first1)) with j by lia.
      split; [exact F|]. split; [lia|]. split; [lia|]. split; [exact H|].
      intros Q1 Q2. destruct D as [D|[D|(_ & _ & D)]]; [lia|lia|exact D].
  Qed.

  Hypothesis S1 : sorted_range comp la first1 last1.
  Hypothesis S2 : sorted_range comp lb first2 last2.

  Lemma sorted_le (l : list A) first last i j x y : valid l first last -> sorted_range comp l first last ->
    first <= i -> i <= j -> j < last -> nth_error l i = Some x -> nth_error l j = Some y -> comp y x = false.
  Proof.
    intros V HS H1 H2 H3 Hx Hy. destruct (comp y x) eqn:C; [|reflexivity]. exfalso.
    apply (sorted_pairs comp W l first last V HS i j H1 H2 H3). now exists y, x.
  Qed.

  Lemma find_intersection_correct_lemma d :
    depth_bound ((last1 - first1) + (last2 - first2) + 1) <= d ->
    exists i j, find_intersection comp d la lb first1 last1 first2 last2 = Ok (i, j) /\
      is_first (has_partner comp la lb first2 last2) first1 last1 i /\
      (i < last1 -> j < last2 /\ is_first (equivalent_at comp la i lb) first2 last2 j) /\
      (i = last1 -> j = last2).
  Proof.
    intros Hd. pose proof V1 as [P1 P1']. pose proof V2 as [P2 P2'].
    destruct (find_intersection_inv comp la lb last1 last2 P1' P2' d first1 first2
      (fun i j => (forall i', first1 <= i' < i -> ~ has_partner comp la lb first2 last2 i') /\
                  (forall j', first2 <= j' < j -> forall i' x y, i <= i' < last1 -> nth_error la i' = Some x ->
                     nth_error lb j' = Some y -> comp y x = true)) P1 P2)
      as (i & j & B1 & B2 & (H1 & H2) & F).
    - split; intros; lia.
    - intros i j x y Hi Hj [H1 H2] Hx Hy. split; intros C.
      + split.
        * intros i' Hi'. destruct (Nat.eq_dec i' i) as [->|]; [|apply H1; lia].
          intros (j' & Hj' & x' & y' & Hx' & Hy' & E1 & E2). assert (x' = x) by congruence. subst x'.
          destruct (Nat.lt_ge_cases j' j) as [Q|Q].
          -- rewrite (H2 j' ltac:(lia) i x y') in E2 by (auto; lia). discriminate.
          -- pose proof (sorted_le lb first2 last2 j j' y y' V2 S2 ltac:(lia) Q ltac:(lia) Hy Hy') as G.
             destruct (swo_split comp W x y' y C); congruence.
        * intros j' Hj' i' x' y' Hi'. apply H2; lia.
      + split; [exact H1|]. intros j' Hj' i' x' y' Hi' Hx' Hy'.
        destruct (Nat.eq_dec j' j) as [->|]; [|apply (H2 j' ltac:(lia) i'); auto].
        assert (y' = y) by congruence. subst y'.
        pose proof (sorted_le la first1 last1 i i' x x' V1 S1 ltac:(lia) ltac:(lia) ltac:(lia) Hx Hx') as G.
        destruct (swo_split comp W y x' x C); congruence.
    - exact Hd.
    - destruct F as [(F & D1 & D2 & Q)|(F & D)].
      + exists i, j. split; [exact F|]. split; [|split; [|lia]].
        * split; [lia|]. split; [exact H1|]. intros _. exists j. split; [lia|exact Q].
        * intros _. split; [lia|]. split; [lia|]. split; [|intros _; exact Q].
          intros j' Hj' (x' & y' & Hx' & Hy' & E1 & E2). rewrite (H2 j' Hj' i x' y') in E2 by (auto; lia). discriminate.
      + exists last1, last2. split; [exact F|]. split; [|split; [lia|auto]].
        split; [lia|]. split; [|lia]. intros i' Hi'.
        destruct (Nat.lt_ge_cases i' i) as [Q|Q]; [apply H1; lia|]. destruct D as [-> | ->]; [lia|].
        intros (j' & Hj' & x' & y' & Hx' & Hy' & E1 & E2).
        rewrite (H2 j' Hj' i' x' y') in E2 by (auto; lia). discriminate.
  Qed.

  (** *** find_difference *)
  Lemma equiv_cong x x' y : equivalent comp x x' -> equiv_to comp x y = equiv_to comp x' y.
  Proof.
    intros E. destruct W as (_ & _ & T). apply Bool.eq_iff_eq_true. rewrite !equiv_iff. destruct E as [E1 E2]. split; intros [Q1 Q2].
    - apply (T x' x y); split; assumption.
    - apply (T x x' y); split; assumption.
  Qed.

  Lemma class_cong x x' xs : equivalent comp x x' -> class comp x xs = class comp x' xs.
  Proof. intros E. unfold class. apply filter_ext. intros y. now apply equiv_cong. Qed.

  Lemma class_snoc z (l : list A) first i x : first <= i -> nth_error l i = Some x ->
    class comp z (slice l first (S i)) = class comp z (slice l first i) ++ (if equiv_to comp z x then [x] else []).
  Proof. intros H Hx. rewrite (slice_snoc l first i x H Hx), class_app, class_cons. now destruct (equiv_to comp z x). Qed.

  Lemma equiv_refl x : equiv_to comp x x = true.
  Proof. apply equiv_iff. split; apply (swo_irr comp W). Qed.

  Lemma find_difference_correct_lemma d :
    depth_bound ((last1 - first1) + (last2 - first2) + 1) <= d ->
    exists i j, find_difference comp d la lb first1 last1 first2 last2 = Ok (i, j) /\
      is_first (unpaired comp la lb first1 first2 last2) first1 last1 i /\
      (i < last1 -> is_first (fun j => rel comp la i lb j) first2 last2 j) /\
      (i = last1 -> j = last2).
  Proof.
    intros Hd. pose proof V1 as [P1 P1']. pose proof V2 as [P2 P2'].
    destruct (find_difference_inv comp la lb last1 last2 P1' P2' d first1 first2
      (fun i j => (forall i', first1 <= i' < i -> ~ unpaired comp la lb first1 first2 last2 i') /\
                  (forall j', first2 <= j' < j -> ~ (i < last1 /\ rel comp la i lb j')) /\
                  (forall x, i < last1 -> nth_error la i = Some x ->
                     length (class comp x (slice la first1 i)) = length (class comp x (slice lb first2 j)))) P1 P2)
      as (i & j & B1 & B2 & (H1 & H2 & H3) & F).
    - split; [intros; lia|]. split; [intros; lia|]. intros x _ _. now rewrite !slice_nil by lia.
    - intros i j x y Hi Hj (H1 & H2 & H3) Hx Hy Cxy. split; intros Cyx.
      + split; [exact H1|]. split.
        * intros j' Hj'. destruct (Nat.eq_dec j' j) as [->|]; [|apply H2; lia].
          intros (_ & x' & y' & Hx' & Hy' & C). congruence.
        * intros x' _ Hx'. assert (x' = x) by congruence. subst x'.
          rewrite (class_snoc x lb first2 j y) by (auto; lia).
          replace (equiv_to comp x y) with false. { rewrite app_nil_r. apply H3; auto; lia. }
          unfold equiv_to. now rewrite Cyx, andb_false_r.
      + assert (Exy : equiv_to comp x y = true) by (apply equiv_iff; auto).
        specialize (H3 x ltac:(lia) Hx).
        assert (CNT : length (class comp x (slice la first1 (S i))) = length (class comp x (slice lb first2 (S j)))).
        { rewrite (class_snoc x la first1 i x), (class_snoc x lb first2 j y) by (auto; lia).
          rewrite Exy, equiv_refl, !app_length. cbn. lia. }
        split; [|split].
        * intros i' Hi'. destruct (Nat.eq_dec i' i) as [->|]; [|apply H1; lia].
          intros (x' & Hx' & C). assert (x' = x) by congruence. subst x'.
          rewrite CNT in C. rewrite (slice_app lb first2 (S j) last2), class_app, app_length in C by lia. lia.
        * intros j' Hj' (Hlt & x' & y' & Hx' & Hy' & C).
          pose proof (sorted_le la first1 last1 i (S i) x x' V1 S1 ltac:(lia) ltac:(lia) ltac:(lia) Hx Hx') as G1.
          pose proof (sorted_le lb first2 last2 j' j y' y V2 S2 ltac:(lia) ltac:(lia) ltac:(lia) Hy' Hy) as G2.
          (* x <= x' < y' <= y <= x *)
          destruct (swo_split comp W x' y y' C) as [D|D]; [|congruence].
          destruct (swo_split comp W x' x y D); congruence.
        * intros x' Hlt Hx'.
          pose proof (sorted_le la first1 last1 i (S i) x x' V1 S1 ltac:(lia) ltac:(lia) ltac:(lia) Hx Hx') as G1.
          destruct (comp x x') eqn:C.
          -- (* x < x': nothing equivalent to x' so far *)
             rewrite !class_none; [reflexivity| |].
             ++ intros z Hz. apply in_slice in Hz. destruct Hz as (t & Ht & Ez). right.
                pose proof (sorted_le lb first2 last2 t j z y V2 S2 ltac:(lia) ltac:(lia) ltac:(lia) Ez Hy) as G2.
                destruct (swo_split comp W x z x' C) as [D|D]; [|exact D].
                destruct (swo_split comp W x y z D); congruence.
             ++ intros z Hz. apply in_slice in Hz. destruct Hz as (t & Ht & Ez). right.
                pose proof (sorted_le la first1 last1 t i z x V1 S1 ltac:(lia) ltac:(lia) ltac:(lia) Ez Hx) as G2.
                destruct (swo_split comp W x z x' C) as [D|D]; [congruence|exact D].
          -- rewrite !(class_cong x' x) by (split; assumption). exact CNT.
    - exact Hd.
    - destruct F as [(F & D1 & D2)|(F & ->)].
      + exists i, j. split; [exact F|]. destruct (nth_error_ex la i ltac:(lia)) as [x Hx].
        split; [|split; [|lia]].
        * split; [lia|]. split; [exact H1|]. intros _. exists x. split; [exact Hx|].
          specialize (H3 x D1 Hx).
          rewrite (class_snoc x la first1 i x), equiv_refl, app_length by (auto; lia). cbn [length].
          rewrite (slice_app lb first2 j last2), class_app, app_length by lia.
          rewrite (class_none comp x (slice lb j last2)); [cbn; lia|].
          intros z Hz. apply in_slice in Hz. destruct Hz as (t & Ht & Ez). left.
          destruct D2 as [-> |(D2 & x' & y & Hx' & Hy & C)]; [lia|]. assert (x' = x) by congruence. subst x'.
          pose proof (sorted_le lb first2 last2 j t y z V2 S2 ltac:(lia) ltac:(lia) ltac:(lia) Hy Ez) as G.
          destruct (swo_split comp W x z y C) as [D|D]; [exact D|congruence].
        * intros _. split; [lia|]. split.
          -- intros j' Hj' R. apply (H2 j' Hj'). auto.
          -- intros Q. destruct D2 as [-> |(D2 & R)]; [lia|exact R].
      + exists last1, last2. split; [exact F|]. split; [|split; [lia|auto]].
        split; [lia|]. split; [|lia]. exact H1.
  Qed.
End S.

Section Facts.
  Context {A : Type}.
  Variable comp : A -> A -> bool.
  Hypothesis W : strict_weak_order comp.
  Implicit Types xs ys out : list A.

  Lemma merge_of_perm_lemma xs ys out : sorted_list comp xs -> sorted_list comp ys ->
    merge_of comp xs ys out -> Permutation (xs ++ ys) out.
  Proof.
    intros Hx Hy H. apply (sorted_list_iff comp W) in Hx, Hy.
    rewrite (merge_of_unique comp W xs ys out (mrg comp xs ys) H (merge_of_mrg comp W xs ys Hx Hy)).
    apply mrg_perm.
  Qed.

  Lemma set_counts_lemma xs ys out z :
    let n l := length (class comp z l) in
    (union_of comp xs ys out -> n out = Nat.max (n xs) (n ys)) /\
    (intersection_of comp xs ys out -> n out = Nat.min (n xs) (n ys)) /\
    (difference_of comp xs ys out -> n out = n xs - n ys) /\
    (symmetric_difference_of comp xs ys out -> n out = (n xs - n ys) + (n ys - n xs)).
  Proof.
    cbv zeta. repeat split; intros [_ H]; rewrite H; rewrite ?app_length, ?skipn_length, ?firstn_length; lia.
  Qed.

  Lemma spec_unique_lemma xs ys out1 out2 :
    (merge_of comp xs ys out1 -> merge_of comp xs ys out2 -> out1 = out2) /\
    (union_of comp xs ys out1 -> union_of comp xs ys out2 -> out1 = out2) /\
    (intersection_of comp xs ys out1 -> intersection_of comp xs ys out2 -> out1 = out2) /\
    (difference_of comp xs ys out1 -> difference_of comp xs ys out2 -> out1 = out2) /\
    (symmetric_difference_of comp xs ys out1 -> symmetric_difference_of comp xs ys out2 -> out1 = out2).
  Proof.
    repeat split; intros [Q1 C1] [Q2 C2]; (apply (sorted_class_eq comp W); [now apply (sorted_list_iff comp W)..|]);
      intros z; now rewrite C1, C2.
  Qed.
End Facts.

Section Ranges.
  Context {A : Type}.
  Variable comp : A -> A -> bool.
  Variables (k d : nat) (la lb : list A) (first1 last1 first2 last2 : nat).

  Lemma merge_range_correct_lemma : strict_weak_order comp -> valid la first1 last1 -> valid lb first2 last2 ->
    sorted_range comp la first1 last1 -> sorted_range comp lb first2 last2 ->
    (last1 - first1) + (last2 - first2) < k ->
    exists out, merge_range comp k la lb first1 last1 first2 last2 = Ok out /\
      merge_of comp (slice la first1 last1) (slice lb first2 last2) out.
  Proof.
    intros W V1 V2 S1 S2 Hk. eexists. rewrite merge_range_ok; [split; [reflexivity|]|apply V1|apply V2|apply V1|apply V2|exact Hk].
    apply (merge_of_mrg comp W); now apply (sorted_range_slice comp W).
  Qed.

  Lemma set_union_range_correct_lemma : strict_weak_order comp -> valid la first1 last1 -> valid lb first2 last2 ->
    sorted_range comp la first1 last1 -> sorted_range comp lb first2 last2 ->
    (last1 - first1) + (last2 - first2) < k ->
    exists out, set_union_range comp k la lb first1 last1 first2 last2 = Ok out /\
      union_of comp (slice la first1 last1) (slice lb first2 last2) out.
  Proof.
    intros W V1 V2 S1 S2 Hk. eexists. rewrite set_union_range_ok; [split; [reflexivity|]|apply V1|apply V2|apply V1|apply V2|exact Hk].
    apply (union_of_setop comp W); now apply (sorted_range_slice comp W).
  Qed.

  Lemma set_intersection_range_correct_lemma : strict_weak_order comp -> valid la first1 last1 -> valid lb first2 last2 ->
    sorted_range comp la first1 last1 -> sorted_range comp lb first2 last2 ->
    (last1 - first1) + (last2 - first2) < k -> depth_bound ((last1 - first1) + (last2 - first2) + 1) <= d ->
    exists out, set_intersection_range comp k d la lb first1 last1 first2 last2 = Ok out /\
      intersection_of comp (slice la first1 last1) (slice lb first2 last2) out.
  Proof.
    intros W V1 V2 S1 S2 Hk Hd. eexists.
    rewrite (set_intersection_range_ok comp W); [split; [reflexivity|]|apply V1|apply V2|apply V1|apply V2|exact Hk|exact Hd].
    apply (intersection_of_setop comp W); now apply (sorted_range_slice comp W).
  Qed.

  Lemma set_difference_range_correct_lemma : strict_weak_order comp -> valid la first1 last1 -> valid lb first2 last2 ->
    sorted_range comp la first1 last1 -> sorted_range comp lb first2 last2 ->
    (last1 - first1) + (last2 - first2) < k -> depth_bound ((last1 - first1) + (last2 - first2) + 1) <= d ->
    exists out, set_difference_range comp k d la lb first1 last1 first2 last2 = Ok out /\
      difference_of comp (slice la first1 last1) (slice lb first2 last2) out.
  Proof.
    intros W V1 V2 S1 S2 Hk Hd. eexists.
    rewrite set_difference_range_ok; [split; [reflexivity|]|apply V1|apply V2|apply V1|apply V2|exact Hk|exact Hd].
    apply (difference_of_setop comp W); now apply (sorted_range_slice comp W).
  Qed.

  Lemma set_symmetric_difference_range_correct_lemma : strict_weak_order comp -> valid la first1 last1 -> valid lb first2 last2 ->
    sorted_range comp la first1 last1 -> sorted_range comp lb first2 last2 ->
    (last1 - first1) + (last2 - first2) < k -> depth_bound ((last1 - first1) + (last2 - first2) + 1) <= d ->
    exists out, set_symmetric_difference_range comp k d la lb first1 last1 first2 last2 = Ok out /\
      symmetric_difference_of comp (slice la first1 last1) (slice lb first2 last2) out.
  Proof.
    intros W V1 V2 S1 S2 Hk Hd. eexists.
    rewrite set_symmetric_difference_range_ok; [split; [reflexivity|]|apply V1|apply V2|apply V1|apply V2|exact Hk|exact Hd].
    apply (symmetric_difference_of_setop comp W); now apply (sorted_range_slice comp W).
  Qed.
End Ranges.
