(** Proofs about partitioning, sort and nth_element. *)
From Coq Require Import List Arith NArith Bool Lia Permutation ZArith.
From Verif Require Import Base BaseProof SearchSpec SearchProof OrderSpec OrderModel OrderProof OrderProof3 ListFacts
  MutModel MutSpec MutProof MutProof3 SortModel ValFacts SortProof.
Import ListNotations.

Section P.
  Context {A : Type}.
  Variable comp : A -> A -> bool.
  Hypothesis W : strict_weak_order comp.
  Variable d0 : A.
  Implicit Types (m : list A) (first last i j k p : nat).
  Notation v := (v d0).
  Notation rr := (@rr A).
  Notation le := (le comp).
  Notation sorted_in := (sorted_in comp d0).
  Notation le_refl := (le_refl comp W).
  Notation le_trans := (le_trans comp W).
  Notation lt_le := (lt_le comp W).

  Lemma lt_le_trans a b c : comp a b = true -> le b c -> comp a c = true.
  Proof.
    unfold SortProof.le. intros H1 H2. destruct (comp a c) eqn:C; [reflexivity|].
    pose proof (swo_neg comp W a c b C H2). congruence.
  Qed.
  Lemma le_lt_trans a b c : le a b -> comp b c = true -> comp a c = true.
  Proof.
    unfold SortProof.le. intros H1 H2. destruct (comp a c) eqn:C; [reflexivity|].
    pose proof (swo_neg comp W b a c H1 C). congruence.
  Qed.

  (** ** The scans *)
  Lemma scan_up_ok k m p i e : i <= e < length m -> p < length m -> comp (v m e) (v m p) = false -> e - i < k ->
    wp (scan_up comp k m p i) (fun i' => i <= i' <= e /\ comp (v m i') (v m p) = false /\
      forall q, i <= q < i' -> comp (v m q) (v m p) = true).
  Proof.
    intros He Hp C Hk. unfold scan_up.
    apply (wp_iter (fun i' => i <= i' <= e /\ forall q, i <= q < i' -> comp (v m q) (v m p) = true) (fun i' => e - i')).
    - intros i' [Hi H]. apply wp_bind, (wp_cmp comp d0); [lia|lia|]. destruct (comp (v m i') (v m p)) eqn:C'; cbn [wp].
      + assert (i' <> e) by congruence. split; [|lia]. split; [lia|]. intros q Hq.
        destruct (Nat.eq_dec q i') as [->|]; [exact C'|apply H; lia].
      + auto.
    - split; [lia|]. intros; lia.
    - exact Hk.
  Qed.

  Lemma scan_down_ok k m p j e : e < j -> j <= length m -> p < length m -> comp (v m e) (v m p) = true -> j - e <= k ->
    wp (scan_down comp k m p j) (fun j' => e <= j' < j /\ comp (v m j') (v m p) = true /\
      forall q, j' < q < j -> comp (v m q) (v m p) = false).
  Proof.
    intros He Hj Hp C Hk. unfold scan_down.
    apply (wp_iter (fun j' => e < j' <= j /\ forall q, j' <= q < j -> comp (v m q) (v m p) = false) (fun j' => j' - e - 1)).
    - intros j' [Hj' H]. apply wp_bind, wp_dec; [lia|].
      apply wp_bind, (wp_cmp comp d0); [lia|lia|]. destruct (comp (v m (j' - 1)) (v m p)) eqn:C'; cbn [wp negb].
      + split; [lia|]. split; [exact C'|]. intros q Hq. apply H. lia.
      + assert (j' - 1 <> e) by congruence. split; [|lia]. split; [lia|]. intros q Hq.
        destruct (Nat.eq_dec q (j' - 1)) as [->|]; [exact C'|apply H; lia].
    - split; [lia|]. intros; lia.
    - lia.
  Qed.

  Lemma scan_up_eq_ok k m p i e : i <= e < length m -> p < length m -> comp (v m p) (v m e) = true -> e - i < k ->
    wp (scan_up_eq comp k m p i) (fun i' => i <= i' <= e /\ comp (v m p) (v m i') = true /\
      forall q, i <= q < i' -> comp (v m p) (v m q) = false).
  Proof.
    intros He Hp C Hk. unfold scan_up_eq.
    apply (wp_iter (fun i' => i <= i' <= e /\ forall q, i <= q < i' -> comp (v m p) (v m q) = false) (fun i' => e - i')).
    - intros i' [Hi H]. apply wp_bind, (wp_cmp comp d0); [lia|lia|]. destruct (comp (v m p) (v m i')) eqn:C'; cbn [wp negb].
      + auto.
      + assert (i' <> e) by congruence. split; [|lia]. split; [lia|]. intros q Hq.
        destruct (Nat.eq_dec q i') as [->|]; [exact C'|apply H; lia].
    - split; [lia|]. intros; lia.
    - exact Hk.
  Qed.

  Lemma scan_down_eq_ok k m p j e : e < j -> j <= length m -> p < length m -> comp (v m p) (v m e) = false -> j - e <= k ->
    wp (scan_down_eq comp k m p j) (fun j' => e <= j' < j /\ comp (v m p) (v m j') = false /\
      forall q, j' < q < j -> comp (v m p) (v m q) = true).
  Proof.
    intros He Hj Hp C Hk. unfold scan_down_eq.
    apply (wp_iter (fun j' => e < j' <= j /\ forall q, j' <= q < j -> comp (v m p) (v m q) = true) (fun j' => j' - e - 1)).
    - intros j' [Hj' H]. apply wp_bind, wp_dec; [lia|].
      apply wp_bind, (wp_cmp comp d0); [lia|lia|]. destruct (comp (v m p) (v m (j' - 1))) eqn:C'; cbn [wp negb].
      + assert (j' - 1 <> e) by congruence. split; [|lia]. split; [lia|]. intros q Hq.
        destruct (Nat.eq_dec q (j' - 1)) as [->|]; [exact C'|apply H; lia].
      + split; [lia|]. split; [exact C'|]. intros q Hq. apply H. lia.
    - split; [lia|]. intros; lia.
    - lia.
  Qed.

  Lemma find_less_ok k m p first j : first < j -> j <= length m -> p < length m -> j - first <= k ->
    wp (find_less comp k m p first j) (fun o =>
      match o with
      | Some j' => first < j' < j /\ comp (v m j') (v m p) = true /\ (forall q, j' < q < j -> comp (v m q) (v m p) = false)
      | None => forall q, first < q < j -> comp (v m q) (v m p) = false
      end).
  Proof.
    intros Hj Hl Hp Hk. unfold find_less.
    apply (wp_iter (fun j' => first < j' <= j /\ forall q, j' <= q < j -> comp (v m q) (v m p) = false) (fun j' => j' - first - 1)).
    - intros j' [Hj' H]. apply wp_bind, wp_dec; [lia|]. destruct (Nat.eqb_spec first (j' - 1)) as [E|E].
      { cbn [wp]. intros q Hq. apply H. lia. }
      apply wp_bind, (wp_cmp comp d0); [lia|lia|]. destruct (comp (v m (j' - 1)) (v m p)) eqn:C'; cbn [wp].
      + split; [lia|]. split; [exact C'|]. intros q Hq. apply H. lia.
      + split; [|lia]. split; [lia|]. intros q Hq.
        destruct (Nat.eq_dec q (j' - 1)) as [->|]; [exact C'|apply H; lia].
    - split; [lia|]. intros; lia.
    - lia.
  Qed.

  (** ** split_equal *)
  (** Result: [first, i) are minimal elements, [i, last) are greater *)
  Lemma split_equal_ok k m first last : valid m first last -> 2 <= last - first -> last - first < k ->
    (forall q, first <= q < last -> le (v m first) (v m q)) ->
    wp (split_equal comp k m first last) (fun '(m', o) => rr first last m m' /\
      match o with
      | None => sorted_in m' first last
      | Some i => first < i < last /\ forall a b, first <= a < i -> first <= b < last -> le (v m' a) (v m' b)
      end).
  Proof.
    intros V Hl Hk MIN. pose proof V as [V1 V2]. unfold split_equal. cbv zeta. apply wp_bind, wp_dec; [lia|].
    apply wp_bind, (wp_cmp comp d0); [lia|lia|]. apply wp_bind.
    set (x := v m first) in *.
    apply (wp_mono _ (fun o =>
      match o with
      | None => forall q, first <= q < last -> comp x (v m q) = false
      | Some (m1, i) => rr first last m m1 /\ v m1 first = x /\ first < i <= last - 1 /\ comp x (v m1 (last - 1)) = true /\
          forall q, first <= q < i -> comp x (v m1 q) = false
      end)).
    - destruct (comp x (v m (last - 1))) eqn:C; cbn [negb].
      + cbn [wp]. split; [now apply rr_refl|]. split; [reflexivity|]. split; [lia|]. split; [exact C|].
        intros q Hq. assert (q = first) as -> by lia. apply le_refl.
      + unfold find_greater.
        apply (wp_iter (fun i => first < i <= last - 1 /\ forall q, first <= q < i -> comp x (v m q) = false) (fun i => last - 1 - i)).
        * intros i [Hi H]. destruct (Nat.eqb_spec i (last - 1)) as [->|N].
          { cbn [wp]. intros q Hq. destruct (Nat.eq_dec q (last - 1)) as [->|]; [exact C|apply H; lia]. }
          apply wp_bind, (wp_cmp comp d0); [lia|lia|]. fold x. destruct (comp x (v m i)) eqn:Ci.
          -- apply wp_bind, (wp_swp d0); [lia|lia|]. intros m1 L1 E1 E2 E3 R. cbn [wp].
             split; [apply R; lia|]. rewrite (E3 first) by lia. split; [reflexivity|]. split; [lia|].
             rewrite E2. split; [exact Ci|]. intros q Hq. destruct (Nat.eq_dec q i) as [->|].
             ++ rewrite E1. exact C.
             ++ rewrite E3 by lia. apply H. lia.
          -- cbn [wp]. split; [|lia]. split; [lia|]. intros q Hq. destruct (Nat.eq_dec q i) as [->|]; [exact Ci|apply H; lia].
        * split; [lia|]. intros q Hq. assert (q = first) as -> by lia. apply le_refl.
        * lia.
    - intros [[m1 i]|] H.
      2: { cbn [wp]. split; [now apply rr_refl|]. intros a b Ha Hab Hb. apply (le_trans _ x); [apply H; lia|apply MIN; lia]. }
      destruct H as (R & Ex & Hi & CL & H). pose proof R as [L1 RR].
      assert (MIN1 : forall q, first <= q < last -> le x (v m1 q)).
      { apply (rearranged_forall d0 (fun y => le x y) m first last m1 V RR). exact MIN. }
      destruct (Nat.eqb_spec i (last - 1)) as [->|N].
      { cbn [wp]. split; [exact R|]. intros a b Ha Hab Hb. apply (le_trans _ x); [apply H; lia|apply MIN1; lia]. }
      apply wp_bind. unfold split_equal_loop.
      apply (wp_mono _ (fun '(m', i) => rr first last m m' /\ first < i < last /\ forall a, first <= a < i -> comp x (v m' a) = false)).
      + apply (wp_iter (fun '((m', i, j) : list A * nat * nat) => rr first last m m' /\ v m' first = x /\ first < i <= j /\ j < last /\
            comp x (v m' j) = true /\ (forall q, first <= q < i -> comp x (v m' q) = false))
          (fun '((m', i, j) : list A * nat * nat) => j - i)).
        * intros [[m' i'] j] (R' & Ex' & Hij & Hj & Cj & Hq). pose proof R' as [L' _].
          apply wp_bind. eapply wp_mono; [apply (scan_up_eq_ok k m' first i' j); [lia|lia|now rewrite Ex'|lia]|].
          intros i1 (Hi1 & C1 & Q1). rewrite Ex' in C1, Q1.
          assert (Cf : comp (v m' first) (v m' first) = false) by apply le_refl.
          apply wp_bind. eapply wp_mono; [apply (scan_down_eq_ok k m' first j first); [lia|lia|lia|exact Cf|lia]|].
          intros j1 (Hj1 & C2 & Q2). rewrite Ex' in C2, Q2.
          assert (Q3 : forall q, first <= q < i1 -> comp x (v m' q) = false).
          { intros q Hq'. destruct (Nat.lt_ge_cases q i'); [apply Hq; lia|apply Q1; lia]. }
          destruct (Nat.leb_spec j1 i1).
          { cbn [wp]. split; [exact R'|]. split; [lia|]. exact Q3. }
          apply wp_bind, (wp_swp d0); [lia|lia|]. intros m2 L2 E1 E2 E3 R2. cbn [wp].
          split; [|lia]. split; [eapply rr_trans; [exact V|exact R'|apply R2; lia]|].
          rewrite (E3 first) by lia. split; [exact Ex'|]. split; [lia|]. split; [lia|]. rewrite E2. split; [exact C1|].
          intros q Hq'. destruct (Nat.eq_dec q i1) as [->|]; [rewrite E1; exact C2|]. rewrite E3 by lia. apply Q3. lia.
        * split; [exact R|]. split; [exact Ex|]. split; [lia|]. split; [lia|]. split; [exact CL|exact H].
        * lia.
      + intros [m' i'] (R' & Hi' & H'). pose proof R' as [L' RR']. cbn [wp]. split; [exact R'|]. split; [lia|].
        intros a b Ha Hb. apply (le_trans _ x); [apply H'; lia|].
        apply (rearranged_forall d0 (fun y => le x y) m first last m' V RR'); auto.
  Qed.

  (** ** split_main: [first, i) less than, [j, last) not less than the pivot *)
  Definition parted m first i last (x : A) : Prop :=
    (forall q, first <= q < i -> comp (v m q) x = true) /\ (forall q, i <= q < last -> comp (v m q) x = false).

  Lemma split_loop_ok strict k m p first last i j n : valid m first last -> first < i < j -> j < last -> i <= p < last ->
    last - first < k ->
    (forall q, first <= q < i -> comp (v m q) (v m p) = true) ->
    (forall q, j <= q < last -> comp (v m q) (v m p) = false) ->
    wp (split_loop comp strict k m p i j n) (fun '(m', p', i', _) => rr first last m m' /\
      first < i' < last /\ i' <= p' < last /\ v m' p' = v m p /\ parted m' first i' last (v m p)).
  Proof.
    intros V Hij Hj Hp Hk Q1 Q2. pose proof V as [V1 V2]. unfold split_loop. set (x := v m p) in *.
    apply (wp_iter (fun '((m', p', i', j', n') : list A * nat * nat * nat * N) => rr first last m m' /\
        first < i' <= j' /\ j' < last /\ i' <= p' < last /\ v m' p' = x /\
        (forall q, first <= q < i' -> comp (v m' q) x = true) /\
        (forall q, j' <= q < last -> comp (v m' q) x = false))
      (fun '((m', p', i', j', n') : list A * nat * nat * nat * N) => j' - i')).
    - clear Q1 Q2. rename i into i0, j into j0, Hij into Hij0, Hj into Hj0. clear n. intros [[[[m' p'] i] j] n] (R & Hij & Hj & Hp' & Ex & Q1 & Q2). pose proof R as [L _].
      apply wp_bind. eapply wp_mono; [apply (scan_up_ok k m' p' i p'); [lia|lia|apply le_refl|lia]|].
      intros i1 (Hi1 & C1 & Q3). rewrite Ex in C1, Q3.
      assert (Cf : comp (v m' (i - 1)) (v m' p') = true) by (rewrite Ex; apply Q1; lia).
      apply wp_bind. eapply wp_mono; [apply (scan_down_ok k m' p' j (i - 1)); [lia|lia|lia|exact Cf|lia]|].
      intros j1 (Hj1 & C2 & Q4). rewrite Ex in C2, Q4.
      assert (Q5 : forall q, first <= q < i1 -> comp (v m' q) x = true).
      { intros q Hq'. destruct (Nat.lt_ge_cases q i); [apply Q1; lia|apply Q3; lia]. }
      assert (Q6 : forall q, j1 < q < last -> comp (v m' q) x = false).
      { intros q Hq'. destruct (Nat.lt_ge_cases q j); [apply Q4; lia|apply Q2; lia]. }
      assert (NE : i1 <> j1) by congruence.
      destruct (if strict then j1 <? i1 else j1 <=? i1) eqn:B.
      + assert (LT : j1 < i1).
        { destruct strict; [apply Nat.ltb_lt in B|apply Nat.leb_le in B]; lia. }
        cbn [wp]. split; [exact R|]. split; [lia|]. split; [lia|]. split; [exact Ex|]. split; [exact Q5|].
        intros q Hq. apply Q6. destruct (Nat.eq_dec j1 q); [subst; lia|lia].
      + assert (LT : i1 < j1).
        { destruct strict; [apply Nat.ltb_ge in B|apply Nat.leb_gt in B]; lia. }
        assert (j1 <> p') by (intros ->; rewrite Ex in C2; rewrite (swo_irr comp W) in C2; discriminate).
        apply wp_bind, (wp_swp d0); [lia|lia|]. intros m2 L2 E1 E2 E3 R2. cbn [wp].
        split; [|lia]. split; [eapply rr_trans; [exact V|exact R|apply R2; lia]|]. split; [lia|]. split; [lia|].
        split; [destruct (Nat.eqb_spec p' i1); lia|].
        split. { destruct (Nat.eqb_spec p' i1) as [->|]; [rewrite E2; exact Ex|rewrite E3 by lia; exact Ex]. }
        split.
        * intros q Hq. destruct (Nat.eq_dec q i1) as [->|]; [rewrite E1; exact C2|]. rewrite E3 by lia. apply Q5. lia.
        * intros q Hq. destruct (Nat.eq_dec q j1) as [->|]; [rewrite E2; exact C1|]. rewrite E3 by lia. apply Q6. lia.
    - split; [now apply rr_refl|]. split; [lia|]. split; [lia|]. split; [lia|]. split; [reflexivity|]. split; [exact Q1|exact Q2].
    - lia.
  Qed.

  (** nothing before i is greater than the element at i, nothing after it is smaller *)
  Definition pivoted m first i last : Prop :=
    (forall q, first <= q < i -> le (v m q) (v m i)) /\ (forall q, i < q < last -> le (v m i) (v m q)).

  Lemma split_main_ok strict k m p first last i j n : valid m first last -> first < i <= j -> j < last -> i <= p < last ->
    last - first < k ->
    (forall q, first <= q < i -> comp (v m q) (v m p) = true) ->
    (forall q, j <= q < last -> comp (v m q) (v m p) = false) ->
    wp (split_main comp strict k m p i j n) (fun '(m', i', _) => rr first last m m' /\ first < i' < last /\ pivoted m' first i' last).
  Proof.
    intros V Hij Hj Hp Hk Q1 Q2. pose proof V as [V1 V2]. unfold split_main. set (x := v m p) in *. apply wp_bind.
    apply (wp_mono _ (fun '(m', p', i', _) => rr first last m m' /\
      first < i' < last /\ i' <= p' < last /\ v m' p' = x /\ parted m' first i' last x)).
    - destruct (Nat.ltb_spec i j).
      + apply (split_loop_ok strict k m p first last i j n); auto; lia.
      + cbn [wp]. assert (i = j) as <- by lia. split; [now apply rr_refl|]. split; [lia|]. split; [lia|]. split; [reflexivity|]. now split.
    - intros [[[m' p'] i'] n'] (R & Hi & Hp' & Ex & P1 & P2). pose proof R as [L _].
      destruct (Nat.eqb_spec i' p') as [->|N]; cbn [negb].
      + cbn [wp]. split; [exact R|]. split; [lia|]. split; intros q Hq; rewrite Ex.
        * now apply lt_le, P1.
        * apply P2. lia.
      + apply wp_bind, (wp_cmp comp d0); [lia|lia|]. rewrite Ex. destruct (comp x (v m' i')) eqn:C.
        * apply wp_bind, (wp_swp d0); [lia|lia|]. intros m2 L2 E1 E2 E3 R2. cbn [wp].
          split; [eapply rr_trans; [exact V|exact R|apply R2; lia]|]. split; [lia|]. rewrite Ex in E1.
          split; intros q Hq; rewrite E1.
          -- rewrite E3 by lia. now apply lt_le, P1.
          -- destruct (Nat.eq_dec q p') as [->|]; [rewrite E2; now apply lt_le|]. rewrite E3 by lia. apply P2. lia.
        * cbn [wp]. split; [exact R|]. split; [lia|]. split; intros q Hq.
          -- apply lt_le. apply (lt_le_trans _ x); [now apply P1|]. apply P2. lia.
          -- apply (le_trans _ x); [exact C|]. apply P2. lia.
  Qed.

  Lemma split_ok strict k m p first last n : valid m first last -> first < p -> p < last - 1 -> last - first < k ->
    le (v m first) (v m p) -> le (v m p) (v m (last - 1)) ->
    wp (split comp strict k m p first last n) (fun '(m', o) => rr first last m m' /\
      match o with
      | inl None => sorted_in m' first last
      | inl (Some i) => first < i < last /\ forall a b, first <= a < i -> first <= b < last -> le (v m' a) (v m' b)
      | inr (i, _) => first < i < last /\ pivoted m' first i last
      end).
  Proof.
    intros V Hp1 Hp2 Hk O1 O2. pose proof V as [V1 V2]. unfold split. apply wp_bind, wp_dec; [lia|].
    apply wp_bind, (wp_cmp comp d0); [lia|lia|]. destruct (comp (v m first) (v m p)) eqn:C; cbn [negb].
    - apply wp_bind. eapply wp_mono; [apply (split_main_ok strict k m p first last); [exact V|lia|lia|lia|exact Hk| |]|].
      + intros q Hq. now replace q with first by lia.
      + intros q Hq. now replace q with (last - 1) by lia.
      + intros [[m' i] n'] H. exact H.
    - apply wp_bind. eapply wp_mono; [apply (find_less_ok k m p first (last - 1)); lia|].
      intros [j|] H.
      + destruct H as (Hj & Cj & Q).
        assert (j <> p) by (intros ->; rewrite (swo_irr comp W) in Cj; discriminate).
        apply wp_bind, (wp_swp d0); [lia|lia|]. intros m1 L1 E1 E2 E3 R1.
        assert (RR : rr first last m m1) by (apply R1; lia).
        assert (V' : valid m1 first last) by (split; lia).
        apply wp_bind. eapply wp_mono; [apply (split_main_ok strict k m1 p first last (S first) j); [exact V'|lia|lia|lia|exact Hk| |]|].
        * intros q Hq. assert (q = first) as -> by lia. rewrite E1, (E3 p) by lia. exact Cj.
        * intros q Hq. rewrite (E3 p) by lia. destruct (Nat.eq_dec q j) as [->|]; [rewrite E2; exact C|].
          rewrite E3 by lia. destruct (Nat.eq_dec q (last - 1)) as [->|]; [exact O2|apply Q; lia].
        * intros [[m' i] n'] (R2 & HH). cbn [wp]. split; [|exact HH]. eapply rr_trans; eauto.
      + assert (MIN : forall q, first <= q < last -> le (v m first) (v m q)).
        { intros q Hq. apply (le_trans _ (v m p)); [exact O1|].
          destruct (Nat.eq_dec q first) as [->|]; [exact C|]. destruct (Nat.eq_dec q (last - 1)) as [->|]; [exact O2|apply H; lia]. }
        apply wp_bind. eapply wp_mono; [apply (split_equal_ok k m first last V); [lia|lia|exact MIN]|].
        intros [m' [i|]] H'; exact H'.
  Qed.

  (** ** sort *)
  Lemma choose_pivot_ok m first last : valid m first last -> 5 < last - first ->
    wp (choose_pivot comp m first last (last - first)) (fun '(m', p, _) => rr first last m m' /\
      first < p < last - 1 /\ le (v m' first) (v m' p) /\ le (v m' p) (v m' (last - 1))).
  Proof.
    intros V Hl. pose proof V as [V1 V2]. unfold choose_pivot. cbv zeta. apply wp_bind, wp_dec; [lia|].
    set (len := last - first) in *. set (dl := len / 2).
    pose proof (Nat.div_mod len 2 ltac:(lia)) as D1. pose proof (Nat.mod_upper_bound len 2 ltac:(lia)) as D2. fold dl in D1.
    apply wp_bind. destruct (10 * 100 <=? len).
    - set (d2 := dl / 2).
      pose proof (Nat.div_mod dl 2 ltac:(lia)) as D3. pose proof (Nat.mod_upper_bound dl 2 ltac:(lia)) as D4. fold d2 in D3.
      eapply wp_mono; [apply (sort5_ok comp W d0 m first last); [exact V|repeat split; lia|lia..]|].
      intros [m' n] (R & O1 & O2 & O3 & O4). cbn [wp]. split; [exact R|]. split; [lia|]. split; [eapply le_trans; eauto|eapply le_trans; eauto].
    - eapply wp_mono; [apply (sort3_ok comp W d0 m first last); [exact V|repeat split; lia]|].
      intros [m' n] (R & O1 & O2 & _). cbn [wp]. split; [exact R|]. split; [lia|]. now split.
  Qed.

  (** [m'] sorted given that [first', last') of it gets sorted *)
  Definition reduces m m' first last first' last' : Prop :=
    first <= first' <= last' /\ last' <= last /\ last' - first' < last - first /\
    forall m2, rr first' last' m' m2 -> sorted_in m2 first' last' -> sorted_in m2 first last.

  Lemma pivoted_sorted m first i last : sorted_in m first i -> sorted_in m (S i) last -> pivoted m first i last -> sorted_in m first last.
  Proof.
    intros S1 S2 [P1 P2] a b Ha Hab Hb.
    destruct (Nat.lt_trichotomy a i) as [Ca|[->|Ca]].
    - destruct (Nat.lt_trichotomy b i) as [Cb|[->|Cb]].
      + apply S1; lia.
      + apply P1; lia.
      + apply (le_trans _ (v m i)); [apply P1|apply P2]; lia.
    - apply P2; lia.
    - apply S2; lia.
  Qed.

  (** Rearranging a part on one side of the pivot keeps it a pivot *)
  Lemma pivoted_rr m m' first i last a b : valid m first last -> first <= i < last -> pivoted m first i last -> rr a b m m' ->
    (first <= a /\ a <= b /\ b <= i) \/ (i < a /\ a <= b /\ b <= last) -> pivoted m' first i last.
  Proof.
    intros [V1 V2] Hi [P1 P2] R H. assert (V : valid m a b) by (split; lia). pose proof R as [L RR].
    assert (Ei : v m' i = v m i) by (apply (rr_out d0 a b); auto; lia).
    assert (F : forall P : A -> Prop, (forall q, a <= q < b -> P (v m q)) -> forall q, a <= q < b -> P (v m' q)).
    { intros P HP. apply (rearranged_forall d0 P m a b m' V RR HP). }
    split; intros q Hq; rewrite Ei.
    - destruct (Nat.lt_ge_cases q a) as [C|C]; [rewrite (rr_out d0 a b m m') by (auto; lia); now apply P1|].
      destruct (Nat.lt_ge_cases q b) as [C'|C'].
      + apply (F (fun y => le y (v m i))); [|lia]. intros q' Hq'. apply P1. lia.
      + rewrite (rr_out d0 a b m m') by (auto; lia). now apply P1.
    - destruct (Nat.lt_ge_cases q a) as [C|C]; [rewrite (rr_out d0 a b m m') by (auto; lia); now apply P2|].
      destruct (Nat.lt_ge_cases q b) as [C'|C'].
      + apply (F (fun y => le (v m i) y)); [|lia]. intros q' Hq'. apply P2. lia.
      + rewrite (rr_out d0 a b m m') by (auto; lia). now apply P2.
  Qed.

  Lemma sorted_in_rr m m' a b c d : valid m c d -> rr c d m m' -> sorted_in m a b -> (b <= c \/ d <= a) -> sorted_in m' a b.
  Proof.
    intros V R S H i j Hi Hij Hj. rewrite !(rr_out d0 c d m m') by (auto; lia). now apply S.
  Qed.

  Lemma sort_impl_ok rec limit k m first last : valid m first last -> last - first < k ->
    (5 < last - first -> forall m a b, valid m a b -> 2 * (b - a) < last - first -> wp (rec m a b) (fun m' => rr a b m m' /\ sorted_in m' a b)) ->
    wp (sort_impl comp rec limit k m first last) (fun '(m', b, first', last') => rr first last m m' /\
      if b then sorted_in m' first last else reduces m m' first last first' last').
  Proof.
    intros V Hk REC. pose proof V as [V1 V2]. unfold sort_impl. cbv zeta. apply wp_bind.
    eapply wp_mono; [apply (sort_few_ok comp W d0); exact V|]. intros [m1|] H.
    { cbn [wp]. exact H. }
    destruct (Nat.leb_spec (last - first) limit) as [C|C].
    { apply wp_bind. eapply wp_mono; [apply (insertion_sort_3_ok comp W d0); [exact V|lia|lia]|]. intros m1 H1. exact H1. }
    apply wp_bind. eapply wp_mono; [apply choose_pivot_ok; [exact V|exact H]|].
    intros [[m1 p] n] (R1 & Hp & O1 & O2). pose proof (rr_valid _ _ _ _ first last R1 V) as VV1.
    apply wp_bind. eapply wp_mono; [apply (split_ok true k m1 p first last); [exact VV1|lia|lia|lia|exact O1|exact O2]|].
    intros [m2 o] (R2' & H2). pose proof (rr_trans _ _ _ _ _ V R1 R2') as R2. clear R2'.
    pose proof (rr_valid _ _ _ _ first last R2 V) as VV2.
    destruct o as [[i|]|[i n2]].
    - destruct H2 as [Hi H2]. cbn [wp]. split; [exact R2|]. split; [lia|]. split; [lia|]. split; [lia|].
      intros m3 R3 S3 a b Ha Hab Hb. pose proof VV2 as [_ VV2']. assert (Vi : valid m2 i last) by (split; lia).
      destruct (Nat.lt_ge_cases a i) as [Ca|Ca]; [|apply S3; lia].
      rewrite (rr_out d0 i last m2 m3 a) by (auto; lia).
      destruct (Nat.lt_ge_cases b i) as [Cb|Cb].
      + rewrite (rr_out d0 i last m2 m3 b) by (auto; lia). apply H2; lia.
      + apply (rearranged_forall d0 (fun y => le (v m2 a) y) m2 i last m3 Vi (proj2 R3)); [|lia]. intros q Hq. apply H2; lia.
    - cbn [wp]. now split.
    - destruct H2 as [Hi P].
      assert (RECURSE : forall m3, rr first last m m3 -> pivoted m3 first i last ->
        wp (if i - first <? last - i then m <- rec m3 first i ;; Ok (m, false, S i, last)
            else m <- rec m3 (i + 1) last ;; Ok (m, false, first, i))
          (fun '(m', b, first', last') => rr first last m m' /\
            if b then sorted_in m' first last else reduces m m' first last first' last')).
      { intros m3 R3 P3. pose proof (rr_valid _ _ _ _ first last R3 V) as [_ VV3].
        destruct (Nat.ltb_spec (i - first) (last - i)) as [D|D].
        - assert (V3 : valid m3 first i) by (split; lia).
          apply wp_bind. eapply wp_mono; [apply REC; [exact H|exact V3|lia]|]. intros m4 [R4 S4]. cbn [wp].
          pose proof (rr_wider first i first last m3 m4 ltac:(split; lia) ltac:(lia) ltac:(lia) ltac:(lia) R4) as R4'.
          split; [eapply rr_trans; eauto|]. split; [lia|]. split; [lia|]. split; [lia|].
          intros m5 R5 S5. pose proof R4 as [L4 _]. assert (V5 : valid m4 (S i) last) by (split; lia).
          apply (pivoted_sorted m5 first i last).
          + eapply (sorted_in_rr m4 m5); [exact V5|exact R5|exact S4|lia].
          + exact S5.
          + apply (pivoted_rr m4 m5 first i last (S i) last); [split; lia|lia| |exact R5|lia].
            apply (pivoted_rr m3 m4 first i last first i); [split; lia|lia|exact P3|exact R4|lia].
        - replace (i + 1) with (S i) by lia. assert (V3 : valid m3 (S i) last) by (split; lia).
          apply wp_bind. eapply wp_mono; [apply REC; [exact H|exact V3|lia]|]. intros m4 [R4 S4]. cbn [wp].
          pose proof (rr_wider (S i) last first last m3 m4 ltac:(split; lia) ltac:(lia) ltac:(lia) ltac:(lia) R4) as R4'.
          split; [eapply rr_trans; eauto|]. split; [lia|]. split; [lia|]. split; [lia|].
          intros m5 R5 S5. pose proof R4 as [L4 _]. assert (V5 : valid m4 first i) by (split; lia).
          apply (pivoted_sorted m5 first i last).
          + exact S5.
          + eapply (sorted_in_rr m4 m5); [exact V5|exact R5|exact S4|lia].
          + apply (pivoted_rr m4 m5 first i last first i); [split; lia|lia| |exact R5|lia].
            apply (pivoted_rr m3 m4 first i last (S i) last); [split; lia|lia|exact P3|exact R4|lia]. }
      pose proof VV2 as [_ LL2].
      destruct (N.eqb n2 0).
      2: { apply RECURSE; auto. }
      assert (Vl : valid m2 first i) by (split; lia).
      apply wp_bind. eapply wp_mono; [apply (insertion_sort_incomplete_ok comp W d0 k m2 first i Vl); lia|].
      intros [m3 fs] [R3 F3]. pose proof R3 as [L3 _]. assert (Vr : valid m3 (S i) last) by (split; lia).
      assert (P3 : pivoted m3 first i last) by (apply (pivoted_rr m2 m3 first i last first i); [split; lia|lia|exact P|exact R3|lia]).
      replace (i + 1) with (S i) by lia.
      apply wp_bind. eapply wp_mono; [apply (insertion_sort_incomplete_ok comp W d0 k m3 (S i) last Vr); lia|].
      intros [m4 ls] [R4 F4]. pose proof R4 as [L4 _].
      assert (P4 : pivoted m4 first i last) by (apply (pivoted_rr m3 m4 first i last (S i) last); [split; lia|lia|exact P3|exact R4|lia]).
      assert (R34 : rr first last m m4).
      { apply (rr_trans _ _ _ m2); [exact V|exact R2|]. apply (rr_trans _ _ _ m3); [split; lia| |].
        - apply (rr_wider first i first last); [split; lia|lia|lia|lia|exact R3].
        - apply (rr_wider (S i) last first last); [split; lia|lia|lia|lia|exact R4]. }
      assert (S4 : fs = true -> sorted_in m4 first i).
      { intros E. apply (sorted_in_rr m3 m4 first i (S i) last); [exact Vr|exact R4|auto|lia]. }
      destruct ls, fs.
      + cbn [wp]. split; [exact R34|]. apply (pivoted_sorted m4 first i last); auto.
      + cbn [wp]. split; [exact R34|]. split; [lia|]. split; [lia|]. split; [lia|].
        intros m5 R5 S5. assert (V5 : valid m4 first i) by (split; lia). apply (pivoted_sorted m5 first i last).
        * exact S5.
        * eapply (sorted_in_rr m4 m5); [exact V5|exact R5|auto|lia].
        * apply (pivoted_rr m4 m5 first i last first i); [split; lia|lia|exact P4|exact R5|lia].
      + cbn [wp]. split; [exact R34|]. split; [lia|]. split; [lia|]. split; [lia|].
        intros m5 R5 S5. assert (V5 : valid m4 (S i) last) by (split; lia). apply (pivoted_sorted m5 first i last).
        * eapply (sorted_in_rr m4 m5); [exact V5|exact R5|auto|lia].
        * exact S5.
        * apply (pivoted_rr m4 m5 first i last (S i) last); [split; lia|lia|exact P4|exact R5|lia].
      + pose proof (RECURSE m4 R34 P4) as Q. replace (i + 1) with (S i) in Q by lia. exact Q.
  Qed.

  Lemma sort_ok limit : forall r k m first last, valid m first last -> last - first < k -> last - first < 2 ^ r -> 0 < r ->
    wp (sort comp limit r k m first last) (fun m' => rr first last m m' /\ sorted_in m' first last).
  Proof.
    induction r as [|r IH]; intros k m first last V Hk Hr Hr0; [lia|]. cbn [sort].
    apply (wp_iter (fun '((m', f, l) : list A * nat * nat) => rr first last m m' /\ first <= f <= l /\ l <= last /\
        forall m2, rr f l m' m2 -> sorted_in m2 f l -> sorted_in m2 first last)
      (fun '((m', f, l) : list A * nat * nat) => l - f)).
    - intros [[m' f] l] (R & Hf & Hl & RED). pose proof (rr_valid _ _ _ _ first last R V) as [_ VL].
      apply wp_bind. eapply wp_mono; [apply (sort_impl_ok (sort comp limit r k) limit k m' f l); [split; lia|lia|]|].
      + intros H5 m0 a b V0 Hab. rewrite Nat.pow_succ_r' in Hr. destruct r as [|r].
        { cbn in Hr. lia. }
        apply IH; [exact V0|lia|lia|lia].
      + intros [[[m1 b] f'] l'] (R1 & H1). cbn [wp].
        assert (R1' : rr first last m m1).
        { eapply rr_trans; [exact V|exact R|]. apply (rr_wider f l); [split; lia|lia|lia|lia|exact R1]. }
        destruct b.
        * split; [exact R1'|]. apply RED; auto.
        * destruct H1 as (A1 & A2 & A3 & A4). split; [|lia]. split; [exact R1'|]. split; [lia|]. split; [lia|].
          intros m2 R2 S2. apply RED; [|apply A4; auto].
          pose proof R1 as [L1 _]. eapply rr_trans; [split; lia|exact R1|]. apply (rr_wider f' l'); [split; lia|lia|lia|lia|exact R2].
    - split; [now apply rr_refl|]. split; [destruct V; lia|]. split; [lia|]. auto.
    - exact Hk.
  Qed.
End P.
