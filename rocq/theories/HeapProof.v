(** Sifting up and down in a heap; push_heap, pop_heap, sort_heap. *)
From Coq Require Import ZArith List Arith Bool Lia Permutation ZifyBool ZifyNat.
From Verif Require Import Base BaseProof SearchSpec SearchProof OrderSpec OrderProof ListFacts
  MutModel MutSpec MutProof MutProof2 MutProof3 ValFacts HeapModel.
Import ListNotations.
Ltac Zify.zify_post_hook ::= Z.div_mod_to_equations.

(** ** On functions *)
Section F.
  Context {A : Type}.
  Variable comp : A -> A -> bool.
  Hypothesis W : strict_weak_order comp.
  Implicit Types g : nat -> A.

  Definition par (i : nat) : nat := (i - 1) / 2.
  Definition fswap g (i j n : nat) : A := if n =? i then g j else if n =? j then g i else g n.

  Definition heapf g (len : nat) : Prop := forall i, 0 < i -> i < len -> comp (g (par i)) (g i) = false.

  (** A heap but for the edge above [c]. *)
  Definition up_inv g (len c : nat) : Prop :=
    (forall i, 0 < i -> i < len -> i <> c -> comp (g (par i)) (g i) = false) /\
    (forall i, 0 < i -> i < len -> par i = c -> 0 < c -> comp (g (par c)) (g i) = false).

  (** A heap but for the edges below [p]. *)
  Definition down_inv g (len p : nat) : Prop :=
    (forall i, 0 < i -> i < len -> par i <> p -> comp (g (par i)) (g i) = false) /\
    (forall i, 0 < i -> i < len -> par i = p -> 0 < p -> comp (g (par p)) (g i) = false).

  Lemma par_lt i : 0 < i -> par i < i.
  Proof. unfold par. lia. Qed.

  Lemma up_step g g' len c : up_inv g len c -> 0 < c < len -> comp (g (par c)) (g c) = true ->
    (forall n, n < len -> g' n = fswap g c (par c) n) -> up_inv g' len (par c).
  Proof.
    intros [H1 H2] Hc C E. pose proof (par_lt c ltac:(lia)) as Pc. unfold fswap in E.
    pose proof (swo_asym comp W _ _ C) as C'. split.
    - intros i Hi Hl N. pose proof (par_lt i Hi) as Pi. rewrite (E i), (E (par i)) by lia.
      destruct (Nat.eqb_spec i c) as [->|N1].
      { destruct (Nat.eqb_spec (par c) c); [lia|]. rewrite Nat.eqb_refl. exact C'. }
      destruct (Nat.eqb_spec i (par c)) as [->|N2]; [congruence|].
      destruct (Nat.eqb_spec (par i) c) as [Ep|N3].
      { apply H2; auto; lia. }
      destruct (Nat.eqb_spec (par i) (par c)) as [Ep|N4].
      { (* sibling *) apply (swo_neg comp W _ (g (par c))); [exact C'|]. rewrite <- Ep. apply H1; auto. }
      apply H1; auto.
    - intros i Hi Hl Ep Hp. pose proof (par_lt i Hi) as Pi. pose proof (par_lt (par c) Hp) as Ppc.
      rewrite (E i), (E (par (par c))) by lia.
      destruct (Nat.eqb_spec (par (par c)) c); [lia|]. destruct (Nat.eqb_spec (par (par c)) (par c)); [lia|].
      assert (G : comp (g (par (par c))) (g (par c)) = false) by (apply H1; lia).
      destruct (Nat.eqb_spec i c) as [->|N1]; [exact G|].
      destruct (Nat.eqb_spec i (par c)) as [->|N2]; [lia|].
      apply (swo_neg comp W _ (g (par c))); [exact G|]. rewrite <- Ep. apply H1; auto.
  Qed.

  Lemma up_done g len c : up_inv g len c -> c = 0 \/ comp (g (par c)) (g c) = false -> heapf g len.
  Proof.
    intros [H1 H2] Hc i Hi Hl. destruct (Nat.eq_dec i c) as [->|N]; [|auto].
    destruct Hc as [->|Hc]; [lia|exact Hc].
  Qed.

  Definition max_child g (len p c : nat) : Prop :=
    0 < c < len /\ par c = p /\ forall i, 0 < i -> i < len -> par i = p -> comp (g c) (g i) = false.

  Lemma down_step g g' len p c : down_inv g len p -> max_child g len p c -> comp (g p) (g c) = true ->
    (forall n, n < len -> g' n = fswap g p c n) -> down_inv g' len c.
  Proof.
    intros [H1 H2] (Hc & Pc & HM) C E. pose proof (par_lt c ltac:(lia)) as Lc. unfold fswap in E.
    pose proof (swo_asym comp W _ _ C) as C'. split.
    - intros i Hi Hl N. pose proof (par_lt i Hi) as Pi. rewrite (E i), (E (par i)) by lia.
      destruct (Nat.eqb_spec i p) as [->|N1].
      { destruct (Nat.eqb_spec (par p) p); [lia|]. destruct (Nat.eqb_spec (par p) c); [lia|]. apply H2; auto; lia. }
      destruct (Nat.eqb_spec i c) as [->|N2].
      { destruct (Nat.eqb_spec (par c) p); [|congruence]. exact C'. }
      destruct (Nat.eqb_spec (par i) p) as [Ep|N3].
      { apply HM; auto. }
      destruct (Nat.eqb_spec (par i) c) as [Ep|N4]; [congruence|].
      apply H1; auto.
    - intros i Hi Hl Ep _. pose proof (par_lt i Hi) as Pi. rewrite (E i), (E (par c)) by lia.
      rewrite Pc, Nat.eqb_refl.
      destruct (Nat.eqb_spec i p) as [->|N1]; [lia|]. destruct (Nat.eqb_spec i c) as [->|N2]; [lia|].
      rewrite <- Ep. apply H1; auto. lia.
  Qed.

  Lemma down_done g len p : down_inv g len p ->
    (forall i, 0 < i -> i < len -> par i = p -> comp (g p) (g i) = false) -> heapf g len.
  Proof.
    intros [H1 H2] H i Hi Hl. destruct (Nat.eq_dec (par i) p) as [E|N]; [|auto]. rewrite E. apply H; auto.
  Qed.

  (** The root of a heap is a largest element. *)
  Lemma heap_root g len : heapf g len -> forall i, i < len -> comp (g 0) (g i) = false.
  Proof.
    intros H i. induction i as [i IH] using lt_wf_ind. intros Hi.
    destruct (Nat.eq_dec i 0) as [->|N]; [apply (swo_irr comp W)|].
    pose proof (par_lt i ltac:(lia)) as P. apply (swo_neg comp W _ (g (par i))).
    - apply IH; lia.
    - apply H; lia.
  Qed.
End F.

Section P.
  Context {A : Type}.
  Variable comp : A -> A -> bool.
  Hypothesis W : strict_weak_order comp.
  Variable d0 : A.
  Notation v := (v d0).
  Implicit Types (m V : list A) (first last len c p k : nat).

  (** Element number [i] of the range starting at [first]. *)
  Definition hv m first (i : nat) : A := v m (first + i).

  Lemma heap_hv m first len : first + len <= length m ->
    (heap comp m first (first + len) <-> heapf comp (hv m first) len).
  Proof.
    intros L. rewrite (heap_v d0) by (split; lia). unfold heapf, hv, par. split; intros H i H1 H2; apply H; lia.
  Qed.

  Lemma hv_upd m first i x j : first + i < length m ->
    hv (upd m (first + i) x) first j = if j =? i then x else hv m first j.
  Proof.
    intros H. unfold hv. rewrite v_upd by exact H.
    destruct (Nat.eqb_spec (first + j) (first + i)), (Nat.eqb_spec j i); lia || reflexivity.
  Qed.

  (** The memory with [t] at [i], whose old contents are at [j] in the new one. *)
  Lemma hole_swap m first last i j t : valid m first last -> first + i < last -> first + j < last -> i <> j ->
    let V := upd m (first + i) t in
    let V' := upd (upd m (first + i) (v m (first + j))) (first + j) t in
    rearranged V first last V' /\ (forall n, hv V' first n = fswap (hv V first) i j n).
  Proof.
    intros [V1 V2] Hi Hj N V V'.
    assert (E : forall n, v V' n = if n =? first + i then v V (first + j) else if n =? first + j then v V (first + i) else v V n).
    { intros n. unfold V', V. rewrite !v_upd by (rewrite ?upd_length; lia).
      destruct (Nat.eqb_spec n (first + j)), (Nat.eqb_spec n (first + i)), (Nat.eqb_spec (first + j) (first + i)),
        (Nat.eqb_spec (first + i) (first + i)); try lia; reflexivity. }
    split.
    - apply (swap_rearr d0 V V' (first + i) (first + j)).
      + unfold V. split; rewrite ?upd_length; lia.
      + unfold V, V'. now rewrite !upd_length.
      + lia.
      + lia.
      + intros n _. apply E.
    - intros n. unfold hv, fswap. rewrite E.
      destruct (Nat.eqb_spec (first + n) (first + i)), (Nat.eqb_spec n i), (Nat.eqb_spec (first + n) (first + j)), (Nat.eqb_spec n j);
        try lia; reflexivity.
  Qed.

  (** *** sifting up.  [G]: the range is a heap but for the new element. *)
  Lemma push_heap_back_loop_ok (G : Prop) k m first len t c p :
    first + len <= length m -> c < len -> p < c -> p < k ->
    let V := upd m (first + c) t in
    comp (hv m first p) t = true ->
    (G -> up_inv comp (hv V first) len c /\ p = par c) ->
    wp (s <- push_heap_back_loop comp k m first t (first + c) p ;; let '(m, last) := s in wr m last t)
       (fun m' => rearranged V first (first + len) m' /\ (G -> heapf comp (hv m' first) len)).
  Proof.
    intros L Hc Hp Hk V C HG. apply wp_bind. unfold push_heap_back_loop.
    eapply wp_mono; [apply (wp_iter (fun '((m', last, q) : list A * nat * nat) =>
        exists c', last = first + c' /\ q < c' /\ c' < len /\ length m' = length m /\
          comp (hv m' first q) t = true /\
          rearranged V first (first + len) (upd m' (first + c') t) /\
          (G -> up_inv comp (hv (upd m' (first + c') t) first) len c' /\ q = par c'))
      (fun '((m', last, q) : list A * nat * nat) => q)
      _ (fun '((m', last) : list A * nat) => exists c', last = first + c' /\ c' < len /\ length m' = length m /\
          rearranged V first (first + len) (upd m' (first + c') t) /\
          (G -> heapf comp (hv (upd m' (first + c') t) first) len)))|].
    - intros [[m' last] q] (c' & -> & Q1 & Q2 & Lm & Cq & R & HG').
      apply wp_bind, (wp_rd_v d0); [lia|]. apply wp_bind, wp_wr; [lia|].
      set (m1 := upd m' (first + c') (v m' (first + q))).
      assert (L1 : length m1 = length m) by (unfold m1; rewrite upd_length; exact Lm).
      destruct (hole_swap m' first (first + len) c' q t ltac:(split; lia) ltac:(lia) ltac:(lia) ltac:(lia)) as [HS HE].
      fold m1 in HS, HE.
      assert (R1 : rearranged V first (first + len) (upd m1 (first + q) t)).
      { eapply rearranged_trans; [|exact R|exact HS]. unfold V. split; rewrite ?upd_length; lia. }
      assert (Eq : forall n, hv (upd m' (first + c') t) first n = if n =? c' then t else hv m' first n).
      { intros n. apply hv_upd. lia. }
      assert (UP : G -> up_inv comp (hv (upd m1 (first + q) t) first) len q).
      { intros g. destruct (HG' g) as [U ->].
        apply (up_step comp W _ _ len c' U); [lia| |intros; apply HE].
        rewrite !Eq, Nat.eqb_refl. destruct (Nat.eqb_spec (par c') c'); [lia|exact Cq]. }
      destruct (Nat.eqb_spec q 0) as [->|Nq].
      { cbn [wp]. exists 0. repeat split; auto; [lia|]. intros g. apply (up_done comp _ len 0); auto. }
      assert (D : (q - 1) / 2 < q) by lia.
      apply wp_bind, (wp_rd_v d0); [lia|].
      destruct (comp (v m1 (first + (q - 1) / 2)) t) eqn:C2; cbn [wp].
      + split; [|lia]. exists q. split; [reflexivity|]. split; [lia|]. split; [lia|]. split; [exact L1|].
        split; [exact C2|]. split; [exact R1|]. intros g. split; [now apply UP|reflexivity].
      + exists q. split; [reflexivity|]. split; [lia|]. split; [exact L1|]. split; [exact R1|].
        intros g. apply (up_done comp _ len q); [now apply UP|]. right.
        rewrite !hv_upd by lia. rewrite Nat.eqb_refl. unfold par. destruct (Nat.eqb_spec ((q - 1) / 2) q); [lia|exact C2].
    - exists c. split; [reflexivity|]. split; [exact Hp|]. split; [exact Hc|]. split; [reflexivity|]. split; [exact C|].
      split; [|exact HG]. apply rearranged_refl. unfold V. split; rewrite ?upd_length; lia.
    - exact Hk.
    - intros [m' last] (c' & -> & Hc' & Lm & R & HG'). apply wp_wr; [lia|]. split; [exact R|exact HG'].
  Qed.

  (** *** sifting down *)
  Lemma pick_child_ok m first len p : first + len <= length m -> (p + 1) * 2 <= len ->
    wp (pick_child comp m first len ((p + 1) * 2)) (fun c => max_child comp (hv m first) len p c /\ (p + 1) * 2 <= c + 1 <= (p + 1) * 2 + 1).
  Proof.
    intros L Hp. unfold pick_child.
    assert (PC : forall i, 0 < i -> par i = p -> i = 2 * p + 1 \/ i = 2 * p + 2) by (unfold par; intros; lia).
    destruct (Nat.eqb_spec ((p + 1) * 2) len) as [E|N].
    - apply wp_dec; [lia|]. split; [|lia]. split; [lia|]. split; [unfold par; lia|].
      intros i H1 H2 H3. destruct (PC i H1 H3) as [-> | ->]; [|lia].
      replace ((p + 1) * 2 - 1) with (2 * p + 1) by lia. apply (swo_irr comp W).
    - apply wp_bind, (wp_rd_v d0); [lia|]. apply wp_bind, (wp_rd_v d0); [lia|].
      destruct (comp (v m (first + (p + 1) * 2)) (v m (first + (p + 1) * 2 - 1))) eqn:C.
      + apply wp_dec; [lia|]. split; [|lia]. split; [lia|]. split; [unfold par; lia|].
        intros i H1 H2 H3. unfold hv. destruct (PC i H1 H3) as [-> | ->].
        * replace ((p + 1) * 2 - 1) with (2 * p + 1) by lia. apply (swo_irr comp W).
        * apply (swo_asym comp W). replace (first + ((p + 1) * 2 - 1)) with (first + (p + 1) * 2 - 1) by lia.
          replace (2 * p + 2) with ((p + 1) * 2) by lia. exact C.
      + cbn [wp]. split; [|lia]. split; [lia|]. split; [unfold par; lia|].
        intros i H1 H2 H3. unfold hv. destruct (PC i H1 H3) as [-> | ->].
        * replace (first + (2 * p + 1)) with (first + (p + 1) * 2 - 1) by lia. exact C.
        * replace (2 * p + 2) with ((p + 1) * 2) by lia. apply (swo_irr comp W).
  Qed.

  Lemma push_heap_front_ok (G : Prop) k m first last len :
    first + len <= length m -> len <= k ->
    (G -> down_inv comp (hv m first) len 0) ->
    wp (push_heap_front comp k m first last len)
       (fun m' => rearranged m first (first + len) m' /\ (G -> heapf comp (hv m' first) len)).
  Proof.
    intros L Hk HG. unfold push_heap_front.
    destruct (Nat.ltb_spec 1 len) as [C1|C1].
    2: { cbn [wp]. split; [apply rearranged_refl; split; lia|]. intros _ i H1 H2. lia. }
    apply wp_bind. eapply wp_mono; [apply (pick_child_ok m first len 0 L ltac:(lia))|].
    intros c (MC & Bc). pose proof MC as (Hc & Pc & HM).
    apply wp_bind, (wp_rd_v d0); [lia|]. apply wp_bind, (wp_rd_v d0); [lia|].
    set (t := v m first).
    assert (E0 : hv m first 0 = t) by (unfold hv, t; f_equal; lia).
    destruct (comp t (v m (first + c))) eqn:Ct.
    2: { cbn [wp]. split; [apply rearranged_refl; split; lia|]. intros g. apply (down_done comp _ len 0); [auto|].
         intros i H1 H2 H3. apply (swo_neg comp W _ (hv m first c)); [|now apply HM]. rewrite E0. exact Ct. }
    assert (EV : upd m (first + 0) t = m).
    { apply upd_id. rewrite Nat.add_0_r. apply nth_error_v. lia. }
    apply wp_bind. unfold push_heap_front_loop.
    eapply wp_mono; [apply (wp_iter (fun '((m', p, c) : list A * nat * nat) =>
        p < len /\ p < c /\ c < len /\ length m' = length m /\
        comp t (hv m' first c) = true /\
        rearranged m first (first + len) (upd m' (first + p) t) /\
        max_child comp (hv (upd m' (first + p) t) first) len p c /\
        (G -> down_inv comp (hv (upd m' (first + p) t) first) len p))
      (fun '((m', p, c) : list A * nat * nat) => len - c)
      _ (fun '((m', p) : list A * nat) => p < len /\ length m' = length m /\
          rearranged m first (first + len) (upd m' (first + p) t) /\
          (G -> heapf comp (hv (upd m' (first + p) t) first) len)))|].
    - clear c MC Bc Hc Pc HM Ct. intros [[m' p] c] (Q1 & Q2 & Q3 & Lm & Cc & R & MC & HG').
      apply wp_bind, (wp_rd_v d0); [lia|]. apply wp_bind, wp_wr; [lia|].
      set (m1 := upd m' (first + p) (v m' (first + c))).
      assert (L1 : length m1 = length m) by (unfold m1; rewrite upd_length; exact Lm).
      destruct (hole_swap m' first (first + len) p c t ltac:(split; lia) ltac:(lia) ltac:(lia) ltac:(lia)) as [HS HE].
      fold m1 in HS, HE.
      assert (R1 : rearranged m first (first + len) (upd m1 (first + c) t)).
      { eapply rearranged_trans; [|exact R|exact HS]. split; lia. }
      assert (Eq : forall n, hv (upd m' (first + p) t) first n = if n =? p then t else hv m' first n).
      { intros n. apply hv_upd. lia. }
      assert (DN : G -> down_inv comp (hv (upd m1 (first + c) t) first) len c).
      { intros g. apply (down_step comp W _ _ len p c (HG' g) MC); [|intros; apply HE].
        rewrite !Eq, Nat.eqb_refl. destruct (Nat.eqb_spec c p); [lia|exact Cc]. }
      assert (Eq1 : forall n, n <> c -> hv (upd m1 (first + c) t) first n = hv m1 first n).
      { intros n Hn. rewrite hv_upd by lia. destruct (Nat.eqb_spec n c); [congruence|reflexivity]. }
      cbv zeta. destruct (Nat.ltb_spec len ((c + 1) * 2)) as [D|D].
      { cbn [wp]. split; [lia|]. split; [exact L1|]. split; [exact R1|]. intros g.
        apply (down_done comp _ len c); [now apply DN|]. intros i H1 H2 H3. unfold par in H3. lia. }
      apply wp_bind. eapply wp_mono; [apply (pick_child_ok m1 first len c ltac:(lia) D)|].
      intros c2 ((B1 & B2 & B3) & B4).
      assert (MC2 : max_child comp (hv (upd m1 (first + c) t) first) len c c2).
      { split; [exact B1|]. split; [exact B2|]. intros i H1 H2 H3. pose proof (par_lt i H1). rewrite !Eq1 by lia. now apply B3. }
      apply wp_bind, (wp_rd_v d0); [lia|]. cbv beta.
      destruct (comp t (v m1 (first + c2))) eqn:C2; cbn [wp].
      + split; [|lia]. split; [lia|]. split; [lia|]. split; [lia|]. split; [exact L1|]. split; [exact C2|].
        split; [exact R1|]. split; [exact MC2|exact DN].
      + split; [lia|]. split; [exact L1|]. split; [exact R1|]. intros g. apply (down_done comp _ len c); [now apply DN|].
        intros i H1 H2 H3. apply (swo_neg comp W _ (hv (upd m1 (first + c) t) first c2)); [|now apply MC2].
        rewrite (Eq1 c2) by lia. rewrite hv_upd, Nat.eqb_refl by lia. exact C2.
    - split; [lia|]. split; [lia|]. split; [lia|]. split; [reflexivity|]. split; [exact Ct|]. rewrite EV.
      split; [apply rearranged_refl; split; lia|]. split; [exact MC|exact HG].
    - lia.
    - intros [m' p] (Hp & Lm & R & HG'). apply wp_wr; [lia|]. auto.
  Qed.

  (** *** push_heap_back *)
  Lemma push_heap_back_ok (G : Prop) k m first len n :
    first + len <= length m -> 0 < len -> n <= len -> len <= k ->
    (G -> n = len /\ heapf comp (hv m first) (len - 1)) ->
    wp (push_heap_back comp k m first (first + len) n)
       (fun m' => rearranged m first (first + len) m' /\ (G -> heapf comp (hv m' first) len)).
  Proof.
    intros L Hlen Hn Hk HG. unfold push_heap_back.
    destruct (Nat.ltb_spec 1 n) as [C1|C1].
    2: { cbn [wp]. split; [apply rearranged_refl; split; lia|]. intros g. destruct (HG g) as [-> _]. intros i H1 H2. lia. }
    apply wp_bind, wp_dec; [lia|].
    set (p := (n - 2) / 2). assert (Hp : p < len - 1) by (unfold p; lia).
    replace (first + len - 1) with (first + (len - 1)) by lia.
    apply wp_bind, (wp_rd_v d0); [lia|]. apply wp_bind, (wp_rd_v d0); [lia|].
    assert (UP : G -> up_inv comp (hv m first) len (len - 1) /\ p = par (len - 1)).
    { intros g. destruct (HG g) as [-> H]. split; [|unfold p, par; f_equal; lia]. split.
      - intros i H1 H2 H3. apply H; lia.
      - intros i H1 H2 H3. pose proof (par_lt i H1). lia. }
    set (t := v m (first + (len - 1))).
    assert (EV : upd m (first + (len - 1)) t = m).
    { apply upd_id. unfold t. apply nth_error_v. lia. }
    destruct (comp (v m (first + p)) t) eqn:C.
    - pose proof (push_heap_back_loop_ok G k m first len t (len - 1) p L ltac:(lia) Hp ltac:(lia)) as H.
      cbv zeta in H. rewrite EV in H. apply H; [exact C|exact UP].
    - cbn [wp]. split; [apply rearranged_refl; split; lia|]. intros g. destruct (UP g) as [U E].
      apply (up_done comp _ len (len - 1) U). right. rewrite <- E. exact C.
  Qed.
End P.
