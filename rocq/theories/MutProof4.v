(** Swapping, partitioning, shuffling; the functions that do not do what they should. *)
From Coq Require Import List Arith Bool Lia Permutation FinFun.
From Verif Require Import Base BaseProof SearchModel SearchSpec SearchProof OrderModel OrderSpec ListFacts
  MutModel MutSpec MutProof MutProof2 MutProof3.
Import ListNotations.

Section P.
  Context {A : Type}.
  Implicit Types (m l xs ys P : list A) (first last result k : nat).

  Lemma rotate_copy_correct_lemma k m first middle last result :
    valid m first last -> first <= middle <= last ->
    last <= result \/ result + (last - first) <= first ->
    result + (last - first) <= length m -> last - first < k ->
    rotate_copy k m first middle last result =
      Ok (paste m result (slice m middle last ++ slice m first middle), result + (last - first)).
  Proof.
    intros [V1 V2] Hm FS HR Hk. unfold rotate_copy.
    rewrite copy_correct_lemma; [|split; lia|destruct FS; [right|left]; lia|lia|lia]. cbn [bind].
    assert (HL : length (slice m middle last) = last - middle) by (rewrite slice_length; lia).
    assert (HL2 : length (slice m first middle) = middle - first) by (rewrite slice_length; lia).
    rewrite copy_correct_lemma; rewrite ?paste_length by lia.
    - rewrite (slice_paste_out m result _ first middle) by (try destruct FS; lia).
      replace (result + (last - middle)) with (result + length (slice m middle last)) by lia.
      rewrite paste_app by lia. f_equal. f_equal. lia.
    - split; rewrite ?paste_length; lia.
    - destruct FS; [right|left]; lia.
    - lia.
    - lia.
  Qed.

  Lemma swap_ranges_correct_lemma k m first1 last1 first2 :
    valid m first1 last1 -> first2 + (last1 - first1) <= length m ->
    last1 <= first2 \/ first2 + (last1 - first1) <= first1 -> last1 - first1 < k ->
    swap_ranges k m first1 last1 first2 =
      Ok (paste (paste m first1 (slice m first2 (first2 + (last1 - first1)))) first2 (slice m first1 last1),
          first2 + (last1 - first1)).
  Proof.
    intros [V1 V2] V3 D Hk. apply wp_det. unfold swap_ranges.
    apply (wp_iter (fun '((m', f, f2) : list A * nat * nat) =>
      exists i, i <= last1 - first1 /\ f = first1 + i /\ f2 = first2 + i /\ length m' = length m /\
      (forall j, j < i -> nth_error m' (first1 + j) = nth_error m (first2 + j)) /\
      (forall j, j < i -> nth_error m' (first2 + j) = nth_error m (first1 + j)) /\
      (forall j, (j < first1 \/ first1 + i <= j) -> (j < first2 \/ first2 + i <= j) -> nth_error m' j = nth_error m j))
      (fun '((m', f, f2) : list A * nat * nat) => last1 - f)); [| |lia].
    2:{ exists 0. repeat split; auto; try lia. }
    intros [[m' f] f2] (i & Hi & -> & -> & HL & H1 & H2 & H3).
    destruct (Nat.eqb_spec (first1 + i) last1) as [E|N].
    - apply wp_ok. replace (last1 - first1) with i by lia. rewrite <- E.
      assert (Ls2 : length (slice m first2 (first2 + i)) = i) by (rewrite slice_length; lia).
      assert (Ls1 : length (slice m first1 (first1 + i)) = i) by (rewrite slice_length; lia).
      f_equal. apply paste_ext; rewrite ?paste_length; rewrite ?Ls1; try lia.
      + intros j Hj. rewrite nth_error_slice by lia. replace j with (first2 + (j - first2)) at 1 by lia.
        apply H2. lia.
      + intros j Hj. destruct (Nat.lt_ge_cases j first1) as [C1|C1].
        * rewrite nth_paste_out by lia. apply H3; lia.
        * destruct (Nat.lt_ge_cases j (first1 + i)) as [C2|C2].
          -- rewrite nth_paste_in by lia. rewrite nth_error_slice by lia.
             replace j with (first1 + (j - first1)) at 1 by lia. apply H1. lia.
          -- rewrite nth_paste_out by lia. apply H3; lia.
    - apply wp_bind, wp_swap; [lia|lia|]. intros m2 L2 S1 S2 S3. apply wp_ok. split; [|lia].
      exists (S i). split; [lia|]. split; [lia|]. split; [lia|]. split; [lia|].
      split; [|split].
      + intros j Hj. destruct (Nat.eq_dec j i) as [->|].
        * rewrite S1. apply H3; lia.
        * rewrite S3 by lia. apply H1. lia.
      + intros j Hj. destruct (Nat.eq_dec j i) as [->|].
        * rewrite S2. apply H3; lia.
        * rewrite S3 by lia. apply H2. lia.
      + intros j Hj1 Hj2. rewrite S3 by lia. apply H3; lia.
  Qed.

  (** ** partition *)
  Lemma sat_eq (p : A -> bool) m m' i : nth_error m' i = nth_error m i -> sat p m' i <-> sat p m i.
  Proof. intros E. unfold sat. now rewrite E. Qed.

  Lemma partition_correct_lemma c d p k m first last :
    valid m first last -> depth_bound (last - first) <= d -> last - first < k ->
    exists m' r, partition c d k m first last p = Ok (m', r) /\
      rearranged m first last m' /\ splits (sat p m') first last r.
  Proof.
    intros V Hd Hk. pose proof V as [V1 V2].
    cut (wp (partition c d k m first last p) (fun '(m', r) =>
      rearranged m first last m' /\ splits (sat p m') first last r)).
    { intros W. destruct (wp_out _ _ W) as ([m' r] & E & H). eauto. }
    unfold partition.
    destruct (find_if_not_correct_lemma c d m first last p V Hd) as (f0 & E0 & F1 & F2 & F3).
    rewrite E0. cbn [bind].
    assert (Hd' : forall a b, last - a <= last - b -> depth_bound (last - b) <= d -> depth_bound (last - a) <= d).
    { intros a b H H'. etransitivity; [apply depth_mono; exact H|exact H']. }
    destruct (find_if_correct_lemma c d m f0 last p) as (i0 & E1 & I1 & I2 & I3);
      [split; lia|apply (Hd' f0 first); [lia|exact Hd]|].
    rewrite E1. cbn [bind].
    apply (wp_iter (fun '((m', f, it) : list A * nat * nat) =>
      rearranged m first last m' /\ first <= f /\ f <= it <= last /\ (it < last -> f < it) /\
      (forall j, first <= j < f -> sat p m' j) /\ (forall j, f <= j < it -> ~ sat p m' j) /\
      (it < last -> sat p m' it))
      (fun '((m', f, it) : list A * nat * nat) => last - it)); [| |lia].
    2:{ split; [now apply rearranged_refl|]. split; [lia|]. split; [lia|]. split.
        { intros H. assert (f0 <> i0); [|lia]. intros <-. apply F3; auto. }
        split; [|split; assumption]. intros j Hj.
        specialize (F2 j Hj). unfold sat in *. destruct (nth_error_ex m j ltac:(lia)) as [x Hx].
        exists x. split; [exact Hx|]. destruct (p x) eqn:Px; [reflexivity|]. exfalso. apply F2.
        intros (y & Hy & Py). congruence. }
    intros [[m' f] it] (HR & Hf & Hit & Hlt & HA & HB & HC).
    destruct (Nat.eqb_spec it last) as [->|N].
    - apply wp_ok. split; [exact HR|]. split; [lia|]. auto.
    - assert (VV : valid m' first last) by (eapply rearranged_valid; eauto).
      assert (L' : length m' = length m) by (apply rearranged_iff in HR; tauto).
      specialize (Hlt ltac:(lia)). specialize (HC ltac:(lia)).
      destruct (swap_ok m' f it) as (m2 & E2); [lia|lia|].
      pose proof (swap_rearranged m' f it m2 first last VV ltac:(lia) ltac:(lia) E2) as HR2.
      assert (VV2 : valid m2 first last) by (eapply rearranged_valid; eauto).
      destruct (swap_facts m' f it m2 E2) as (_ & _ & L2 & S1 & S2 & S3).
      apply wp_bind. eapply wp_eq; [exact E2|].
      assert (Sf : sat p m2 f). { unfold sat. rewrite S1. exact HC. }
      assert (Sit : ~ sat p m2 it). { unfold sat. rewrite S2. apply HB. lia. }
      assert (SB : forall j, f < j <= it -> ~ sat p m2 j).
      { intros j Hj. destruct (Nat.eq_dec j it) as [->|]; [exact Sit|].
        rewrite (sat_eq p m' m2 j) by (apply S3; lia). apply HB. lia. }
      assert (SA : forall j, first <= j < f -> sat p m2 j).
      { intros j Hj. rewrite (sat_eq p m' m2 j) by (apply S3; lia). now apply HA. }
      destruct (find_if_not_correct_lemma c d m2 f last p) as (f' & E3 & G1 & G2 & G3);
        [destruct VV2; split; lia|apply (Hd' f first); [lia|exact Hd]|].
      destruct (find_if_correct_lemma c d m2 it last p) as (it' & E4 & J1 & J2 & J3);
        [destruct VV2; split; lia|apply (Hd' it first); [lia|exact Hd]|].
      apply wp_bind. eapply wp_eq; [exact E3|]. apply wp_bind. eapply wp_eq; [exact E4|]. apply wp_ok.
      assert (f' <> f). { intros ->. apply G3; [lia|exact Sf]. }
      assert (~ S f < f'). { intros H'. apply (G2 (S f)); [lia|]. apply SB. lia. }
      assert (f' = S f) as -> by lia.
      assert (it' <> it). { intros ->. apply Sit, J3. lia. }
      split; [|lia]. split; [eapply rearranged_trans; eauto|]. repeat split; try lia.
      + intros j Hj. destruct (Nat.eq_dec j f) as [->|]; [exact Sf|]. apply SA. lia.
      + intros j Hj. destruct (Nat.le_gt_cases j it); [apply SB; lia|]. apply J2. lia.
      + exact J3.
  Qed.

  (** ** partition_copy *)
  Lemma filter_slice_le (p : A -> bool) m first f last : first <= f <= last ->
    length (filter p (slice m first f)) <= length (filter p (slice m first last)).
  Proof. intros H. rewrite (slice_app m first f last) by lia. rewrite filter_app, app_length. lia. Qed.

  Lemma paste_upd_out m i xs j x : i + length xs <= length m -> j < length m -> j < i \/ i + length xs <= j ->
    upd (paste m i xs) j x = paste (upd m j x) i xs.
  Proof.
    intros H Hj Hd. apply paste_ext; rewrite ?upd_length; [lia| |].
    - intros n Hn. rewrite upd_neq by lia. apply nth_paste_in; lia.
    - intros n Hn. destruct (Nat.eq_dec j n) as [->|].
      + rewrite !upd_eq by (rewrite ?paste_length; lia). reflexivity.
      + rewrite !upd_neq by lia. apply nth_paste_out; lia.
  Qed.

  Lemma partition_copy_correct_lemma p k m first last out_true out_false :
    let ts := filter p (slice m first last) in
    let fs := filter (fun x => negb (p x)) (slice m first last) in
    valid m first last -> forward_safe first last out_true -> forward_safe first last out_false ->
    out_true + length ts <= length m -> out_false + length fs <= length m ->
    out_true + length ts <= out_false \/ out_false + length fs <= out_true ->
    last - first < k ->
    partition_copy k m first last out_true out_false p =
      Ok (paste (paste m out_true ts) out_false fs, out_true + length ts, out_false + length fs).
  Proof.
    intros ts fs [V1 V2] FS1 FS2 HR1 HR2 HD Hk. apply wp_det. unfold partition_copy.
    set (tf f := filter p (slice m first f)). set (ff f := filter (fun x => negb (p x)) (slice m first f)).
    assert (Ht : forall f, first <= f <= last -> length (tf f) <= length ts) by (intros; now apply filter_slice_le).
    assert (Hf : forall f, first <= f <= last -> length (ff f) <= length fs) by (intros; now apply filter_slice_le).
    assert (Ht' : forall f, first <= f <= last -> length (tf f) <= f - first).
    { intros f H. unfold tf. etransitivity; [apply filter_len|]. rewrite slice_length; lia. }
    assert (Hf' : forall f, first <= f <= last -> length (ff f) <= f - first).
    { intros f H. unfold ff. etransitivity; [apply filter_len|]. rewrite slice_length; lia. }
    apply (wp_iter (fun '((m', f, ot, of) : list A * nat * nat * nat) =>
      first <= f <= last /\ m' = paste (paste m out_true (tf f)) out_false (ff f) /\
      ot = out_true + length (tf f) /\ of = out_false + length (ff f))
      (fun '((m', f, ot, of) : list A * nat * nat * nat) => last - f)); [| |lia].
    2:{ unfold tf, ff. rewrite slice_nil by lia. cbn [filter]. rewrite !paste_nil. cbn. repeat split; lia. }
    intros [[[m' f] ot] of] (Hff & -> & -> & ->).
    pose proof (Ht f Hff). pose proof (Hf f Hff). pose proof (Ht' f Hff). pose proof (Hf' f Hff).
    destruct (Nat.eqb_spec f last) as [->|N]; [now apply wp_ok|].
    destruct (nth_error_ex m f ltac:(lia)) as [x Hx].
    assert (Hx' : nth_error (paste (paste m out_true (tf f)) out_false (ff f)) f = Some x).
    { rewrite nth_paste_out; rewrite ?paste_length; try lia; [|destruct FS2; lia].
      rewrite nth_paste_out; [exact Hx|lia|destruct FS1; lia]. }
    apply wp_bind, (wp_rd _ _ x); [exact Hx'|].
    pose proof (Ht (S f) ltac:(lia)) as Hts. pose proof (Hf (S f) ltac:(lia)) as Hfs.
    assert (HS : slice m first (S f) = slice m first f ++ [x]) by (apply slice_snoc; [lia|exact Hx]).
    assert (Et : tf (S f) = tf f ++ (if p x then [x] else [])).
    { unfold tf. rewrite HS, filter_app. reflexivity. }
    assert (Ef : ff (S f) = ff f ++ (if p x then [] else [x])).
    { unfold ff. rewrite HS, filter_app. cbn. now destruct (p x). }
    rewrite Et in Hts. rewrite Ef in Hfs.
    destruct (p x) eqn:Px; rewrite ?app_nil_r in *; rewrite app_length in *; cbn [length] in *.
    - apply wp_bind, (wp_rd _ _ x); [exact Hx'|].
      apply wp_bind, wp_wr; [rewrite !paste_length; rewrite ?paste_length; lia|]. apply wp_ok.
      split; [|lia]. rewrite Et, Ef. split; [lia|]. split; [|rewrite app_length; cbn; lia].
      rewrite paste_upd_out by (rewrite ?paste_length; lia). now rewrite paste_snoc by lia.
    - apply wp_bind, (wp_rd _ _ x); [exact Hx'|].
      apply wp_bind, wp_wr; [rewrite !paste_length; rewrite ?paste_length; lia|]. apply wp_ok.
      split; [|lia]. rewrite Et, Ef. split; [lia|]. split; [|rewrite app_length; cbn; lia].
      apply paste_snoc. rewrite paste_length; lia.
  Qed.

  (** ** stable_partition: it never moves anything *)
  Lemma inplace_stable_partition_id c d p k m : forall r first len,
    0 < len <= 2 ^ r -> first + len <= length m -> depth_bound len <= d ->
    inplace_stable_partition (S r) c d k m first p len = Ok (m, first).
  Proof.
    induction r as [|r IH]; intros first len H0 HL Hd.
    { cbn in H0. replace len with 1 by lia. reflexivity. }
    change (2 ^ S r) with (2 * 2 ^ r) in H0.
    remember (S r) as r1. cbn [inplace_stable_partition]. subst r1.
    destruct (Nat.eqb_spec len 1) as [->|N]; [reflexivity|].
    pose proof (Nat.div_mod len 2 ltac:(lia)) as DM. pose proof (Nat.mod_upper_bound len 2 ltac:(lia)) as MB.
    set (h := len / 2) in *. 
    rewrite (IH first h) by (try (etransitivity; [apply (depth_mono h len)|exact Hd]); lia). cbn [bind].
    destruct (find_if_not_correct_lemma c d m (first + h) (first + h + (len - h)) p) as (q & E & _).
    { split; lia. }
    { replace (first + h + (len - h) - (first + h)) with (len - h) by lia.
      etransitivity; [apply (depth_mono (len - h) len)|exact Hd]; lia. }
    rewrite E. cbn [bind].
    destruct (Nat.eqb_spec (len - h) 0) as [|_]; [lia|]. cbn [negb].
    rewrite (IH (first + h) (len - h)) by (try (etransitivity; [apply (depth_mono (len - h) len)|exact Hd]); lia). cbn [bind].
    unfold rotate. destruct (Nat.eqb_spec first (first + h)) as [|_]; [lia|]. rewrite Nat.eqb_refl. cbn [bind].
    f_equal. f_equal. lia.
  Qed.

  Lemma stable_partition_char c d p k r m first last :
    valid m first last -> depth_bound (last - first) <= d -> depth_bound (last - first) <= r ->
    exists q, stable_partition r c d k m first last p = Ok (m, q) /\
      is_first (fun i => ~ sat p m i) first last q.
  Proof.
    intros V Hd Hr. pose proof V as [V1 V2].
    destruct (find_if_not_correct_lemma c d m first last p V Hd) as (q & E & HF).
    exists q. split; [|exact HF]. destruct HF as (H1 & _ & _).
    unfold stable_partition. rewrite E. cbn [bind].
    destruct (Nat.eqb_spec q last) as [->|N]; [reflexivity|].
    assert (H : last - q <= 2 ^ (r - 1)).
    { pose proof (Nat.log2_spec (last - first) ltac:(lia)) as [_ L]. unfold depth_bound in Hr.
      transitivity (2 ^ S (Nat.log2 (last - first))); [lia|]. apply Nat.pow_le_mono_r; lia. }
    unfold depth_bound in Hr at 1. replace r with (S (r - 1)) by lia.
    apply inplace_stable_partition_id; [lia|lia|].
    etransitivity; [apply (depth_mono (last - q) (last - first)); lia|exact Hd].
  Qed.

  (** the specification stable_partition should meet *)
  Lemma filter_all (p : A -> bool) xs : (forall x, In x xs -> p x = true) -> filter p xs = xs.
  Proof.
    induction xs as [|x t IH]; intros H; cbn; [reflexivity|]. rewrite (H x) by now left.
    f_equal. apply IH. intros; apply H; now right.
  Qed.

  Lemma filter_none (p : A -> bool) xs : (forall x, In x xs -> p x = false) -> filter p xs = [].
  Proof.
    induction xs as [|x t IH]; intros H; cbn; [reflexivity|]. rewrite (H x) by now left.
    apply IH. intros; apply H; now right.
  Qed.

  Lemma splits_filter (p : A -> bool) m first last q : valid m first last -> splits (sat p m) first last q ->
    filter p (slice m first last) = slice m first q /\
    filter (fun x => negb (p x)) (slice m first last) = slice m q last.
  Proof.
    intros [V1 V2] (H1 & H2 & H3). rewrite (slice_app m first q last) by lia. rewrite !filter_app.
    assert (G1 : forall x, In x (slice m first q) -> p x = true).
    { intros x Hx. apply in_slice in Hx. destruct Hx as (i & Hi & Ei). destruct (H2 i Hi) as (y & Hy & Py). congruence. }
    assert (G2 : forall x, In x (slice m q last) -> p x = false).
    { intros x Hx. apply in_slice in Hx. destruct Hx as (i & Hi & Ei). specialize (H3 i Hi).
      destruct (p x) eqn:Px; [|reflexivity]. exfalso. apply H3. exists x. auto. }
    split.
    - rewrite filter_all by exact G1. rewrite filter_none by exact G2. apply app_nil_r.
    - rewrite filter_none by (intros x Hx; now rewrite (G1 x Hx)).
      rewrite filter_all by (intros x Hx; now rewrite (G2 x Hx)). reflexivity.
  Qed.

  Lemma partitioned_splits (p : A -> bool) m first last q : valid m first last ->
    partitioned (sat p m) first last -> is_first (fun i => ~ sat p m i) first last q ->
    splits (sat p m) first last q.
  Proof.
    intros [V1 V2] HP (H1 & H2 & H3).
    assert (D : forall i, sat p m i \/ ~ sat p m i).
    { intros i. unfold sat. destruct (nth_error m i) as [x|]; [|right; intros (y & H & _); discriminate].
      destruct (p x) eqn:E; [left; eauto|right; intros (y & Hy & Py); congruence]. }
    split; [lia|]. split.
    - intros i Hi. destruct (D i); [assumption|]. exfalso. apply (H2 i Hi). assumption.
    - intros i Hi HS. assert (~ sat p m q) by (apply H3; lia).
      assert (i < q); [|lia]. apply HP; auto; lia.
  Qed.

  Lemma stable_partition_partial_lemma c d p k r m first last :
    valid m first last -> depth_bound (last - first) <= d -> depth_bound (last - first) <= r ->
    partitioned (sat p m) first last ->
    stable_partition r c d k m first last p =
      Ok (paste m first (filter p (slice m first last) ++ filter (fun x => negb (p x)) (slice m first last)),
          first + length (filter p (slice m first last))).
  Proof.
    intros V Hd Hr HP. destruct (stable_partition_char c d p k r m first last V Hd Hr) as (q & E & HF).
    pose proof (partitioned_splits p m first last q V HP HF) as HS.
    destruct (splits_filter p m first last q V HS) as [-> ->].
    destruct HF as (H1 & _). destruct V. rewrite <- slice_app by lia.
    rewrite paste_slice by (split; lia). rewrite slice_length by lia. rewrite E. f_equal. f_equal. lia.
  Qed.

  Lemma gather_partial_lemma c d p k r m first last pivot :
    valid m first last -> first <= pivot <= last ->
    depth_bound (last - first) <= d -> depth_bound (last - first) <= r ->
    partitioned (fun i => ~ sat p m i) first pivot -> partitioned (sat p m) pivot last ->
    exists a b, gather r c d k m first last pivot p = Ok (m, a, b) /\
      splits (fun i => ~ sat p m i) first pivot a /\ splits (sat p m) pivot last b.
  Proof.
    intros V Hp Hd Hr P1 P2. pose proof V as [V1 V2]. unfold gather.
    assert (M : forall a b, a <= b -> b - a <= last - first -> depth_bound (b - a) <= depth_bound (last - first)).
    { intros. now apply depth_mono. }
    assert (EQ : forall i, first <= i < last -> sat (fun x => negb (p x)) m i <-> ~ sat p m i).
    { intros i Hi. unfold sat. destruct (nth_error_ex m i ltac:(lia)) as [x Hx]. rewrite Hx. split.
      - intros (y & Ey & Py) (z & Ez & Pz). injection Ey as <-. injection Ez as <-. rewrite Pz in Py. discriminate.
      - intros H. exists x. split; [reflexivity|]. destruct (p x) eqn:Px; [|reflexivity]. exfalso. apply H. eauto. }
    destruct (stable_partition_char c d (fun x => negb (p x)) k r m first pivot) as (a & Ea & Fa).
    { split; lia. }
    { etransitivity; [apply M; lia|exact Hd]. }
    { etransitivity; [apply M; lia|exact Hr]. }
    destruct (stable_partition_char c d p k r m pivot last) as (b & Eb & Fb).
    { split; lia. }
    { etransitivity; [apply M; lia|exact Hd]. }
    { etransitivity; [apply M; lia|exact Hr]. }
    exists a, b. rewrite Ea. cbn [bind]. rewrite Eb. cbn [bind]. split; [reflexivity|]. split.
    - assert (HS : splits (sat (fun x => negb (p x)) m) first pivot a).
      { apply partitioned_splits; [split; lia| |exact Fa].
        intros i j Hi Hj. rewrite !EQ by lia. apply P1; assumption. }
      destruct HS as (S1 & S2 & S3). split; [exact S1|]. split.
      + intros i Hi. apply EQ; [lia|]. now apply S2.
      + intros i Hi. rewrite <- EQ by lia. now apply S3.
    - apply partitioned_splits; [split; lia|exact P2|exact Fb].
  Qed.

  (** ** move_backward and for_each_n *)
  Lemma move_backward_ub_lemma k m first last result : first < last -> first < k ->
    move_backward k m first last result = UB.
  Proof.
    unfold move_backward. revert k m result. induction first as [|f IH]; intros k m result H Hk;
      (destruct k as [|k]; [lia|]); cbn [iter].
    - destruct (Nat.eqb_spec 0 last); [lia|]. reflexivity.
    - destruct (Nat.eqb_spec (S f) last); [lia|]. cbn [dec bind].
      unfold rd. destruct (nth_error m f) as [x|]; [|reflexivity]. cbn [bind].
      destruct result as [|r]; [reflexivity|]. cbn [dec bind].
      unfold wr. destruct (r <? length m); [|reflexivity]. cbn [bind]. apply IH; lia.
  Qed.

  Lemma move_backward_partial_lemma k m first result : 0 < k ->
    move_backward k m first first result = Ok (m, result).
  Proof. intros H. destruct k; [lia|]. unfold move_backward. cbn [iter]. now rewrite Nat.eqb_refl. Qed.

  Lemma for_each_n_ub_lemma {F} (f : F -> A -> F * A) st k m first n : 0 < n -> length m - first < k ->
    for_each_n k m first n f st = UB.
  Proof.
    intros Hn. unfold for_each_n. remember (length m) as L eqn:EL. revert m first st EL.
    induction k as [|k IH]; intros m first st EL H; [lia|]. cbn [iter].
    destruct (Nat.ltb_spec 0 n); [|lia].
    unfold rd at 1. destruct (nth_error m first) as [x|] eqn:Ex; [|reflexivity]. cbn [bind].
    apply nth_error_lt in Ex. destruct (f st x) as [st' y].
    unfold wr. destruct (Nat.ltb_spec first (length m)); [|lia]. cbn [bind].
    apply IH; [now rewrite upd_length|lia].
  Qed.

  Lemma for_each_n_partial_lemma {F} (f : F -> A -> F * A) st k m first : 0 < k ->
    for_each_n k m first 0 f st = Ok (m, first, st).
  Proof. intros H. destruct k; [lia|]. reflexivity. Qed.

  (** ** shuffling *)
  Lemma random_shuffle_correct_lemma {G} (rand : G -> nat -> nat * G) g k m first last :
    (forall g n, 0 < n -> fst (rand g n) < n) ->
    valid m first last -> last - first < k ->
    exists m' g', random_shuffle rand k m first last g = Ok (m', g') /\ rearranged m first last m'.
  Proof.
    intros HD V Hk. pose proof V as [V1 V2].
    cut (wp (random_shuffle rand k m first last g) (fun '(m', g') => rearranged m first last m')).
    { intros W. destruct (wp_out _ _ W) as ([m' g'] & E & H). eauto. }
    unfold random_shuffle. destruct (Nat.eqb_spec first last) as [->|N].
    { apply wp_ok. now apply rearranged_refl. }
    apply (wp_iter (fun '((m', it, g') : list A * nat * G) => first < it <= last /\ rearranged m first last m')
      (fun '((m', it, g') : list A * nat * G) => last - it)); [| |lia].
    2:{ split; [lia|now apply rearranged_refl]. }
    intros [[m' it] g'] (Hit & HR). destruct (Nat.eqb_spec it last) as [->|N']; [now apply wp_ok|].
    pose proof (HD g' (it - first + 1) ltac:(lia)) as Hr. destruct (rand g' (it - first + 1)) as [r g2]. cbn [fst] in Hr.
    assert (VV : valid m' first last) by (eapply rearranged_valid; eauto). destruct VV as [_ VV2].
    destruct (swap_ok m' it (first + r)) as (m2 & E2); [lia|lia|].
    apply wp_bind. eapply wp_eq; [exact E2|]. apply wp_ok. split; [|lia]. split; [lia|].
    eapply rearranged_trans; [exact V|exact HR|]. eapply swap_rearranged; [split; lia| | |exact E2]; lia.
  Qed.

  Lemma shuffle_correct_lemma {G} (dist : G -> nat -> nat -> nat * G) g k m first last :
    (forall g lo hi, lo <= hi -> lo <= fst (dist g lo hi) <= hi) ->
    valid m first last -> last - first < k ->
    exists m' g', shuffle dist k m first last g = Ok (m', g') /\ rearranged m first last m'.
  Proof.
    intros HD V Hk. pose proof V as [V1 V2].
    cut (wp (shuffle dist k m first last g) (fun '(m', g') => rearranged m first last m')).
    { intros W. destruct (wp_out _ _ W) as ([m' g'] & E & H). eauto. }
    unfold shuffle. destruct (Nat.ltb_spec 1 (last - first)) as [C|C]; [|apply wp_ok; now apply rearranged_refl].
    apply wp_bind, wp_dec; [lia|].
    apply (wp_iter (fun '((m', f, d, g') : list A * nat * nat * G) =>
      first <= f <= last - 1 /\ d = last - 1 - f /\ rearranged m first last m')
      (fun '((m', f, d, g') : list A * nat * nat * G) => last - f)); [| |lia].
    2:{ split; [lia|]. split; [lia|now apply rearranged_refl]. }
    intros [[[m' f] d] g'] (Hf & -> & HR). destruct (Nat.ltb_spec f (last - 1)) as [N'|N']; [|now apply wp_ok].
    pose proof (HD g' 0 (last - 1 - f) ltac:(lia)) as Hr.
    destruct (dist g' 0 (last - 1 - f)) as [i g2]. cbn [fst] in Hr.
    assert (VV : valid m' first last) by (eapply rearranged_valid; eauto). destruct VV as [_ VV2].
    destruct (Nat.eqb_spec i 0) as [->|Ni]; cbn [negb].
    - apply wp_ok. split; [|lia]. split; [lia|]. split; [lia|exact HR].
    - destruct (swap_ok m' f (f + i)) as (m2 & E2); [lia|lia|].
      apply wp_bind. eapply wp_eq; [exact E2|]. apply wp_ok. split; [|lia]. split; [lia|]. split; [lia|].
      eapply rearranged_trans; [exact V|exact HR|]. eapply swap_rearranged; [split; lia| | |exact E2]; lia.
  Qed.

  Lemma random_swap_partial_lemma {G} (dist : G -> nat -> nat -> nat * G) g m first last :
    (forall g, fst (dist g 0 (last - first)) < last - first) ->
    valid m first last ->
    exists m' g', random_swap dist m first last g = Ok (m', g') /\ rearranged m first last m'.
  Proof.
    intros HD V. pose proof V as [V1 V2].
    cut (wp (random_swap dist m first last g) (fun '(m', g') => rearranged m first last m')).
    { intros W. destruct (wp_out _ _ W) as ([m' g'] & E & H). eauto. }
    unfold random_swap. cbv zeta. destruct (Nat.ltb_spec 1 (last - first)) as [C|C]; [|apply wp_ok; now apply rearranged_refl].
    pose proof (HD g) as H1. destruct (dist g 0 (last - first)) as [i g1].
    pose proof (HD g1) as H2. destruct (dist g1 0 (last - first)) as [j g2]. cbn [fst] in *.
    destruct (i =? j); cbn [negb]; [apply wp_ok; now apply rearranged_refl|].
    destruct (swap_ok m (first + i) (first + j)) as (m2 & E2); [lia|lia|].
    apply wp_bind. eapply wp_eq; [exact E2|]. apply wp_ok.
    eapply swap_rearranged; [exact V| | |exact E2]; lia.
  Qed.
End P.

Lemma clamp_correct_lemma {A} (comp : A -> A -> bool) v low high :
  strict_weak_order comp -> comp high low = false ->
  comp (clamp comp v low high) low = false /\ comp high (clamp comp v low high) = false /\
  (comp v low = true -> clamp comp v low high = low) /\
  (comp high v = true -> clamp comp v low high = high) /\
  (comp v low = false -> comp high v = false -> clamp comp v low high = v).
Proof.
  intros (I & T & _) H. unfold clamp.
  destruct (comp v low) eqn:E1; [|destruct (comp high v) eqn:E2].
  - repeat split; auto; try discriminate. intros E2. rewrite (T high v low E2 E1) in H. discriminate.
  - repeat split; auto; discriminate.
  - repeat split; auto; discriminate.
Qed.

Lemma stable_partition_refuted_lemma :
  exists m : list nat, valid m 0 (length m) /\
    filter Nat.even (slice m 0 (length m)) ++ filter (fun x => negb (Nat.even x)) (slice m 0 (length m)) <> m /\
    forall r c d k, depth_bound (length m) <= d -> depth_bound (length m) <= r ->
      stable_partition r c d k m 0 (length m) Nat.even = Ok (m, 0).
Proof.
  exists [1; 2]. split; [split; cbn; lia|]. split; [cbn; discriminate|]. intros r c d k Hd Hr.
  destruct (stable_partition_char c d Nat.even k r [1;2] 0 2) as (q & E & HF); [split; cbn; lia|exact Hd|exact Hr|].
  cbn [length]. rewrite E. destruct HF as (H1 & H2 & _). destruct q as [|q]; [reflexivity|].
  exfalso. apply (H2 0); [lia|]. unfold sat. cbn. intros (x & Hx & Px). injection Hx as <-. discriminate.
Qed.

Lemma random_swap_refuted_lemma :
  exists dist : nat -> nat -> nat -> nat * nat,
    (forall g lo hi, lo <= hi -> lo <= fst (dist g lo hi) <= hi) /\
    valid [10; 20] 0 2 /\ random_swap dist [10; 20] 0 2 1 = UB.
Proof.
  exists (fun g lo hi => match g with 0 => (lo, 0) | S g' => (hi, g') end).
  split; [|split; [split; cbn; lia|reflexivity]].
  intros [|g] lo hi H; cbn; lia.
Qed.
