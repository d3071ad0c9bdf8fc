(** Heaps and extrema. *)
From Coq Require Import List Arith Bool ZArith Lia Permutation.
From Coq Require Import ZifyBool ZifyNat.
From Verif Require Import Base BaseProof SearchModel SearchSpec SearchProof SearchProof2
  OrderModel OrderSpec OrderProof OrderProof2.
Import ListNotations.
Ltac Zify.zify_post_hook ::= Z.div_mod_to_equations.

Section HeapLemmas.
  Context {A : Type} (comp : A -> A -> bool).
  Implicit Types l : list A.

  (** What is_heap_until really computes: the first position whose element is not
      strictly less than its parent. *)
  Lemma is_heap_until_partial_lemma d l first last :
    valid l first last -> depth_bound (last - first) <= d ->
    exists r, is_heap_until comp d l first last = Ok r /\ first <= r <= last /\
      (forall i, 0 < i -> first + i < r -> rel comp l (first + i) l (first + (i - 1) / 2)) /\
      (r < last -> 0 < r - first /\ ~ rel comp l r l (first + (r - first - 1) / 2)).
  Proof.
    intros [V1 V2] Hd. unfold is_heap_until.
    destruct (last - first <? 2) eqn:E; nb.
    - exists last. split; [reflexivity|]. split; [lia|]. split; intros; lia.
    - rewrite ra_search_ok with (t := fun i => negb (relb comp l (first + i) l (first + (i - 1) / 2))).
      + rewrite Nat.eqb_refl. cbn [bind].
        set (t := fun i => negb (relb comp l (first + i) l (first + (i - 1) / 2))).
        destruct (scan_spec t (last - first - 1) 1) as (H1&H2&H3).
        eexists. split; [reflexivity|].
        set (r := scan t 1 (last - first - 1)) in *.
        split; [lia|]. split.
        * intros i Hi1 Hi2. specialize (H2 i ltac:(lia)). unfold t in H2.
          apply negb_false_iff in H2. now apply relb_rel in H2.
        * intros Hr. split; [lia|]. specialize (H3 ltac:(lia)). unfold t in H3.
          apply negb_true_iff, relb_false in H3.
          replace (first + r - first - 1) with (r - 1) by lia. exact H3.
      + lia.
      + intros i Hi. apply (rd_relb comp l (first + i) l (first + (i - 1) / 2) negb); lia.
      + apply depth_ra. etransitivity; [apply depth_mono|exact Hd]. lia.
  Qed.

  (** no child is equivalent to its parent *)
  Definition no_ties l first last :=
    forall i, 0 < i -> first + i < last ->
      ~ same comp comp l (first + (i - 1) / 2) l (first + i).

  Lemma is_heap_until_no_ties_lemma d l first last :
    strict_weak_order comp ->
    valid l first last -> no_ties l first last -> depth_bound (last - first) <= d ->
    exists r, is_heap_until comp d l first last = Ok r /\ first <= r <= last /\
      heap comp l first r /\
      (forall j, first <= j <= last -> heap comp l first j -> j <= r).
  Proof.
    intros W V NT Hd.
    destruct (is_heap_until_partial_lemma d l first last V Hd) as (r&Er&Hr&H1&H2).
    exists r. split; [exact Er|]. split; [exact Hr|]. split.
    - intros i Hi Hir (x&y&Hx&Hy&Hc). destruct (H1 i Hi Hir) as (a&b&Ha&Hb&Hc').
      assert (a = y) by congruence. assert (b = x) by congruence. subst.
      rewrite (swo_asym comp W _ _ Hc) in Hc'. discriminate.
    - intros j Hj HH. destruct (Nat.le_gt_cases j r) as [H|H]; [exact H|exfalso].
      destruct (H2 ltac:(lia)) as [H3 H4].
      apply (NT (r - first)); [lia|lia|]. 
      replace (first + (r - first)) with r by lia.
      split; [|exact H4].
      specialize (HH (r - first) H3 ltac:(lia)). replace (first + (r - first)) with r in HH by lia.
      exact HH.
  Qed.

  Lemma is_heap_sound_lemma d l first last :
    strict_weak_order comp ->
    valid l first last -> depth_bound (last - first) <= d ->
    exists b, is_heap comp d l first last = Ok b /\
      (b = true -> heap comp l first last) /\
      (no_ties l first last -> heap comp l first last -> b = true).
  Proof.
    intros W V Hd.
    destruct (is_heap_until_partial_lemma d l first last V Hd) as (r&Er&Hr&H1&H2).
    unfold is_heap. rewrite Er. cbn [bind]. eexists. split; [reflexivity|]. split.
    - rewrite Nat.eqb_eq. intros -> i Hi Hir (x&y&Hx&Hy&Hc).
      destruct (H1 i Hi Hir) as (a&b&Ha&Hb&Hc').
      assert (a = y) by congruence. assert (b = x) by congruence. subst.
      rewrite (swo_asym comp W _ _ Hc) in Hc'. discriminate.
    - intros NT HH. apply Nat.eqb_eq.
      destruct (is_heap_until_no_ties_lemma d l first last W V NT Hd) as (r'&Er'&Hr'&_&H3).
      assert (r' = r) by congruence. subst r'.
      specialize (H3 last ltac:(destruct V; lia) HH). lia.
  Qed.
End HeapLemmas.

Section Extrema.
  Context {A : Type} (comp : A -> A -> bool) (W : strict_weak_order comp).
  Implicit Types l : list A.

  Ltac val l i x H := destruct (nth_error_ex l i ltac:(lia)) as [x H].

  Lemma min_single l i : i < length l -> is_first_min comp l i (S i) i.
  Proof.
    intros H. split; [lia|]. split; [|intros; lia].
    intros j Hj. assert (j = i) by lia. subst j. val l i x Hx.
    rewrite (rel_val _ _ _ _ _ _ _ Hx Hx). rewrite (swo_irr comp W). discriminate.
  Qed.

  Lemma max_single l i : i < length l -> is_first_max comp l i (S i) i.
  Proof.
    intros H. split; [lia|]. split; [|intros; lia].
    intros j Hj. assert (j = i) by lia. subst j. val l i x Hx.
    rewrite (rel_val _ _ _ _ _ _ _ Hx Hx). rewrite (swo_irr comp W). discriminate.
  Qed.

  Lemma lmax_single l i : i < length l -> is_last_max comp l i (S i) i.
  Proof.
    intros H. split; [lia|]. split; [|intros; lia].
    intros j Hj. assert (j = i) by lia. subst j. val l i x Hx.
    rewrite (rel_val _ _ _ _ _ _ _ Hx Hx). rewrite (swo_irr comp W). discriminate.
  Qed.

  Lemma min_merge l first mid last a b : last <= length l ->
    is_first_min comp l first mid a -> is_first_min comp l mid last b ->
    is_first_min comp l first last (if relb comp l b l a then b else a).
  Proof.
    intros HL (A1&A2&A3) (B1&B2&B3). val l a xa Ha. val l b xb Hb.
    assert (HE : relb comp l b l a = comp xb xa) by (unfold relb; now rewrite Ha, Hb).
    rewrite HE. clear HE.
    destruct (comp xb xa) eqn:E.
    - split; [lia|]. split.
      + intros j Hj. val l j y Hy. rewrite (rel_val _ _ _ _ _ _ _ Hy Hb).
        destruct (Nat.lt_ge_cases j mid) as [H|H].
        * specialize (A2 j ltac:(lia)). rewrite (rel_val _ _ _ _ _ _ _ Hy Ha) in A2.
          intros Hc. apply A2. eapply (swo_trans comp W); eauto.
        * specialize (B2 j ltac:(lia)). now rewrite (rel_val _ _ _ _ _ _ _ Hy Hb) in B2.
      + intros j Hj. val l j y Hy. rewrite (rel_val _ _ _ _ _ _ _ Hb Hy).
        destruct (Nat.lt_ge_cases j mid) as [H|H].
        * specialize (A2 j ltac:(lia)). rewrite (rel_val _ _ _ _ _ _ _ Hy Ha) in A2.
          destruct (swo_split comp W _ y _ E) as [H1|H1]; [exact H1|contradiction].
        * specialize (B3 j ltac:(lia)). now rewrite (rel_val _ _ _ _ _ _ _ Hb Hy) in B3.
    - split; [lia|]. split.
      + intros j Hj. val l j y Hy. rewrite (rel_val _ _ _ _ _ _ _ Hy Ha).
        destruct (Nat.lt_ge_cases j mid) as [H|H].
        * specialize (A2 j ltac:(lia)). now rewrite (rel_val _ _ _ _ _ _ _ Hy Ha) in A2.
        * specialize (B2 j ltac:(lia)). rewrite (rel_val _ _ _ _ _ _ _ Hy Hb) in B2.
          apply not_true_iff_false. apply not_true_iff_false in B2.
          eapply (swo_neg comp W); eauto.
      + intros j Hj. apply A3. lia.
  Qed.

  Lemma max_merge l first mid last a b : last <= length l ->
    is_first_max comp l first mid a -> is_first_max comp l mid last b ->
    is_first_max comp l first last (if relb comp l a l b then b else a).
  Proof.
    intros HL (A1&A2&A3) (B1&B2&B3). val l a xa Ha. val l b xb Hb.
    assert (HE : relb comp l a l b = comp xa xb) by (unfold relb; now rewrite Ha, Hb).
    rewrite HE. clear HE.
    destruct (comp xa xb) eqn:E.
    - split; [lia|]. split.
      + intros j Hj. val l j y Hy. rewrite (rel_val _ _ _ _ _ _ _ Hb Hy).
        destruct (Nat.lt_ge_cases j mid) as [H|H].
        * specialize (A2 j ltac:(lia)). rewrite (rel_val _ _ _ _ _ _ _ Ha Hy) in A2.
          intros Hc. apply A2. eapply (swo_trans comp W); eauto.
        * specialize (B2 j ltac:(lia)). now rewrite (rel_val _ _ _ _ _ _ _ Hb Hy) in B2.
      + intros j Hj. val l j y Hy. rewrite (rel_val _ _ _ _ _ _ _ Hy Hb).
        destruct (Nat.lt_ge_cases j mid) as [H|H].
        * specialize (A2 j ltac:(lia)). rewrite (rel_val _ _ _ _ _ _ _ Ha Hy) in A2.
          destruct (swo_split comp W _ y _ E) as [H1|H1]; [contradiction|exact H1].
        * specialize (B3 j ltac:(lia)). now rewrite (rel_val _ _ _ _ _ _ _ Hy Hb) in B3.
    - split; [lia|]. split.
      + intros j Hj. val l j y Hy. rewrite (rel_val _ _ _ _ _ _ _ Ha Hy).
        destruct (Nat.lt_ge_cases j mid) as [H|H].
        * specialize (A2 j ltac:(lia)). now rewrite (rel_val _ _ _ _ _ _ _ Ha Hy) in A2.
        * specialize (B2 j ltac:(lia)). rewrite (rel_val _ _ _ _ _ _ _ Hb Hy) in B2.
          apply not_true_iff_false. apply not_true_iff_false in B2.
          eapply (swo_neg comp W); eauto.
      + intros j Hj. apply A3. lia.
  Qed.

  Lemma lmax_merge l first mid last a b : last <= length l ->
    is_last_max comp l first mid a -> is_last_max comp l mid last b ->
    is_last_max comp l first last (if relb comp l b l a then a else b).
  Proof.
    intros HL (A1&A2&A3) (B1&B2&B3). val l a xa Ha. val l b xb Hb.
    assert (HE : relb comp l b l a = comp xb xa) by (unfold relb; now rewrite Ha, Hb).
    rewrite HE. clear HE.
    destruct (comp xb xa) eqn:E.
    - split; [lia|]. split.
      + intros j Hj. val l j y Hy. rewrite (rel_val _ _ _ _ _ _ _ Ha Hy).
        destruct (Nat.lt_ge_cases j mid) as [H|H].
        * specialize (A2 j ltac:(lia)). now rewrite (rel_val _ _ _ _ _ _ _ Ha Hy) in A2.
        * specialize (B2 j ltac:(lia)). rewrite (rel_val _ _ _ _ _ _ _ Hb Hy) in B2.
          intros Hc. apply B2. eapply (swo_trans comp W); eauto.
      + intros j Hj. val l j y Hy. rewrite (rel_val _ _ _ _ _ _ _ Hy Ha).
        destruct (Nat.lt_ge_cases j mid) as [H|H].
        * specialize (A3 j ltac:(lia)). now rewrite (rel_val _ _ _ _ _ _ _ Hy Ha) in A3.
        * specialize (B2 j ltac:(lia)). rewrite (rel_val _ _ _ _ _ _ _ Hb Hy) in B2.
          destruct (swo_split comp W _ y _ E) as [H1|H1]; [contradiction|exact H1].
    - split; [lia|]. split.
      + intros j Hj. val l j y Hy. rewrite (rel_val _ _ _ _ _ _ _ Hb Hy).
        destruct (Nat.lt_ge_cases j mid) as [H|H].
        * specialize (A2 j ltac:(lia)). rewrite (rel_val _ _ _ _ _ _ _ Ha Hy) in A2.
          apply not_true_iff_false. apply not_true_iff_false in A2.
          eapply (swo_neg comp W); eauto.
        * specialize (B2 j ltac:(lia)). now rewrite (rel_val _ _ _ _ _ _ _ Hb Hy) in B2.
      + intros j Hj. apply B3. lia.
  Qed.

  Lemma iter_min_ok l a b : a < length l -> b < length l ->
    iter_min comp l a b = Ok (if relb comp l b l a then b else a).
  Proof. intros. apply (rd_relb comp l b l a (fun c : bool => if c then b else a)); lia. Qed.

  Lemma iter_max_ok l a b : a < length l -> b < length l ->
    iter_max comp l a b = Ok (if relb comp l a l b then b else a).
  Proof. intros. apply (rd_relb comp l a l b (fun c : bool => if c then b else a)); lia. Qed.

  Lemma min_element_impl_ra_ok l d : forall first last,
    first < last -> last <= length l -> Nat.log2_up (last - first) < d ->
    exists r, min_element_impl_ra comp d l first last ((last - first) / 2) = Ok r /\
      is_first_min comp l first last r.
  Proof.
    induction d as [|d IH]; intros first last Hf HL Hd; [lia|].
    cbn [min_element_impl_ra].
    destruct ((last - first) / 2 =? 0) eqn:E; nb.
    - exists first. split; [reflexivity|]. replace last with (S first) by lia.
      apply min_single. lia.
    - pose proof (log2_half (last - first) ltac:(lia)). pose proof (log2_half' (last - first) ltac:(lia)).
      set (mid := first + (last - first) / 2) in *.
      destruct (IH first mid) as (a&Ea&Ha); try lia.
      { replace (mid - first) with ((last - first) / 2) by lia. lia. }
      destruct (IH mid last) as (b&Eb&Hb); try lia.
      { replace (last - mid) with ((last - first) - (last - first) / 2) by lia. lia. }
      replace ((mid - first) / 2) with ((last - first) / 2 / 2) in Ea by (f_equal; lia).
      replace ((last - mid) / 2) with ((last - first - (last - first) / 2) / 2) in Eb by (f_equal; lia).
      rewrite Ea. cbn [bind]. rewrite Eb. cbn [bind].
      destruct Ha as [Ha1 Ha2] eqn:Ha'. destruct Hb as [Hb1 Hb2] eqn:Hb'.
      rewrite iter_min_ok by lia.
      eexists. split; [reflexivity|]. apply min_merge with mid; auto.
  Qed.

  Lemma max_element_impl_ra_ok l d : forall first last,
    first < last -> last <= length l -> Nat.log2_up (last - first) < d ->
    exists r, max_element_impl_ra comp d l first last ((last - first) / 2) = Ok r /\
      is_first_max comp l first last r.
  Proof.
    induction d as [|d IH]; intros first last Hf HL Hd; [lia|].
    cbn [max_element_impl_ra].
    destruct ((last - first) / 2 =? 0) eqn:E; nb.
    - exists first. split; [reflexivity|]. replace last with (S first) by lia.
      apply max_single. lia.
    - pose proof (log2_half (last - first) ltac:(lia)). pose proof (log2_half' (last - first) ltac:(lia)).
      set (mid := first + (last - first) / 2) in *.
      destruct (IH first mid) as (a&Ea&Ha); try lia.
      { replace (mid - first) with ((last - first) / 2) by lia. lia. }
      destruct (IH mid last) as (b&Eb&Hb); try lia.
      { replace (last - mid) with ((last - first) - (last - first) / 2) by lia. lia. }
      replace ((mid - first) / 2) with ((last - first) / 2 / 2) in Ea by (f_equal; lia).
      replace ((last - mid) / 2) with ((last - first - (last - first) / 2) / 2) in Eb by (f_equal; lia).
      rewrite Ea. cbn [bind]. rewrite Eb. cbn [bind].
      destruct Ha as [Ha1 Ha2] eqn:Ha'. destruct Hb as [Hb1 Hb2] eqn:Hb'.
      rewrite iter_max_ok by lia.
      eexists. split; [reflexivity|]. apply max_merge with mid; auto.
  Qed.

  Lemma min_element_correct_lemma c d l first last :
    valid l first last -> depth_bound (last - first) <= d ->
    exists r, min_element comp c d l first last = Ok r /\
      (first = last -> r = last) /\ (first < last -> is_first_min comp l first last r).
  Proof.
    intros [V1 V2] Hd. unfold min_element.
    destruct (first =? last) eqn:E; nb.
    { exists last. split; [reflexivity|]. split; [reflexivity|lia]. }
    destruct c.
    - destruct (min_element_impl_ra_ok l d first last) as (r&Er&Hr); [lia..|now apply depth_ra|].
      exists r. split; [exact Er|]. split; [lia|auto].
    - destruct (loop_inv (fun s : nat * nat => fst s =? last)
        (fun s => m <- iter_min comp l (snd s) (fst s) ;; Ok (S (fst s), m))
        (fun s => first < fst s <= last /\ is_first_min comp l first (fst s) (snd s))
        (fun s => last - fst s)) with (k := S (last - first)) (s := (S first, first))
        as ([i r]&Hl&HI&Hb).
      + intros [i m] (Hi&Hm) Hb. cbn [fst snd] in *. nb.
        destruct Hm as [Hm1 Hm2] eqn:Hm'. rewrite iter_min_ok by lia. cbn [bind].
        eexists. split; [reflexivity|]. cbn [fst snd]. split; [|lia]. split; [lia|].
        apply min_merge with i; [lia|now split|apply min_single; lia].
      + cbn. split; [lia|]. apply min_single. lia.
      + cbn. lia.
      + erewrite dbl_stop_correct; [|exact Hl|now apply depth_dbl]. cbn [bind fst snd] in *.
        nb. subst i. exists r. split; [reflexivity|]. split; [lia|]. intros _. apply HI.
  Qed.

  Lemma max_element_correct_lemma c d l first last :
    valid l first last -> depth_bound (last - first) <= d ->
    exists r, max_element comp c d l first last = Ok r /\
      (first = last -> r = last) /\ (first < last -> is_first_max comp l first last r).
  Proof.
    intros [V1 V2] Hd. unfold max_element.
    destruct (first =? last) eqn:E; nb.
    { exists last. split; [reflexivity|]. split; [reflexivity|lia]. }
    destruct c.
    - destruct (max_element_impl_ra_ok l d first last) as (r&Er&Hr); [lia..|now apply depth_ra|].
      exists r. split; [exact Er|]. split; [lia|auto].
    - destruct (loop_inv (fun s : nat * nat => fst s =? last)
        (fun s => m <- iter_max comp l (snd s) (fst s) ;; Ok (S (fst s), m))
        (fun s => first < fst s <= last /\ is_first_max comp l first (fst s) (snd s))
        (fun s => last - fst s)) with (k := S (last - first)) (s := (S first, first))
        as ([i r]&Hl&HI&Hb).
      + intros [i m] (Hi&Hm) Hb. cbn [fst snd] in *. nb.
        destruct Hm as [Hm1 Hm2] eqn:Hm'. rewrite iter_max_ok by lia. cbn [bind].
        eexists. split; [reflexivity|]. cbn [fst snd]. split; [|lia]. split; [lia|].
        apply max_merge with i; [lia|now split|apply max_single; lia].
      + cbn. split; [lia|]. apply max_single. lia.
      + cbn. lia.
      + erewrite dbl_stop_correct; [|exact Hl|now apply depth_dbl]. cbn [bind fst snd] in *.
        nb. subst i. exists r. split; [reflexivity|]. split; [lia|]. intros _. apply HI.
  Qed.

  Definition minmax_on l first last (r : nat * nat) :=
    is_first_min comp l first last (fst r) /\ is_last_max comp l first last (snd r).

  Lemma minmax_bound l first last r : minmax_on l first last r ->
    first <= fst r < last /\ first <= snd r < last.
  Proof. intros [[H _] [H' _]]. auto. Qed.

  Lemma iter_minmax_pair_ok l first mid last a b : last <= length l ->
    minmax_on l first mid a -> minmax_on l mid last b ->
    exists r, iter_minmax_pair comp l a b = Ok r /\ minmax_on l first last r.
  Proof.
    intros HL HA HB. pose proof (minmax_bound _ _ _ _ HA). pose proof (minmax_bound _ _ _ _ HB).
    destruct a as [a1 a2], b as [b1 b2]. cbn [fst snd] in *.
    unfold iter_minmax_pair. cbn [fst snd].
    destruct (rd_ex l a1 ltac:(lia)) as (xa1&Ha1&R1). destruct (rd_ex l a2 ltac:(lia)) as (xa2&Ha2&R2).
    destruct (rd_ex l b1 ltac:(lia)) as (xb1&Hb1&R3). destruct (rd_ex l b2 ltac:(lia)) as (xb2&Hb2&R4).
    rewrite R1, R2, R3, R4. cbn [bind]. eexists. split; [reflexivity|].
    destruct HA as [HA1 HA2], HB as [HB1 HB2]. cbn [fst snd] in *.
    split; cbn [fst snd].
    - pose proof (min_merge l first mid last a1 b1 HL HA1 HB1) as H1.
      unfold relb in H1. now rewrite Ha1, Hb1 in H1.
    - pose proof (lmax_merge l first mid last a2 b2 HL HA2 HB2) as H1.
      unfold relb in H1. now rewrite Ha2, Hb2 in H1.
  Qed.

  Lemma iter_minmax_1_ok l first b a : S b <= length l ->
    minmax_on l first b a ->
    exists r, iter_minmax_1 comp l a b = Ok r /\ minmax_on l first (S b) r.
  Proof.
    intros HL HA.
    destruct (iter_minmax_pair_ok l first b (S b) a (b, b) HL HA) as (r&Er&Hr).
    { split; cbn [fst snd]; [apply min_single|apply lmax_single]; lia. }
    pose proof (minmax_bound _ _ _ _ HA).
    exists r. split; [|exact Hr]. rewrite <- Er. unfold iter_minmax_1, iter_minmax_pair. cbn [fst snd].
    destruct (rd_ex l (fst a) ltac:(lia)) as (xa1&Ha1&R1). destruct (rd_ex l (snd a) ltac:(lia)) as (xa2&Ha2&R2).
    destruct (rd_ex l b ltac:(lia)) as (xb1&Hb1&R3).
    rewrite R1, R2, R3. reflexivity.
  Qed.

  Lemma iter_minmax_2_ok l a : S (S a) <= length l ->
    exists r, iter_minmax_2 comp l a (S a) = Ok r /\ minmax_on l a (S (S a)) r.
  Proof.
    intros HL.
    destruct (iter_minmax_1_ok l a (S a) (a, a) HL) as (r&Er&Hr).
    { split; cbn [fst snd]; [apply min_single|apply lmax_single]; lia. }
    exists r. split; [|exact Hr]. rewrite <- Er. unfold iter_minmax_1, iter_minmax_2. cbn [fst snd].
    destruct (rd_ex l a ltac:(lia)) as (xa1&Ha1&R1). destruct (rd_ex l (S a) ltac:(lia)) as (xb1&Hb1&R3).
    rewrite R1, R3. cbn [bind]. destruct (comp xb1 xa1); reflexivity.
  Qed.

  Lemma minmax_element_impl_ra_ok l d : forall first half,
    1 <= half -> first + 2 * half <= length l -> Nat.log2_up half < d ->
    exists r, minmax_element_impl_ra comp d l first half = Ok r /\
      minmax_on l first (first + 2 * half) r.
  Proof.
    induction d as [|d IH]; intros first half Hh HL Hd; [lia|].
    cbn [minmax_element_impl_ra].
    destruct (half =? 1) eqn:E; nb.
    - subst half. replace (first + 2 * 1) with (S (S first)) by lia. apply iter_minmax_2_ok. lia.
    - pose proof (log2_half half ltac:(lia)). pose proof (log2_half' half ltac:(lia)).
      destruct (IH first (half / 2)) as (a&Ea&Ha); try lia.
      replace ((half + 1) / 2) with (half - half / 2) by lia.
      destruct (IH (first + (half - half mod 2)) (half - half / 2)) as (b&Eb&Hb); try lia.
      rewrite Ea. cbn [bind]. rewrite Eb. cbn [bind].
      apply iter_minmax_pair_ok with (mid := first + 2 * (half / 2)); [lia|exact Ha|].
      replace (first + 2 * (half / 2)) with (first + (half - half mod 2)) by lia.
      replace (first + 2 * half) with (first + (half - half mod 2) + 2 * (half - half / 2)) by lia.
      exact Hb.
  Qed.

  Lemma minmax_element_correct_lemma c d l first last :
    valid l first last -> depth_bound (last - first) <= d ->
    exists r, minmax_element comp c d l first last = Ok r /\
      (first = last -> r = (last, last)) /\
      (first < last -> is_first_min comp l first last (fst r) /\ is_last_max comp l first last (snd r)).
  Proof.
    intros [V1 V2] Hd. unfold minmax_element. destruct c.
    - destruct (first =? last) eqn:E0; nb; cbn [orb].
      { exists (first, first). subst. split; [reflexivity|]. split; [reflexivity|lia]. }
      destruct (S first =? last) eqn:E1; nb; cbn [orb].
      { exists (first, first). split; [reflexivity|]. split; [lia|]. intros _. subst last. cbn [fst snd].
        split; [apply min_single|apply lmax_single]; lia. }
      destruct (minmax_element_impl_ra_ok l d first ((last - first) / 2)) as (a&Ea&Ha).
      { lia. } { lia. }
      { pose proof (log2_half' (last - first) ltac:(lia)). pose proof (depth_ra _ _ Hd). lia. }
      rewrite Ea.
      destruct ((last - first) mod 2 =? 0) eqn:E; nb.
      + exists a. split; [reflexivity|]. split; [lia|]. intros _.
        replace (first + 2 * ((last - first) / 2)) with last in Ha by lia. exact Ha.
      + cbn [bind]. 
        destruct (iter_minmax_1_ok l first (last - 1) a) as (r&Er&Hr).
        { lia. }
        { replace (first + 2 * ((last - first) / 2)) with (last - 1) in Ha by lia. exact Ha. }
        exists r. split; [exact Er|]. split; [lia|]. intros _.
        replace (S (last - 1)) with last in Hr by lia. exact Hr.
    - destruct (first =? last) eqn:E0; nb.
      { exists (first, first). subst. split; [reflexivity|]. split; [reflexivity|lia]. }
      assert (HI0 : exists s0, (if S first =? last then Ok (S first, (first, first))
               else m <- iter_minmax_2 comp l first (S first) ;; Ok (S (S first), m)) = Ok s0 /\
               first < fst s0 <= last /\ minmax_on l first (fst s0) (snd s0)).
      { destruct (S first =? last) eqn:E1; nb.
        - eexists. split; [reflexivity|]. cbn [fst snd]. split; [lia|].
          split; cbn [fst snd]; [apply min_single|apply lmax_single]; lia.
        - destruct (iter_minmax_2_ok l first) as (r&Er&Hr); [lia|]. rewrite Er. cbn [bind].
          eexists. split; [reflexivity|]. cbn [fst snd]. split; [lia|exact Hr]. }
      destruct HI0 as (s0&Es0&HI0). rewrite Es0. cbn [bind].
      destruct (loop_inv (fun s : nat * (nat * nat) => fst s =? last)
                (fun s =>
                    if S (fst s) =? last then
                      m <- iter_minmax_1 comp l (snd s) (fst s) ;; Ok (S (fst s), m)
                    else
                      m2 <- iter_minmax_2 comp l (fst s) (S (fst s)) ;;
                      m <- iter_minmax_pair comp l (snd s) m2 ;;
                      Ok (S (S (fst s)), m))
        (fun s => first < fst s <= last /\ minmax_on l first (fst s) (snd s))
        (fun s => last - fst s)) with (k := S (last - first)) (s := s0)
        as ([i r]&Hl&HI&Hb).
      + intros [i m] (Hi&Hm) Hb. cbn [fst snd] in *. nb.
        destruct (S i =? last) eqn:E; nb.
        * destruct (iter_minmax_1_ok l first i m) as (r&Er&Hr); [lia|exact Hm|].
          rewrite Er. cbn [bind]. eexists. split; [reflexivity|]. cbn [fst snd].
          split; [|lia]. split; [lia|exact Hr].
        * destruct (iter_minmax_2_ok l i) as (r2&Er2&Hr2); [lia|]. rewrite Er2. cbn [bind].
          destruct (iter_minmax_pair_ok l first i (S (S i)) m r2) as (r&Er&Hr); [lia|exact Hm|exact Hr2|].
          rewrite Er. cbn [bind]. eexists. split; [reflexivity|]. cbn [fst snd].
          split; [|lia]. split; [lia|exact Hr].
      + exact HI0.
      + lia.
      + erewrite dbl_stop_correct; [|exact Hl|now apply depth_dbl]. cbn [bind fst snd] in *.
        nb. subst i. exists r. split; [reflexivity|]. split; [lia|]. intros _. apply HI.
  Qed.
End Extrema.

Lemma ltb_swo : strict_weak_order Nat.ltb.
Proof.
  split; [exact Nat.ltb_irrefl|]. unfold equivalent. split; intros x y z.
  - rewrite !Nat.ltb_lt. apply Nat.lt_trans.
  - rewrite !Nat.ltb_ge. intros [H1 H2] [H3 H4]. split; eapply Nat.le_trans; eauto.
Qed.

Lemma is_heap_refuted_lemma :
  strict_weak_order Nat.ltb /\ heap Nat.ltb [5;5] 0 2 /\ valid [5;5] 0 2 /\
  is_heap Nat.ltb (depth_bound 2) [5;5] 0 2 = Ok false /\
  is_heap_until Nat.ltb (depth_bound 2) [5;5] 0 2 = Ok 1.
Proof.
  split; [exact ltb_swo|]. split.
  - intros i H1 H2 (x&y&Hx&Hy&Hr).
    destruct i as [|[|i]]; [now apply Nat.lt_irrefl in H1| |].
    + injection Hx as <-. injection Hy as <-. discriminate.
    + cbn in H2. apply Nat.lt_nge in H2. apply H2. do 2 apply le_n_S. apply Nat.le_0_l.
  - split; [split; repeat constructor|]. split; reflexivity.
Qed.
