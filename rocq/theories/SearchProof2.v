(** Proofs about the two-range search models and search_n. *)
From Coq Require Import List Arith Bool ZArith Lia.
From Coq Require Import ZifyBool ZifyNat.
From Verif Require Import Base BaseProof SearchModel SearchSpec SearchProof.
Import ListNotations.
Ltac Zify.zify_post_hook ::= Z.div_mod_to_equations.

Ltac nb :=
  repeat match goal with
  | H : (_ =? _) = true |- _ => apply Nat.eqb_eq in H
  | H : (_ =? _) = false |- _ => apply Nat.eqb_neq in H
  | H : (_ <? _) = true |- _ => apply Nat.ltb_lt in H
  | H : (_ <? _) = false |- _ => apply Nat.ltb_ge in H
  | H : (_ <=? _) = true |- _ => apply Nat.leb_le in H
  | H : (_ <=? _) = false |- _ => apply Nat.leb_gt in H
  end.

Section TwoRanges.
  Context {A B : Type}.
  Variable p : A -> B -> bool.

  (** *** mismatch *)
  Lemma loop_mis (st : nat * nat * bool -> bool) (step : nat * nat * bool -> res (nat * nat * bool))
      (t : nat -> bool) n : forall i j,
    (forall k, k < n -> st (i + k, j + k, false) = false) ->
    st (i + n, j + n, false) = true ->
    (forall a b, st (a, b, true) = true) ->
    (forall k, k < n -> step (i + k, j + k, false) =
        Ok (if t (i + k) then (i + k, j + k, true) else (S (i + k), S (j + k), false))) ->
    exists b, loop (stop st) step (S n) (i, j, false)
      = Ok (scan t i n, j + (scan t i n - i), b).
  Proof.
    induction n as [|n IH]; intros i j Hst He Ht Hs.
    - exists false. cbn [loop]. unfold stop. rewrite !Nat.add_0_r in He. rewrite He. cbn.
      do 3 f_equal. lia.
    - remember (S n) as n1. cbn [loop]. subst n1. unfold stop at 1.
      pose proof (Hst 0 ltac:(lia)) as H0. pose proof (Hs 0 ltac:(lia)) as Hs0.
      rewrite !Nat.add_0_r in H0, Hs0. rewrite H0. cbn [bind]. rewrite Hs0. cbn [bind scan].
      destruct (t i) eqn:Et.
      + exists true. cbn [loop]. unfold stop. rewrite Ht. cbn [bind]. do 3 f_equal. lia.
      + destruct (IH (S i) (S j)) as (b&Hb).
        * intros k Hk. replace (S i + k) with (i + S k) by lia. replace (S j + k) with (j + S k) by lia.
          apply Hst. lia.
        * replace (S i + n) with (i + S n) by lia. replace (S j + n) with (j + S n) by lia. exact He.
        * exact Ht.
        * intros k Hk. replace (S i + k) with (i + S k) by lia. replace (S j + k) with (j + S k) by lia.
          apply Hs. lia.
        * exists b. rewrite Hb. pose proof (scan_bounds t n (S i)). do 3 f_equal. lia.
  Qed.

  Definition mis l1 l2 first1 first2 (i : nat) : bool := negb (relb p l1 i l2 (first2 + (i - first1))).

  Lemma mismatch_impl_ra_ok d l1 l2 first1 last1 first2 :
    first1 < last1 -> last1 <= length l1 -> first2 + (last1 - first1) <= length l2 ->
    depth_bound (last1 - first1) <= d ->
    mismatch_impl_ra p d l1 l2 first1 last1 first2 = Ok (scan (mis l1 l2 first1 first2) first1 (last1 - first1)).
  Proof.
    intros H1 H2 H3 Hd. unfold mismatch_impl_ra.
    rewrite ra_search_ok with (t := mis l1 l2 first1 first2).
    - now rewrite Nat.eqb_refl.
    - lia.
    - intros i Hi. apply (rd_relb p l1 i l2 _ negb); lia.
    - now apply depth_ra.
  Qed.

  Lemma mismatch_in_ok d l1 l2 first1 last1 first2 :
    valid l1 first1 last1 -> first2 + (last1 - first1) <= length l2 ->
    depth_bound (last1 - first1) <= d ->
    let s := scan (mis l1 l2 first1 first2) first1 (last1 - first1) in
    mismatch_in p d l1 l2 first1 last1 first2 = Ok (s, first2 + (s - first1)).
  Proof.
    intros [H1 H2] H3 Hd. cbv zeta. unfold mismatch_in.
    edestruct loop_mis with (t := mis l1 l2 first1 first2) (n := last1 - first1)
      (i := first1) (j := first2) (st := fun '((i, j, b) : nat * nat * bool) => b || (i =? last1)) as (b&Hb);
      [| | | |erewrite dbl_stop_correct; [|exact Hb|apply depth_dbl, Hd]; reflexivity].
    - intros k Hk. cbn. apply Nat.eqb_neq. lia.
    - cbn. apply Nat.eqb_eq. lia.
    - reflexivity.
    - intros k Hk. cbn beta iota.
      unfold mis. replace (first2 + (first1 + k - first1)) with (first2 + k) by lia.
      apply (rd_relb p l1 (first1 + k) l2 (first2 + k)
        (fun b : bool => if negb b then (first1 + k, first2 + k, true) else (S (first1 + k), S (first2 + k), false))); lia.
  Qed.

  Lemma mismatch_ok c d l1 l2 first1 last1 first2 :
    valid l1 first1 last1 -> first2 + (last1 - first1) <= length l2 ->
    depth_bound (last1 - first1) <= d ->
    let s := scan (mis l1 l2 first1 first2) first1 (last1 - first1) in
    mismatch p c d l1 l2 first1 last1 first2 = Ok (s, first2 + (s - first1)).
  Proof.
    intros Hv H3 Hd. destruct c; [|now apply mismatch_in_ok].
    cbn [mismatch]. unfold mismatch_ra. destruct Hv as [H1 H2].
    destruct (first1 =? last1) eqn:E; nb.
    - subst. rewrite Nat.sub_diag. cbn. rewrite Nat.sub_diag. now rewrite Nat.add_0_r.
    - rewrite mismatch_impl_ra_ok by (assumption || lia). reflexivity.
  Qed.

  Lemma mis_first l1 l2 first1 last1 first2 : first1 <= last1 ->
    is_first (fun i => ~ rel p l1 i l2 (first2 + (i - first1))) first1 last1
      (scan (mis l1 l2 first1 first2) first1 (last1 - first1)).
  Proof.
    intros H. apply is_first_scan; [exact H|]. intros j Hj. unfold mis.
    rewrite <- relb_rel. destruct (relb p l1 j l2 (first2 + (j - first1))); cbn; split; congruence.
  Qed.

  Lemma mismatch_correct_lemma c d l1 l2 first1 last1 first2 :
    valid l1 first1 last1 -> first2 + (last1 - first1) <= length l2 ->
    depth_bound (last1 - first1) <= d ->
    exists r, mismatch p c d l1 l2 first1 last1 first2 = Ok (r, first2 + (r - first1)) /\
      is_first (fun i => ~ rel p l1 i l2 (first2 + (i - first1))) first1 last1 r.
  Proof.
    intros Hv H Hd. eexists. split; [now apply mismatch_ok|]. apply mis_first, Hv.
  Qed.

  Lemma mismatch2_correct_lemma c d l1 l2 first1 last1 first2 last2 :
    valid l1 first1 last1 -> valid l2 first2 last2 ->
    depth_bound (last1 - first1) <= d ->
    exists r, mismatch2 p c d l1 l2 first1 last1 first2 last2 = Ok (r, first2 + (r - first1)) /\
      is_first (fun i => ~ rel p l1 i l2 (first2 + (i - first1))) first1
        (Nat.min last1 (first1 + (last2 - first2))) r.
  Proof.
    intros [H1 H2] [H3 H4] Hd.
    set (n := Nat.min (last1 - first1) (last2 - first2)).
    assert (Hm : Nat.min last1 (first1 + (last2 - first2)) = first1 + n) by lia.
    assert (Hd' : depth_bound n <= d) by (etransitivity; [|exact Hd]; apply depth_mono; lia).
    exists (scan (mis l1 l2 first1 first2) first1 n). split.
    - destruct c; cbn [mismatch2].
      + unfold mismatch2_ra. fold n.
        destruct ((first1 =? last1) || (first2 =? last2)) eqn:E.
        * assert (n = 0) by (apply orb_true_iff in E as [E|E]; nb; lia).
          rewrite H. cbn. rewrite Nat.sub_diag, Nat.add_0_r. reflexivity.
        * apply orb_false_iff in E as [E1 E2]. nb.
          rewrite mismatch_impl_ra_ok; try lia.
          -- replace (first1 + n - first1) with n by lia. reflexivity.
          -- replace (first1 + n - first1) with n by lia. exact Hd'.
      + unfold mismatch2_in.
        edestruct loop_mis with (t := mis l1 l2 first1 first2) (n := n)
          (i := first1) (j := first2) (st := fun '((i, j, b) : nat * nat * bool) => b || (i =? last1) || (j =? last2)) as (b&Hb);
          [| | | |erewrite dbl_stop_correct; [|exact Hb|apply depth_dbl, Hd']; reflexivity].
        * intros k Hk. cbn. apply orb_false_iff. split; apply Nat.eqb_neq; lia.
        * cbn. apply orb_true_iff. rewrite !Nat.eqb_eq. lia.
        * reflexivity.
        * intros k Hk. cbn beta iota.
          unfold mis. replace (first2 + (first1 + k - first1)) with (first2 + k) by lia.
          apply (rd_relb p l1 (first1 + k) l2 (first2 + k)
            (fun b : bool => if negb b then (first1 + k, first2 + k, true) else (S (first1 + k), S (first2 + k), false))); lia.
    - rewrite Hm. replace n with (first1 + n - first1) at 2 by lia. apply mis_first. lia.
  Qed.

  (** *** equal *)
  Lemma loop_eq (st : nat * nat * bool -> bool) (step : nat * nat * bool -> res (nat * nat * bool))
      (t : nat -> bool) n : forall i j,
    (forall k, k < n -> st (i + k, j + k, true) = false) ->
    st (i + n, j + n, true) = true ->
    (forall a b, st (a, b, false) = true) ->
    (forall k, k < n -> step (i + k, j + k, true) =
        Ok (if t (i + k) then (S (i + k), S (j + k), true) else (i + k, j + k, false))) ->
    exists a b, loop (stop st) step (S n) (i, j, true) = Ok (a, b, forallb t (seq i n)) /\
      (forallb t (seq i n) = true -> a = i + n /\ b = j + n).
  Proof.
    induction n as [|n IH]; intros i j Hst He Ht Hs.
    - exists i, j. cbn [loop]. unfold stop. rewrite !Nat.add_0_r in *. rewrite He. easy.
    - remember (S n) as n1. cbn [loop]. subst n1. unfold stop at 1.
      pose proof (Hst 0 ltac:(lia)) as H0. pose proof (Hs 0 ltac:(lia)) as Hs0.
      rewrite !Nat.add_0_r in H0, Hs0. rewrite H0. cbn [bind]. rewrite Hs0. cbn [bind seq forallb].
      destruct (t i) eqn:Et; cbn [andb].
      + destruct (IH (S i) (S j)) as (a&b&Hb&Hb').
        * intros k Hk. replace (S i + k) with (i + S k) by lia. replace (S j + k) with (j + S k) by lia.
          apply Hst. lia.
        * replace (S i + n) with (i + S n) by lia. replace (S j + n) with (j + S n) by lia. exact He.
        * exact Ht.
        * intros k Hk. replace (S i + k) with (i + S k) by lia. replace (S j + k) with (j + S k) by lia.
          apply Hs. lia.
        * exists a, b. rewrite Hb. split; [reflexivity|]. intros H. destruct (Hb' H). lia.
      + exists i, j. cbn [loop]. unfold stop. rewrite Ht. split; [reflexivity|discriminate].
  Qed.

  Definition eqat l1 l2 first1 first2 (i : nat) : bool := relb p l1 i l2 (first2 + (i - first1)).

  Lemma equal_impl_ra_ok d l1 l2 first1 last1 first2 :
    first1 < last1 -> last1 <= length l1 -> first2 + (last1 - first1) <= length l2 ->
    depth_bound (last1 - first1) <= d ->
    equal_impl_ra p d l1 l2 first1 last1 first2 = Ok (forallb (eqat l1 l2 first1 first2) (seq first1 (last1 - first1))).
  Proof.
    intros H1 H2 H3 Hd. unfold equal_impl_ra. apply ra_and_ok.
    - lia.
    - intros i Hi. apply (rd_relb p l1 i l2 _ (fun b => b)); lia.
    - now apply depth_ra.
  Qed.

  Lemma equal_ok c d l1 l2 first1 last1 first2 :
    valid l1 first1 last1 -> first2 + (last1 - first1) <= length l2 ->
    depth_bound (last1 - first1) <= d ->
    equal p c d l1 l2 first1 last1 first2 = Ok (forallb (eqat l1 l2 first1 first2) (seq first1 (last1 - first1))).
  Proof.
    intros [H1 H2] H3 Hd. unfold equal. destruct c.
    - destruct (first1 =? last1) eqn:E; nb.
      + subst. rewrite Nat.sub_diag. reflexivity.
      + apply equal_impl_ra_ok; (assumption || lia).
    - edestruct loop_eq with (t := eqat l1 l2 first1 first2) (n := last1 - first1)
        (i := first1) (j := first2) (st := fun '((i, j, b) : nat * nat * bool) => negb b || (i =? last1)) as (a&b&Hb&_);
        [| | | |erewrite dbl_stop_correct; [|exact Hb|apply depth_dbl, Hd]; reflexivity].
      + intros k Hk. cbn. apply Nat.eqb_neq. lia.
      + cbn. apply Nat.eqb_eq. lia.
      + reflexivity.
      + intros k Hk. cbn beta iota.
        unfold eqat. replace (first2 + (first1 + k - first1)) with (first2 + k) by lia.
        apply (rd_relb p l1 (first1 + k) l2 (first2 + k)
          (fun b : bool => if b then (S (first1 + k), S (first2 + k), true) else (first1 + k, first2 + k, false))); lia.
  Qed.

  Lemma eqat_iff l1 l2 first1 n first2 :
    forallb (eqat l1 l2 first1 first2) (seq first1 n) = true <->
    forall k, k < n -> rel p l1 (first1 + k) l2 (first2 + k).
  Proof.
    rewrite forallb_seq_iff. unfold eqat. split.
    - intros H k Hk. specialize (H (first1 + k) ltac:(lia)). apply relb_rel.
      replace (first2 + (first1 + k - first1)) with (first2 + k) in H by lia. exact H.
    - intros H i Hi. apply relb_rel. specialize (H (i - first1) ltac:(lia)).
      replace (first1 + (i - first1)) with i in H by lia. exact H.
  Qed.

  Lemma equal_correct_lemma c d l1 l2 first1 last1 first2 :
    valid l1 first1 last1 -> first2 + (last1 - first1) <= length l2 ->
    depth_bound (last1 - first1) <= d ->
    exists b, equal p c d l1 l2 first1 last1 first2 = Ok b /\
      (b = true <-> forall k, k < last1 - first1 -> rel p l1 (first1 + k) l2 (first2 + k)).
  Proof.
    intros Hv H Hd. eexists. split; [now apply equal_ok|]. apply eqat_iff.
  Qed.

  Lemma equal2_correct_lemma c d l1 l2 first1 last1 first2 last2 :
    valid l1 first1 last1 -> valid l2 first2 last2 ->
    depth_bound (last1 - first1) <= d ->
    exists b, equal2 p c d l1 l2 first1 last1 first2 last2 = Ok b /\
      (b = true <-> last1 - first1 = last2 - first2 /\
                    forall k, k < last1 - first1 -> rel p l1 (first1 + k) l2 (first2 + k)).
  Proof.
    intros [H1 H2] [H3 H4] Hd. unfold equal2. destruct c.
    - destruct (last1 - first1 =? last2 - first2) eqn:E; nb.
      + destruct (first1 =? last1) eqn:E1; nb.
        * exists true. split; [reflexivity|]. split; [|easy]. intros _. split; [exact E|]. intros k Hk. lia.
        * eexists. split; [apply equal_impl_ra_ok; (assumption || lia)|].
          rewrite eqat_iff. tauto.
      + exists false. split; [reflexivity|]. split; [discriminate|]. intros [? _]. lia.
    - set (n := Nat.min (last1 - first1) (last2 - first2)).
      assert (Hd' : depth_bound n <= d) by (etransitivity; [|exact Hd]; apply depth_mono; lia).
      edestruct loop_eq with (t := eqat l1 l2 first1 first2) (n := n)
        (i := first1) (j := first2) (st := fun '((i, j, b) : nat * nat * bool) => negb b || (i =? last1) || (j =? last2)) as (a&b&Hb&Hb');
        [| | | |erewrite dbl_stop_correct; [|exact Hb|apply depth_dbl, Hd']].
      + intros k Hk. cbn. apply orb_false_iff. split; apply Nat.eqb_neq; lia.
      + cbn. apply orb_true_iff. rewrite !Nat.eqb_eq. lia.
      + reflexivity.
      + intros k Hk. cbn beta iota.
        unfold eqat. replace (first2 + (first1 + k - first1)) with (first2 + k) by lia.
        apply (rd_relb p l1 (first1 + k) l2 (first2 + k)
          (fun b : bool => if b then (S (first1 + k), S (first2 + k), true) else (first1 + k, first2 + k, false))); lia.
      + cbn [bind]. eexists. split; [reflexivity|].
        pose proof (eqat_iff l1 l2 first1 n first2) as HE.
        destruct (forallb (eqat l1 l2 first1 first2) (seq first1 n)) eqn:Ef; cbn [andb].
        * destruct (Hb' eq_refl) as [-> ->]. rewrite andb_true_iff, !Nat.eqb_eq.
          split.
          -- intros [G1 G2]. split; [lia|]. intros k Hk. apply HE; [reflexivity|]. lia.
          -- intros [G1 G2]. lia.
        * split; [discriminate|]. intros [G1 G2]. apply HE. intros k Hk. apply G2. lia.
  Qed.

  (** *** find_first_of *)
  Lemma find_first_of_test_ok c2 d2 l1 l2 first2 last2 i :
    i < length l1 -> valid l2 first2 last2 -> depth_bound (last2 - first2) <= d2 ->
    find_first_of_test p c2 d2 l1 l2 first2 last2 i =
      Ok (existsb (fun j => relb p l1 i l2 j) (seq first2 (last2 - first2))).
  Proof.
    intros H Hv Hd. unfold find_first_of_test.
    destruct (rd_ex l1 i H) as (x&Hx&Hr). rewrite Hr. cbn [bind].
    rewrite find_if_scan by assumption. cbn [bind]. f_equal.
    replace (existsb (fun j => relb p l1 i l2 j) (seq first2 (last2 - first2)))
      with (existsb (tst (fun y => p x y) l2) (seq first2 (last2 - first2))).
    - rewrite scan_existsb. destruct Hv.
      pose proof (scan_bounds (tst (fun y => p x y) l2) (last2 - first2) first2).
      apply eq_true_iff_eq. rewrite negb_true_iff, Nat.eqb_neq, Nat.ltb_lt. lia.
    - apply eq_true_iff_eq. rewrite !existsb_exists. unfold tst, relb. rewrite Hx. tauto.
  Qed.

  Lemma find_first_of_correct_lemma c c2 d d2 l1 l2 first1 last1 first2 last2 :
    valid l1 first1 last1 -> valid l2 first2 last2 ->
    depth_bound (last1 - first1) <= d -> depth_bound (last2 - first2) <= d2 ->
    exists r, find_first_of p c c2 d d2 l1 l2 first1 last1 first2 last2 = Ok r /\
      is_first (fun i => exists j, first2 <= j < last2 /\ rel p l1 i l2 j) first1 last1 r.
  Proof.
    intros [H1 H2] Hv2 Hd Hd2.
    set (t := fun i => existsb (fun j => relb p l1 i l2 j) (seq first2 (last2 - first2))).
    exists (scan t first1 (last1 - first1)). split.
    - unfold find_first_of. destruct c.
      + destruct (first1 =? last1) eqn:E; nb.
        * subst. now rewrite Nat.sub_diag.
        * rewrite ra_search_ok with (t := t); [now rewrite Nat.eqb_refl|lia| |now apply depth_ra].
          intros i Hi. apply find_first_of_test_ok; (assumption || lia).
      + edestruct loop_find with (t := t) (i := first1) (n := last1 - first1) (last := last1) as (b&Hl&_);
          [lia| |erewrite dbl_stop_correct; [|exact Hl|apply depth_dbl, Hd]; reflexivity].
        intros j Hj. cbn [fst]. rewrite find_first_of_test_ok by (assumption || lia). reflexivity.
    - apply is_first_scan; [exact H1|]. intros i Hi. unfold t. rewrite existsb_exists.
      destruct Hv2. split.
      + intros (j&Hj&HR). apply in_seq in Hj. exists j. split; [lia|]. now apply relb_rel.
      + intros (j&Hj&HR). exists j. split; [apply in_seq; lia|]. now apply relb_rel.
  Qed.

  (** *** search_one *)
  Section Occ.
    Variables (l1 : list A) (l2 : list B) (last1 first2 last2 : nat).
    Hypothesis V1 : last1 <= length l1.
    Hypothesis V2 : valid l2 first2 last2.
    Let m := last2 - first2.
    Let Occ := occurs_at p l1 last1 l2 first2 last2.

    Definition one_spec (first1 r : nat) : Prop :=
      (Occ first1 /\ r = first1) \/
      (~ Occ first1 /\ first1 < r <= last1 /\
        (r = last1 -> forall j, first1 <= j -> ~ Occ j)).

    Lemma occ_len j : Occ j -> j + m <= last1.
    Proof. intros [H _]. exact H. Qed.

    Lemma search_one_ra_ok d first1 :
      first1 < last1 -> depth_bound m <= d ->
      exists r, search_one_ra p d l1 l2 first1 last1 first2 last2 = Ok r /\ one_spec first1 r.
    Proof.
      intros Hf Hd. unfold search_one_ra. destruct V2 as [V21 V22].
      destruct (last1 - first1 <? last2 - first2) eqn:E; nb.
      - exists last1. split; [reflexivity|]. right.
        assert (forall j, first1 <= j -> ~ Occ j).
        { intros j Hj HO. apply occ_len in HO. unfold m in HO. lia. }
        split; [now apply H|]. split; [lia|]. intros _. exact H.
      - replace (first1 =? last1) with false by (symmetry; apply Nat.eqb_neq; lia).
        pose proof (mismatch_ok true d l1 l2 first1 (first1 + (last2 - first2)) first2) as HM.
        cbn [mismatch] in HM. cbv zeta in HM. rewrite HM; clear HM.
        2: { split; lia. } 2: lia. 2: { replace (first1 + (last2 - first2) - first1) with m by (unfold m; lia). exact Hd. }
        cbn [bind fst].
        pose proof (mis_first l1 l2 first1 (first1 + (last2 - first2)) first2 ltac:(lia)) as (G1&G2&G3).
        set (s := scan (mis l1 l2 first1 first2) first1 (first1 + (last2 - first2) - first1)) in *.
        destruct (s =? first1 + (last2 - first2)) eqn:Es; nb.
        + exists first1. split; [reflexivity|]. left. split; [|reflexivity].
          split; [lia|]. intros k Hk. specialize (G2 (first1 + k) ltac:(lia)).
          replace (first2 + (first1 + k - first1)) with (first2 + k) in G2 by lia.
          rewrite <- relb_rel in *. destruct (relb p l1 (first1 + k) l2 (first2 + k)); [reflexivity|].
          exfalso. apply G2. discriminate.
        + eexists. split; [reflexivity|]. right.
          assert (HN : ~ Occ first1).
          { intros [_ HO]. apply (G3 ltac:(lia)).
            specialize (HO (s - first1) ltac:(lia)). replace (first1 + (s - first1)) with s in HO by lia.
            exact HO. }
          split; [exact HN|]. split; [lia|].
          intros Hr j Hj HO. destruct (Nat.eq_dec j first1) as [->|]; [contradiction|].
          apply occ_len in HO. unfold m in HO. lia.
    Qed.

    Lemma search_one_in_loop first1 : first1 < last1 -> forall n k,
      n = m - k -> k <= m -> first1 + k <= last1 ->
      (forall k', k' < k -> rel p l1 (first1 + k') l2 (first2 + k')) ->
      exists r b c, loop (fun s => let '(i, j, b) := s in
                Ok (if b : bool then Some s
                    else if j =? last2 then Some (first1, last2, true)
                    else if i =? last1 then Some (last1, last2, true)
                    else None))
             (fun '(i, j, b) => x <- rd l1 i ;; y <- rd l2 j ;;
                Ok (if negb (p x y) then (S i, last2, true) else (S i, S j, false)))
             (S n) (first1 + k, first2 + k, false) = Ok (r, b, c) /\ one_spec first1 r.
    Proof.
      intros Hf. destruct V2 as [V21 V22].
      induction n as [|n IH]; intros k Hn Hk Hl Hm.
      - exists first1, last2, true. cbn [loop bind].
        replace (first2 + k =? last2) with true by (symmetry; apply Nat.eqb_eq; lia).
        split; [reflexivity|]. left. split; [|reflexivity].
        split; [lia|]. intros k' Hk'. apply Hm. lia.
      - remember (S n) as n1. cbn [loop bind]. subst n1.
        replace (first2 + k =? last2) with false by (symmetry; apply Nat.eqb_neq; lia).
        destruct (first1 + k =? last1) eqn:El; nb.
        + exists last1, last2, true. split; [reflexivity|].
          right. assert (forall j, first1 <= j -> ~ Occ j).
          { intros j Hj HO. apply occ_len in HO. lia. }
          split; [now apply H|]. split; [lia|]. auto.
        + cbn [bind].
          rewrite (rd_relb p l1 (first1 + k) l2 (first2 + k)
            (fun b : bool => if negb b then (S (first1 + k), last2, true) else (S (first1 + k), S (first2 + k), false))) by lia.
          cbn [bind].
          destruct (relb p l1 (first1 + k) l2 (first2 + k)) eqn:Er; cbn [negb].
          * replace (S (first1 + k)) with (first1 + S k) by lia.
            replace (S (first2 + k)) with (first2 + S k) by lia.
            apply IH; try lia. intros k' Hk'. destruct (Nat.eq_dec k' k) as [->|]; [now apply relb_rel|].
            apply Hm. lia.
          * exists (S (first1 + k)), last2, true. cbn [loop bind]. split; [reflexivity|].
            right. assert (HN : ~ Occ first1).
            { intros [_ HO]. specialize (HO k ltac:(lia)). apply relb_rel in HO. congruence. }
            split; [exact HN|]. split; [lia|]. intros Hr j Hj HO.
            destruct (Nat.eq_dec j first1) as [->|]; [contradiction|].
            apply occ_len in HO. lia.
    Qed.

    Lemma search_one_in_ok d first1 :
      first1 < last1 -> depth_bound m <= d ->
      exists r, search_one_in p d l1 l2 first1 last1 first2 last2 = Ok r /\ one_spec first1 r.
    Proof.
      intros Hf Hd. unfold search_one_in.
      destruct (search_one_in_loop first1 Hf m 0) as (r&b&c&Hl&Hr); try lia.
      rewrite !Nat.add_0_r in Hl.
      erewrite dbl_correct; [|  |exact Hl|apply depth_dbl, Hd].
      - exists r. split; [reflexivity|exact Hr].
      - intros [[i j] b'] s' Hs. destruct b'; [injection Hs as <-; reflexivity|].
        destruct (j =? last2); [injection Hs as <-; reflexivity|].
        destruct (i =? last1); [injection Hs as <-; reflexivity|]. discriminate.
    Qed.

    Lemma search_one_ok c d first1 :
      first1 < last1 -> depth_bound m <= d ->
      exists r, search_one p c d l1 l2 first1 last1 first2 last2 = Ok r /\ one_spec first1 r.
    Proof. destruct c; [apply search_one_ra_ok|apply search_one_in_ok]. Qed.

    (** *** search *)
    Section Search.
      Variable F : nat.

      Definition sinv (c s : nat) : Prop :=
        (F <= s < c /\ Occ s /\ forall j, F <= j < s -> ~ Occ j) \/
        (s = last1 /\ forall j, F <= j -> ~ Occ j) \/
        (c <= s < last1 /\ forall j, F <= j < c -> ~ Occ j).

      Lemma search_impl_ra_ok c2 d2 d : depth_bound m <= d2 -> forall first1 last1' s,
        F <= first1 -> first1 < last1' -> last1' <= last1 ->
        Nat.log2_up (last1' - first1) < d -> sinv first1 s ->
        exists s', search_impl_ra p d c2 d2 l1 l2 first1 last1' first2 last2
          ((last1' - first1) / 2) last1 s = Ok s' /\ sinv last1' s'.
      Proof.
        intros Hd2. induction d as [|d IH]; intros first1 last1' s HF H1 H2 Hd Hs; [lia|].
        cbn [search_impl_ra].
        destruct ((s <? first1) || (s =? last1)) eqn:E.
        - exists s. split; [reflexivity|].
          destruct Hs as [(Ha&Hb&Hc)|[Hs|[Hs Hs']]].
          + left. split; [lia|]. auto.
          + right; left. exact Hs.
          + exfalso. apply orb_true_iff in E as [E|E]; nb; lia.
        - apply orb_false_iff in E as [E1 E2]. nb.
          assert (HN : forall j, F <= j < first1 -> ~ Occ j).
          { destruct Hs as [(Ha&Hb&Hc)|[[Hs _]|[Hs Hs']]]; try lia. exact Hs'. }
          destruct ((last1' - first1) / 2 =? 0) eqn:Ep; nb.
          + assert (last1' = S first1) by lia. subst last1'.
            destruct (search_one_ok c2 d2 first1 ltac:(lia) Hd2) as (r&Hr&Hsp).
            exists r. split; [exact Hr|].
            destruct Hsp as [[HO ->]|(HO&Hr'&Hend)].
            * left. split; [lia|]. split; [exact HO|]. exact HN.
            * destruct (Nat.eq_dec r last1) as [->|Hne].
              -- right; left. split; [reflexivity|]. intros j Hj.
                 destruct (Nat.lt_ge_cases j first1); [apply HN; lia|]. apply Hend; auto.
              -- right; right. split; [lia|]. intros j Hj.
                 destruct (Nat.eq_dec j first1) as [->|]; [exact HO|]. apply HN. lia.
          + set (n := last1' - first1) in *.
            assert (G1 := log2_half n ltac:(lia)). assert (G2 := log2_half' n ltac:(lia)).
            replace (n / 2 / 2) with ((first1 + n / 2 - first1) / 2) by (f_equal; lia).
            destruct (IH first1 (first1 + n / 2) first1) as (s1&Hs1&Hi1); try lia.
            { replace (first1 + n / 2 - first1) with (n / 2) by lia. lia. }
            { right; right. split; [lia|exact HN]. }
            rewrite Hs1. cbn [bind].
            replace ((n - n / 2) / 2) with ((last1' - (first1 + n / 2)) / 2) by (f_equal; lia).
            apply IH; try lia.
            { replace (last1' - (first1 + n / 2)) with (n - n / 2) by lia. lia. }
            exact Hi1.
      Qed.
    End Search.

    Lemma search_correct_lemma c c2 d d2 first1 :
      first1 <= last1 -> depth_bound (last1 - first1) <= d -> depth_bound m <= d2 ->
      exists r, search p c c2 d d2 l1 l2 first1 last1 first2 last2 = Ok r /\
        is_first Occ first1 last1 r.
    Proof.
      intros H1 Hd Hd2. unfold search. destruct c.
      - destruct (first1 =? last1) eqn:E; nb.
        + exists last1. split; [reflexivity|]. subst. unfold is_first. repeat split; lia.
        + destruct (search_impl_ra_ok first1 c2 d2 d Hd2 first1 last1 first1) as (r&Hr&Hs); try lia.
          { now apply depth_ra. }
          { right; right. split; [lia|]. intros; lia. }
          exists r. split; [exact Hr|].
          destruct Hs as [(Ha&Hb&Hc)|[[-> Hs]|[Hs Hs']]]; [| |lia].
          * split; [lia|]. split; [exact Hc|]. intros _. exact Hb.
          * split; [lia|]. split; [|lia]. intros j Hj. apply Hs. lia.
      - assert (Hloop : forall n i, last1 = i + n -> first1 <= i ->
          (forall j, first1 <= j < i -> ~ Occ j) ->
          exists r b, loop (stop (fun s => snd s || (fst s =? last1)))
               (fun s => r <- search_one p c2 d2 l1 l2 (fst s) last1 first2 last2 ;;
                  Ok (if (r =? fst s) || (r =? last1) then (r, true) else (S (fst s), false)))
               (S n) (i, false) = Ok (r, b) /\ is_first Occ first1 last1 r).
        { induction n as [|n IH]; intros i Hi Hf HN.
          - exists i, false. cbn [loop]. unfold stop. cbn [fst snd orb bind].
            replace (i =? last1) with true by (symmetry; apply Nat.eqb_eq; lia). split; [reflexivity|].
            split; [lia|]. split; [exact HN|lia].
          - remember (S n) as n1. cbn [loop]. subst n1. unfold stop at 1. cbn [fst snd orb bind].
            replace (i =? last1) with false by (symmetry; apply Nat.eqb_neq; lia). cbn [bind].
            destruct (search_one_ok c2 d2 i ltac:(lia) Hd2) as (r&Hr&Hsp). rewrite Hr. cbn [bind].
            destruct Hsp as [[HO ->]|(HO&Hr'&Hend)].
            + rewrite Nat.eqb_refl. cbn [orb]. exists i, true. split; [reflexivity|].
              split; [lia|]. split; [exact HN|]. intros _. exact HO.
            + replace (r =? i) with false by (symmetry; apply Nat.eqb_neq; lia). cbn [orb].
              destruct (r =? last1) eqn:El; nb.
              * exists r, true. split; [reflexivity|]. subst r.
                split; [lia|]. split; [|lia]. intros j Hj.
                destruct (Nat.lt_ge_cases j i); [apply HN; lia|]. apply Hend; auto.
              * apply IH; [lia|lia|]. intros j Hj. destruct (Nat.eq_dec j i) as [->|]; [exact HO|]. apply HN. lia. }
        destruct (Hloop (last1 - first1) first1) as (r&b&Hl&Hr); [lia|lia|intros; lia|].
        erewrite dbl_stop_correct; [|exact Hl|apply depth_dbl, Hd].
        exists r. split; [reflexivity|exact Hr].
    Qed.

    (** *** find_end *)
    Section FindEnd.
      Variable F : nat.
      Hypothesis Hm : 1 <= m.

      Definition einv (c s : nat) : Prop :=
        (c <= s < last1 /\ Occ s /\ forall j, s < j -> ~ Occ j) \/
        (s = last1 /\ forall j, c <= j -> ~ Occ j).

      Lemma find_end_impl_ra_ok c2 d2 d : depth_bound m <= d2 -> forall first1 last1' s,
        first1 < last1' -> last1' <= last1 ->
        Nat.log2_up (last1' - first1) < d -> einv last1' s ->
        exists s', find_end_impl_ra p d c2 d2 l1 l2 first1 last1' first2 last2
          ((last1' - first1) / 2) last1 s = Ok s' /\ einv first1 s'.
      Proof.
        intros Hd2. induction d as [|d IH]; intros first1 last1' s H1 H2 Hd Hs; [lia|].
        cbn [find_end_impl_ra].
        destruct (s =? last1) eqn:E; cbn [negb]; nb.
        - assert (HN : forall j, last1' <= j -> ~ Occ j) by (destruct Hs as [(?&_)|[_ ?]]; [lia|assumption]).
          subst s.
          destruct ((last1' - first1) / 2 =? 0) eqn:Ep; nb.
          + assert (last1' = S first1) by lia. subst last1'.
            destruct (search_one_ok c2 d2 first1 ltac:(lia) Hd2) as (r&Hr&Hsp).
            rewrite Hr. cbn [bind]. eexists. split; [reflexivity|].
            destruct Hsp as [[HO ->]|(HO&Hr'&Hend)].
            * rewrite Nat.eqb_refl. left. split; [lia|]. split; [exact HO|]. intros j Hj. apply HN. lia.
            * replace (r =? first1) with false by (symmetry; apply Nat.eqb_neq; lia).
              right. split; [reflexivity|]. intros j Hj.
              destruct (Nat.eq_dec j first1) as [->|]; [exact HO|]. apply HN. lia.
          + set (n := last1' - first1) in *.
            assert (G1 := log2_half n ltac:(lia)). assert (G2 := log2_half' n ltac:(lia)).
            replace ((n - n / 2) / 2) with ((last1' - (first1 + n / 2)) / 2) by (f_equal; lia).
            destruct (IH (first1 + n / 2) last1' last1) as (s1&Hs1&Hi1); try lia.
            { replace (last1' - (first1 + n / 2)) with (n - n / 2) by lia. lia. }
            { right. auto. }
            rewrite Hs1. cbn [bind].
            replace (n / 2 / 2) with ((first1 + n / 2 - first1) / 2) by (f_equal; lia).
            apply IH; try lia.
            { replace (first1 + n / 2 - first1) with (n / 2) by lia. lia. }
            exact Hi1.
        - exists s. split; [reflexivity|]. destruct Hs as [(Ha&Hb&Hc)|[? _]]; [|contradiction].
          left. split; [lia|]. auto.
      Qed.

      Lemma einv_last first1 s : first1 <= last1 -> einv first1 s -> is_last Occ first1 last1 s.
      Proof.
        intros H [(Ha&Hb&Hc)|[Hs Hs']].
        - left. split; [lia|]. split; [exact Hb|]. intros j Hj. apply Hc. lia.
        - right. split; [exact Hs|]. intros j Hj. apply Hs'. lia.
      Qed.

      Lemma find_end_ra_ok c2 d d2 first1 :
        first1 < last1 -> depth_bound (last1 - first1) <= d -> depth_bound m <= d2 ->
        exists r, find_end_ra p c2 d d2 l1 l2 first1 last1 first2 last2 = Ok r /\ is_last Occ first1 last1 r.
      Proof.
        intros H1 Hd Hd2. unfold find_end_ra. fold m.
        destruct (last1 - first1 <? m) eqn:E; nb.
        - exists last1. split; [reflexivity|]. right. split; [reflexivity|]. intros j Hj HO. apply occ_len in HO. lia.
        - replace ((last1 - first1 - m + 1) / 2) with ((last1 - m + 1 - first1) / 2) by (f_equal; lia).
          destruct (find_end_impl_ra_ok c2 d2 d Hd2 first1 (last1 - m + 1) last1) as (r&Hr&Hi); try lia.
          { apply depth_ra. etransitivity; [|exact Hd]. apply depth_mono. lia. }
          { right. split; [reflexivity|]. intros j Hj HO. apply occ_len in HO. lia. }
          exists r. split; [exact Hr|]. apply einv_last; [lia|exact Hi].
      Qed.

      Lemma find_end_fwd_ok c2 d d2 first1 :
        first1 <= last1 -> depth_bound (last1 - first1) <= d -> depth_bound m <= d2 ->
        exists r, find_end_fwd p c2 d d2 l1 l2 first1 last1 first2 last2 = Ok r /\ is_last Occ first1 last1 r.
      Proof.
        intros H1 Hd Hd2. unfold find_end_fwd.
        assert (Hloop : forall n i s, last1 = i + n -> first1 <= i ->
          ((first1 <= s < i /\ Occ s /\ forall j, s < j < i -> ~ Occ j) \/ (s = last1 /\ forall j, first1 <= j < i -> ~ Occ j)) ->
          exists r b, loop (stop (fun s => fst s =? last1))
             (fun s => r <- search_one p c2 d2 l1 l2 (fst s) last1 first2 last2 ;;
                Ok (if r =? fst s then (S (fst s), r)
                    else if r =? last1 then (last1, snd s)
                    else (S (fst s), snd s)))
               (S n) (i, s) = Ok (b, r) /\ is_last Occ first1 last1 r).
        { induction n as [|n IH]; intros i s Hi Hf HI.
          - exists s, i. cbn [loop]. unfold stop. cbn [fst snd orb bind].
            replace (i =? last1) with true by (symmetry; apply Nat.eqb_eq; lia). split; [reflexivity|].
            assert (i = last1) by lia. subst i. exact HI.
          - remember (S n) as n1. cbn [loop]. subst n1. unfold stop at 1. cbn [fst snd orb bind].
            replace (i =? last1) with false by (symmetry; apply Nat.eqb_neq; lia). cbn [bind].
            destruct (search_one_ok c2 d2 i ltac:(lia) Hd2) as (r&Hr&Hsp). rewrite Hr. cbn [bind].
            destruct Hsp as [[HO ->]|(HO&Hr'&Hend)].
            + rewrite Nat.eqb_refl. apply IH; [lia|lia|]. left. split; [lia|]. split; [exact HO|]. intros; lia.
            + replace (r =? i) with false by (symmetry; apply Nat.eqb_neq; lia). cbn [orb].
              destruct (r =? last1) eqn:El; nb.
              * exists s, last1. cbn [loop]. unfold stop. cbn [fst]. rewrite Nat.eqb_refl. split; [reflexivity|].
                subst r. specialize (Hend eq_refl).
                destruct HI as [(Ha&Hb&Hc)|[Hs HN]].
                -- left. split; [lia|]. split; [exact Hb|]. intros j Hj.
                   destruct (Nat.lt_ge_cases j i); [apply Hc; lia|apply Hend; lia].
                -- right. split; [exact Hs|]. intros j Hj.
                   destruct (Nat.lt_ge_cases j i); [apply HN; lia|apply Hend; lia].
              * apply IH; [lia|lia|].
                destruct HI as [(Ha&Hb&Hc)|[Hs HN]]; [left|right].
                -- split; [lia|]. split; [exact Hb|]. intros j Hj.
                   destruct (Nat.eq_dec j i) as [->|]; [exact HO|apply Hc; lia].
                -- split; [exact Hs|]. intros j Hj.
                   destruct (Nat.eq_dec j i) as [->|]; [exact HO|apply HN; lia]. }
        destruct (Hloop (last1 - first1) first1 last1) as (r&b&Hl&Hr); [lia|lia|right; split; [lia|intros; lia]|].
        erewrite dbl_stop_correct; [|exact Hl|apply depth_dbl, Hd].
        exists r. split; [reflexivity|exact Hr].
      Qed.

      (** Result of search_one_rev for the window ending at [e]. *)
      Definition rev_spec (first1 e : nat) (r : nat * bool) : Prop :=
        (r = (e - m, false) /\ first1 + m <= e /\ Occ (e - m)) \/
        (r = (e, true) /\ e < first1 + m) \/
        (r = (e, false) /\ (first1 + m <= e -> ~ Occ (e - m))).

      Lemma search_one_rev_ok d first1 e :
        first1 < e -> e <= last1 -> depth_bound m <= d ->
        exists r, search_one_rev p d l1 l2 first1 e first2 last2 = Ok r /\ rev_spec first1 e r.
      Proof.
        intros Hf He Hd. unfold search_one_rev. destruct V2 as [V21 V22].
        assert (Hloop : forall n k, n = m - k -> k <= m -> first1 + k <= e ->
          (forall k', k' < k -> rel p l1 (e - S k') l2 (last2 - S k')) ->
          exists i j, loop (fun s => let '(i, j, b) := s in
                Ok (if b : bool then Some s
                    else if j =? first2 then Some (i, first2, true)
                    else if i =? first1 then Some (first1, j, true)
                    else None))
             (fun '(i, j, b) => x <- rd l1 (i - 1) ;; y <- rd l2 (j - 1) ;;
                Ok (if p x y then (i - 1, j - 1, false) else (i, j, true)))
             (S n) (e - k, last2 - k, false) = Ok (i, j, true) /\
             rev_spec first1 e (if j =? first2 then (i, false) else (e, i =? first1))).
        { induction n as [|n IH]; intros k Hn Hk Hl Hr.
          - cbn [loop bind].
            replace (last2 - k =? first2) with true by (symmetry; apply Nat.eqb_eq; lia).
            do 2 eexists. split; [reflexivity|]. rewrite Nat.eqb_refl. left.
            assert (k = m) by lia. subst k. split; [reflexivity|]. split; [lia|].
            split; [lia|]. intros k' Hk'. specialize (Hr (m - S k') ltac:(lia)).
            replace (e - S (m - S k')) with (e - m + k') in Hr by lia.
            replace (last2 - S (m - S k')) with (first2 + k') in Hr by lia. exact Hr.
          - remember (S n) as n1. cbn [loop bind]. subst n1.
            destruct (last2 - k =? first2) eqn:E2; nb; [lia|].
            destruct (e - k =? first1) eqn:E1; nb.
            + do 2 eexists. split; [reflexivity|].
              replace (last2 - k =? first2) with false by (symmetry; apply Nat.eqb_neq; lia).
              rewrite Nat.eqb_refl. right; left. split; [reflexivity|]. lia.
            + cbn [bind].
              rewrite (rd_relb p l1 (e - k - 1) l2 (last2 - k - 1)
                (fun b : bool => if b then (e - k - 1, last2 - k - 1, false) else (e - k, last2 - k, true))) by lia.
              cbn [bind].
              destruct (relb p l1 (e - k - 1) l2 (last2 - k - 1)) eqn:Er.
              * replace (e - k - 1) with (e - S k) in * by lia.
                replace (last2 - k - 1) with (last2 - S k) in * by lia.
                apply IH; try lia. intros k' Hk'. destruct (Nat.eq_dec k' k) as [->|]; [now apply relb_rel|apply Hr; lia].
              * do 2 eexists. cbn [loop bind]. split; [reflexivity|].
                replace (last2 - k =? first2) with false by (symmetry; apply Nat.eqb_neq; lia).
                replace (e - k =? first1) with false by (symmetry; apply Nat.eqb_neq; lia).
                right; right. split; [reflexivity|]. intros Hge [_ HO].
                specialize (HO (m - S k) ltac:(lia)). apply relb_rel in HO.
                replace (e - m + (m - S k)) with (e - k - 1) in HO by lia.
                replace (first2 + (m - S k)) with (last2 - k - 1) in HO by lia. congruence. }
        destruct (Hloop m 0) as (i&j&Hl&Hr); try lia.
        rewrite !Nat.sub_0_r in Hl.
        erewrite dbl_correct; [| |exact Hl|apply depth_dbl, Hd].
        - eexists. split; [reflexivity|exact Hr].
        - intros [[i' j'] b'] s' Hs. destruct b'; [injection Hs as <-; reflexivity|].
          destruct (j' =? first2); [injection Hs as <-; reflexivity|].
          destruct (i' =? first1); [injection Hs as <-; reflexivity|]. discriminate.
      Qed.

      Lemma find_end_bi_ok d d2 first1 :
        first1 <= last1 -> depth_bound (last1 - first1) <= d -> depth_bound m <= d2 ->
        exists r, find_end_bi p d d2 l1 l2 first1 last1 first2 last2 = Ok r /\ is_last Occ first1 last1 r.
      Proof.
        intros H1 Hd Hd2. unfold find_end_bi.
        assert (Hloop : forall n e, e = first1 + n -> e <= last1 ->
          (forall j, first1 <= j -> e < j + m -> ~ Occ j) ->
          exists r b, loop (stop (fun s => negb (snd s =? last1) || (fst s =? first1)))
             (fun s => r <- search_one_rev p d2 l1 l2 first1 (fst s) first2 last2 ;;
                Ok (if snd r : bool then (first1, snd s)
                    else if fst r =? fst s then (fst s - 1, snd s)
                    else (fst s, fst r)))
               (S n) (e, last1) = Ok (b, r) /\ is_last Occ first1 last1 r).
        { induction n as [|n IH]; intros e He Hl HN.
          - exists last1, e. cbn [loop]. unfold stop. cbn [fst snd orb bind].
            replace (e =? first1) with true by (symmetry; apply Nat.eqb_eq; lia). rewrite orb_true_r. split; [reflexivity|].
            right. split; [reflexivity|]. intros j Hj. apply HN; lia.
          - remember (S n) as n1. cbn [loop]. subst n1. unfold stop at 1. cbn [fst snd orb bind].
            rewrite Nat.eqb_refl.
            replace (e =? first1) with false by (symmetry; apply Nat.eqb_neq; lia). cbn [bind negb orb].
            destruct (search_one_rev_ok d2 first1 e ltac:(lia) Hl Hd2) as (r&Hr&Hsp). rewrite Hr. cbn [bind].
            destruct Hsp as [(->&Hge&HO)|[[-> Hlt]|[-> HNO]]]; cbn [fst snd].
            + replace (e - m =? e) with false by (symmetry; apply Nat.eqb_neq; lia).
              exists (e - m), e. cbn [loop]. unfold stop. cbn [fst snd].
              replace (e - m =? last1) with false by (symmetry; apply Nat.eqb_neq; lia). split; [reflexivity|].
              left. split; [lia|]. split; [exact HO|]. intros j Hj. apply HN; lia.
            + exists last1, first1. cbn [loop]. unfold stop. cbn [fst snd]. rewrite !Nat.eqb_refl. split; [reflexivity|].
              right. split; [reflexivity|]. intros j Hj HO.
              destruct (Nat.lt_ge_cases e (j + m)); [apply (HN j); (assumption || lia)|lia].
            + rewrite Nat.eqb_refl. apply IH; [lia|lia|]. intros j Hfj Hj HO.
              destruct (Nat.eq_dec e (j + m)) as [Ee|]; [|apply (HN j); [lia|lia|exact HO]].
              apply HNO; [lia|]. replace (e - m) with j by lia. exact HO. }
        destruct (Hloop (last1 - first1) last1) as (r&b&Hl&Hr); [lia|lia|intros j Hfj Hj HO; apply occ_len in HO; lia|].
        erewrite dbl_stop_correct; [|exact Hl|apply depth_dbl, Hd].
        exists r. split; [reflexivity|exact Hr].
      Qed.

      Lemma find_end_correct_lemma c c2 d d2 first1 :
        first1 <= last1 -> depth_bound (last1 - first1) <= d -> depth_bound m <= d2 ->
        exists r, find_end p c c2 d d2 l1 l2 first1 last1 first2 last2 = Ok r /\ is_last Occ first1 last1 r.
      Proof.
        intros H1 Hd Hd2. unfold find_end.
        destruct (first1 =? last1) eqn:E; nb; cbn [orb].
        - exists last1. split; [reflexivity|]. right. split; [reflexivity|]. intros; lia.
        - replace (first2 =? last2) with false by (symmetry; apply Nat.eqb_neq; lia).
          destruct c.
          + apply find_end_ra_ok; (assumption || lia).
          + apply find_end_bi_ok; assumption.
          + apply find_end_fwd_ok; assumption.
      Qed.
    End FindEnd.
  End Occ.
End TwoRanges.

(** *** search_n *)
Section SearchN.
  Context {A B : Type}.
  Variable p : A -> B -> bool.
  Variables (l : list A) (F last count : nat) (v : B).
  Hypothesis V : last <= length l.
  Hypothesis Hc : 1 <= count.
  Let Run := run_at p l last count v.
  Let sv := sat (fun x => p x v) l.

  Definition ninv (c s : nat) : Prop :=
    (F <= s /\ s + count <= c /\ Run s /\ forall j, F <= j < s -> ~ Run j) \/
    (s = last /\ forall j, F <= j -> ~ Run j) \/
    (F <= s <= c /\ c < s + count /\ s + count <= last /\ (forall j, s <= j < c -> sv j) /\
      forall j, F <= j < s -> ~ Run j).

  Lemma run_len j : Run j -> j + count <= last.
  Proof. intros [H _]. exact H. Qed.

  Lemma run_not j k : ~ sv k -> j <= k < j + count -> ~ Run j.
  Proof. intros Hs Hk [_ HR]. apply Hs. specialize (HR (k - j) ltac:(lia)). replace (j + (k - j)) with k in HR by lia. exact HR. Qed.

  Lemma search_n_impl_ra_ok d : forall current len s,
    F <= current -> 1 <= len -> current + len <= last ->
    Nat.log2_up len < d -> ninv current s ->
    exists s', search_n_impl_ra p d l current last count v len s = Ok s' /\ ninv (current + len) s'.
  Proof.
    induction d as [|d IH]; intros current len s HF H1 H2 Hd Hs; [lia|].
    cbn [search_n_impl_ra].
    destruct ((count <=? current - s) || (s =? last)) eqn:E.
    - exists s. split; [reflexivity|].
      destruct Hs as [(Ha&Hb&Hs)|[Hs|(Ha&Hb&Hs)]].
      + left. split; [lia|]. split; [lia|]. exact Hs.
      + right; left. exact Hs.
      + exfalso. apply orb_true_iff in E as [E|E]; nb; lia.
    - apply orb_false_iff in E as [E1 E2]. nb.
      destruct Hs as [(Ha&Hb&Hs)|[[Hs _]|Hs]]; [lia|lia|].
      destruct (len =? 1) eqn:El; nb.
      + subst len. destruct Hs as (Ha&Hb&Hb'&Hr&HN).
        rewrite (rd_tst (fun x => p x v) l current
          (fun b : bool => if b then s else if count <? last - current then S current else last)) by lia.
        eexists. split; [reflexivity|].
        destruct (tst (fun x => p x v) l current) eqn:Et.
        * apply tst_sat in Et.
          assert (Hr' : forall j, s <= j < current + 1 -> sv j).
          { intros j Hj. destruct (Nat.eq_dec j current) as [->|]; [exact Et|]. apply Hr. lia. }
          destruct (Nat.eq_dec (s + count) (current + 1)) as [Eq|].
          -- left. split; [lia|]. split; [lia|]. split; [|exact HN].
             split; [lia|]. intros k Hk. apply Hr'. lia.
          -- right; right. split; [lia|]. split; [lia|]. split; [lia|]. auto.
        * assert (Hns : ~ sv current) by (unfold sv; rewrite <- tst_sat; congruence).
          assert (HN' : forall j, F <= j <= current -> ~ Run j).
          { intros j Hj. destruct (Nat.lt_ge_cases j s); [apply HN; lia|]. apply (run_not j current Hns). lia. }
          destruct (count <? last - current) eqn:Ec; nb.
          -- right; right. split; [lia|]. split; [lia|]. split; [lia|]. split; [intros; lia|]. intros j Hj. apply HN'. lia.
          -- right; left. split; [reflexivity|]. intros j Hj HR. pose proof (run_len j HR).
             apply (HN' j); [lia|exact HR].
      + assert (G1 := log2_half len ltac:(lia)). assert (G2 := log2_half' len ltac:(lia)).
        destruct (IH current (len / 2) s) as (s1&Hs1&Hi1); try lia.
        { right; right. exact Hs. }
        rewrite Hs1. cbn [bind].
        replace (current + len) with (current + len / 2 + (len - len / 2)) by lia.
        apply IH; try lia. exact Hi1.
  Qed.

  Lemma search_n_ra_ok d : F <= last -> depth_bound (last - F) <= d ->
    exists r, search_n_ra p d l F last count v = Ok r /\ is_first Run F last r.
  Proof.
    intros HF Hd. unfold search_n_ra. destruct (last - F <? count) eqn:E; nb.
    - exists last. split; [reflexivity|]. split; [lia|]. split; [|lia]. intros j Hj HR.
      pose proof (run_len j HR). lia.
    - destruct (search_n_impl_ra_ok d F (last - F) F) as (r&Hr&Hi); try lia.
      { now apply depth_ra. }
      { right; right. split; [lia|]. split; [lia|]. split; [lia|]. split; intros; lia. }
      exists r. split; [exact Hr|]. replace (F + (last - F)) with last in Hi by lia.
      destruct Hi as [(Ha&Hb&Hc1&Hd1)|[[-> Hs]|(Ha&Hb&Hc1&_)]]; [| |lia].
      + split; [lia|]. split; [exact Hd1|]. intros _. exact Hc1.
      + split; [lia|]. split; [|lia]. intros j Hj. apply Hs. lia.
  Qed.

  Lemma search_n_in_ok d : F <= last -> depth_bound (last - F) <= d ->
    exists r, search_n_in p d l F last count v = Ok r /\ is_first Run F last r.
  Proof.
    intros HF Hd. unfold search_n_in.
    assert (Hloop : forall n i b k, last = i + n -> F <= b -> b + k = i -> k <= count ->
      (forall j, b <= j < i -> sv j) -> (forall j, F <= j < b -> ~ Run j) ->
      exists i' b' k', loop (stop (fun '(i, b, k) => (k =? count) || (i =? last)))
               (fun '(i, b, k) => x <- rd l i ;;
                  Ok (if p x v then (S i, b, k + 1) else (S i, S i, 0)))
        (S n) (i, b, k) = Ok (i', b', k') /\
        is_first Run F last (if k' =? count then b' else last)).
    { assert (Hfin : forall i b k, F <= b -> i <= last -> b + k = i -> k <= count ->
        (forall j, b <= j < i -> sv j) -> (forall j, F <= j < b -> ~ Run j) ->
        (k =? count) || (i =? last) = true -> is_first Run F last (if k =? count then b else last)).
      { intros i b k H1 H2 H3 H4 H5 H6 H7. destruct (k =? count) eqn:E; nb.
        - split; [lia|]. split; [exact H6|]. intros _. split; [lia|]. intros k' Hk'. apply H5. lia.
        - apply Nat.eqb_eq in H7. split; [lia|]. split; [|lia]. intros j Hj HR. pose proof (run_len j HR).
          destruct (Nat.lt_ge_cases j b); [now apply (H6 j)|lia]. }
      induction n as [|n IH]; intros i b k Hi HFb Hk Hkc Hr HN.
      - exists i, b, k. cbn [loop]. unfold stop.
        assert (E : (k =? count) || (i =? last) = true).
        { replace (i =? last) with true by (symmetry; apply Nat.eqb_eq; lia). apply orb_true_r. }
        rewrite E. split; [reflexivity|]. apply (Hfin i); (assumption || lia).
      - remember (S n) as n1. cbn [loop]. subst n1. unfold stop at 1.
        destruct ((k =? count) || (i =? last)) eqn:E; cbn [bind].
        + exists i, b, k. split; [reflexivity|]. apply (Hfin i); (assumption || lia).
        + apply orb_false_iff in E as [E1 E2]. nb.
          rewrite (rd_tst (fun x => p x v) l i
            (fun t : bool => if t then (S i, b, k + 1) else (S i, S i, 0))) by lia.
          cbn [bind]. destruct (tst (fun x => p x v) l i) eqn:Et.
          * apply IH; try lia; try assumption. intros j Hj.
            destruct (Nat.eq_dec j i) as [->|]; [now apply tst_sat|apply Hr; lia].
          * apply IH; try lia. intros j Hj.
            destruct (Nat.lt_ge_cases j b); [apply HN; lia|].
            apply (run_not j i); [unfold sv; rewrite <- tst_sat; congruence|lia]. }
    destruct (Hloop (last - F) F F 0) as (i'&b'&k'&Hl&Hr); try lia.
    erewrite dbl_stop_correct; [|exact Hl|apply depth_dbl, Hd].
    eexists. split; [reflexivity|exact Hr].
  Qed.

  Lemma search_n_correct_lemma c d : F <= last -> depth_bound (last - F) <= d ->
    exists r, search_n p c d l F last count v = Ok r /\ is_first Run F last r.
  Proof.
    intros HF Hd. unfold search_n.
    replace (count =? 0) with false by (symmetry; apply Nat.eqb_neq; lia).
    destruct (count =? 1) eqn:E1; nb.
    - destruct (find_if_correct_lemma c d l F last (fun x => p x v)) as (r&Hr&G1&G2&G3); [split; lia|exact Hd|].
      exists r. split; [exact Hr|]. split; [exact G1|]. split.
      + intros j Hj [_ HR]. specialize (HR 0 ltac:(lia)). rewrite Nat.add_0_r in HR. now apply (G2 j).
      + intros Hlt. split; [lia|]. intros k Hk. replace (r + k) with r by lia. now apply G3.
    - destruct c; [now apply search_n_ra_ok|now apply search_n_in_ok].
  Qed.
End SearchN.

(** *** Corollaries stated as properties *)
Lemma depth_64 n : (Z.of_nat n < 2 ^ 64)%Z -> depth_bound n <= 130.
Proof.
  intros H. unfold depth_bound.
  assert (Nat.log2 n <= 63); [|lia].
  destruct n as [|n]; [cbn; lia|].
  destruct (Nat.log2_spec (S n)) as [Hlo _]; [lia|].
  destruct (Nat.le_gt_cases (Nat.log2 (S n)) 63) as [|Hgt]; [assumption|exfalso].
  assert (Hz : (2 ^ 64 <= Z.of_nat (2 ^ Nat.log2 (S n)))%Z).
  { rewrite Nat2Z.inj_pow. apply Z.pow_le_mono_r; lia. }
  lia.
Qed.

Definition total {A} (r : res A) : Prop := exists a, r = Ok a.

Lemma depth_correct_lemma {A B} c d (l : list A) first last (p : A -> bool) (q : A -> A -> bool)
    (eqb : A -> B -> bool) (v : B) n (l2 : list B) first2 :
  valid l first last -> depth_bound (last - first) <= d ->
  total (find_if c d l first last p) /\ total (find_if_not c d l first last p) /\
  total (find eqb c d l first last v) /\ total (all_of c d l first last p) /\
  total (any_of c d l first last p) /\ total (none_of c d l first last p) /\
  total (one_of c d l first last p) /\ total (count_if c d l first last p) /\
  total (count eqb c d l first last v) /\ total (adjacent_find c d l first last q) /\
  (1 <= n -> total (search_n eqb c d l first last n v)) /\
  (first2 + (last - first) <= length l2 ->
    total (mismatch eqb c d l l2 first last first2) /\ total (equal eqb c d l l2 first last first2)).
Proof.
  intros Hv Hd. unfold total.
  split; [rewrite find_if_scan by assumption; eauto|].
  split; [rewrite find_if_not_eq, find_if_scan by assumption; eauto|].
  split; [edestruct @find_correct_lemma as (?&?&?); eauto|].
  split; [rewrite all_of_forallb by assumption; eauto|].
  split; [rewrite any_of_existsb by assumption; eauto|].
  split; [edestruct @none_of_correct_lemma as (?&?&?); eauto|].
  split; [edestruct @one_of_partial_lemma as (?&?&?); eauto|].
  split; [rewrite count_if_cnt by assumption; eauto|].
  split; [unfold count; rewrite count_if_cnt by assumption; eauto|].
  split; [edestruct @adjacent_find_scan as (?&?&?); eauto|].
  split; [intros Hn; destruct Hv; edestruct @search_n_correct_lemma as (?&?&?); eauto|].
  intros H2. split.
  - edestruct @mismatch_correct_lemma as (?&?&?); eauto.
  - edestruct @equal_correct_lemma as (?&?&?); eauto.
Qed.

Lemma depth_512_lemma {A B} c (l : list A) first last (p : A -> bool) (q : A -> A -> bool)
    (eqb : A -> B -> bool) (v : B) n (l2 : list B) first2 :
  valid l first last -> (Z.of_nat (last - first) < 2 ^ 64)%Z ->
  let d := 130 in
  total (find_if c d l first last p) /\ total (find_if_not c d l first last p) /\
  total (find eqb c d l first last v) /\ total (all_of c d l first last p) /\
  total (any_of c d l first last p) /\ total (none_of c d l first last p) /\
  total (one_of c d l first last p) /\ total (count_if c d l first last p) /\
  total (count eqb c d l first last v) /\ total (adjacent_find c d l first last q) /\
  (1 <= n -> total (search_n eqb c d l first last n v)) /\
  (first2 + (last - first) <= length l2 ->
    total (mismatch eqb c d l l2 first last first2) /\ total (equal eqb c d l l2 first last first2)).
Proof. intros Hv H d. apply depth_correct_lemma; [exact Hv|]. now apply depth_64. Qed.

Lemma count_if_split_lemma {A} c d (l : list A) first mid last p :
  valid l first last -> first <= mid <= last -> depth_bound (last - first) <= d ->
  exists a b, count_if c d l first mid p = Ok a /\ count_if c d l mid last p = Ok b /\
    count_if c d l first last p = Ok (a + b) /\ a + b <= last - first.
Proof.
  intros [H1 H2] Hm Hd.
  rewrite (count_if_cnt c d l first mid), (count_if_cnt c d l mid last), (count_if_cnt c d l first last);
    try (split; lia); try exact Hd; try (etransitivity; [|exact Hd]; apply depth_mono; lia).
  do 2 eexists. split; [reflexivity|]. split; [reflexivity|].
  assert (E : cnt (tst p l) first (last - first) =
          cnt (tst p l) first (mid - first) + cnt (tst p l) mid (last - mid)).
  { replace (last - first) with ((mid - first) + (last - mid)) by lia. rewrite cnt_add.
    f_equal. f_equal. lia. }
  split; [now rewrite E|]. rewrite <- E. unfold cnt.
  assert (G : forall t (xs : list nat), length (filter t xs) <= length xs).
  { intros t xs. induction xs as [|x xs IHx]; cbn; [lia|]. destruct (t x); cbn; lia. }
  etransitivity; [apply G|]. rewrite seq_length. lia.
Qed.

Lemma one_of_refuted_lemma : exists (l : list bool) d,
  valid l 0 4 /\ depth_bound 4 <= d /\
  one_of true d l 0 4 (fun b => b) = Ok true /\
  one_of false d l 0 4 (fun b => b) = Ok false /\
  sat (fun b => b) l 0 /\ sat (fun b => b) l 1 /\ sat (fun b => b) l 2.
Proof.
  exists [true; true; true; false], 8. unfold valid, sat. cbn.
  repeat split; try (repeat constructor); exists true; split; reflexivity.
Qed.

Lemma find_end_empty_lemma {A B} (p : A -> B -> bool) l1 l2 c c2 d d2 first1 last1 first2 :
  find_end p c c2 d d2 l1 l2 first1 last1 first2 first2 = Ok last1.
Proof. unfold find_end. rewrite Nat.eqb_refl, orb_true_r. reflexivity. Qed.

Lemma search_n_refuted_lemma : exists (l : list nat) d,
  depth_bound 2 <= d /\ search_n Nat.eqb true d l 0 2 0 7 = Ok 2 /\
  search_n Nat.eqb false d l 0 2 0 7 = Ok 2 /\ 2 <= length l /\ run_at Nat.eqb l 2 0 7 0.
Proof.
  exists [1; 2], 8. unfold run_at. cbn. repeat split; try (repeat constructor). intros k Hk. lia.
Qed.
