(** Partitions, sortedness, heaps and extrema. *)
From Coq Require Import List Arith Bool ZArith Lia Permutation.
From Coq Require Import ZifyBool ZifyNat.
From Verif Require Import Base BaseProof SearchModel SearchSpec SearchProof SearchProof2
  OrderModel OrderSpec OrderProof.
Import ListNotations.
Ltac Zify.zify_post_hook ::= Z.div_mod_to_equations.

(** Invariant and measure rule for the while loop. *)
Lemma loop_inv {S} (b : S -> bool) (step : S -> res S) (I : S -> Prop) (m : S -> nat) :
  (forall s, I s -> b s = false -> exists s', step s = Ok s' /\ I s' /\ m s' < m s) ->
  forall k s, I s -> m s < k ->
  exists sf, loop (stop b) step k s = Ok sf /\ I sf /\ b sf = true.
Proof.
  intros Hstep k. induction k as [|k IH]; intros s HI Hm; [lia|].
  cbn [loop]. unfold stop at 1. destruct (b s) eqn:Eb; cbn [bind].
  - exists s. auto.
  - destruct (Hstep s HI Eb) as (s'&E&HI'&Hm'). rewrite E. cbn [bind].
    apply IH; [exact HI'|lia].
Qed.

(** ** is_partitioned *)
Lemma partitioned_split (P : nat -> Prop) first last :
  (forall i, first <= i < last -> P i \/ ~ P i) -> first <= last ->
  partitioned P first last <-> exists k, splits P first last k.
Proof.
  intros Hd Hf. split.
  - intros HP. apply first_split; auto. intros i j Hi Hij Hj HPj.
    destruct (Hd i ltac:(lia)) as [H|H]; [exact H|].
    specialize (HP j i ltac:(lia) ltac:(lia) HPj H). lia.
  - intros (k&Hk&H1&H2) i j Hi Hj HPi HPj.
    destruct (Nat.lt_ge_cases i j) as [H|H]; [exact H|exfalso].
    destruct (Nat.lt_ge_cases j k) as [H3|H3].
    + apply HPj, H1; lia.
    + apply (H2 i); [lia|exact HPi].
Qed.

Section PartitionLemmas.
  Context {A : Type}.
  Implicit Types (l : list A) (p : A -> bool).

  Lemma sat_dec p l i : sat p l i \/ ~ sat p l i.
  Proof. rewrite <- tst_sat. destruct (tst p l i); [now left|now right]. Qed.

  Lemma is_partitioned_ra_lemma d d2 l first last p :
    valid l first last -> depth_bound (last - first) <= d -> depth_bound (last - first) <= d2 ->
    exists b, is_partitioned true d d2 l first last p = Ok b /\
      (b = true <-> partitioned (sat p l) first last).
  Proof.
    intros V Hd Hd2. destruct V as [V1 V2]. unfold is_partitioned.
    pose proof (partitioned_split (sat p l) first last (fun i _ => sat_dec p l i) V1) as HPS.
    destruct (find_if_not_correct_lemma true d l first last p) as (f&Ef&Hf1&Hf2&Hf3); [now split|exact Hd|].
    rewrite Ef. cbn [bind].
    assert (Hsat : forall j, first <= j < f -> sat p l j).
    { intros j Hj. destruct (sat_dec p l j) as [H|H]; [exact H|]. exfalso. now apply (Hf2 j). }
    destruct (f =? last) eqn:E.
    - apply Nat.eqb_eq in E. exists true. split; [reflexivity|]. rewrite HPS. split; [|reflexivity].
      intros _. exists last. split; [lia|]. split; [|intros; lia]. intros; apply Hsat; lia.
    - apply Nat.eqb_neq in E. specialize (Hf3 ltac:(lia)).
      destruct (none_of_correct_lemma true d2 l (S f) last p) as (b&Eb&Hb).
      { split; lia. }
      { etransitivity; [apply depth_mono|exact Hd2]. lia. }
      exists b. split; [exact Eb|]. rewrite HPS, Hb. split.
      + intros Hn. exists f. split; [lia|]. split; [exact Hsat|].
        intros i Hi. destruct (Nat.eq_dec i f) as [->|Hne]; [exact Hf3|]. apply Hn; lia.
      + intros (k&Hk&K1&K2) i Hi Hs.
        destruct (Nat.lt_ge_cases i k) as [H|H].
        * apply Hf3, K1; lia.
        * apply (K2 i); [lia|exact Hs].
  Qed.

  Lemma is_partitioned_in_lemma d d2 l first last p :
    valid l first last -> depth_bound (last - first) <= d ->
    exists b, is_partitioned false d d2 l first last p = Ok b /\
      (b = true <-> partitioned (sat p l) first last).
  Proof.
    intros [V1 V2] Hd. unfold is_partitioned.
    pose proof (partitioned_split (sat p l) first last (fun i _ => sat_dec p l i) V1) as HPS.
    pose (I := fun s : nat * nat => first <= fst s <= last /\
       match snd s with
       | 0 => forall j, first <= j < fst s -> sat p l j
       | 1 => exists k, k < fst s /\ splits (sat p l) first (fst s) k
       | _ => fst s < last /\ snd s = 2 /\ exists k, first <= k < fst s /\ ~ sat p l k /\ sat p l (fst s)
       end).
    destruct (loop_inv (fun s : nat * nat => (1 <? snd s) || (fst s =? last))
      (fun s => x <- rd l (fst s) ;;
                  Ok (if snd s =? 0 then
                        if p x then (S (fst s), 0) else (S (fst s), 1)
                      else
                        if negb (p x) then (S (fst s), 1) else (fst s, 2)))
      I (fun s => if snd s =? 2 then 0 else last - fst s)) with (k := S (last - first)) (s := (first, 0))
      as (sf&Hl&HI&Hb).
    - intros [i m] [Hi HI] Hb. cbn [fst snd] in *.
      apply orb_false_iff in Hb. destruct Hb as [Hb1 Hb2]. nb.
      destruct (rd_ex l i ltac:(lia)) as (x&Hx&Hr). rewrite Hr. cbn [bind].
      eexists. split; [reflexivity|].
      destruct m as [|[|m]]; [| |lia]; cbn [Nat.eqb].
      + destruct (p x) eqn:Ep; cbn [fst snd]; unfold I; cbn [fst snd Nat.eqb].
        * split; [|lia]. split; [lia|]. intros j Hj.
          destruct (Nat.eq_dec j i) as [->|Hne]; [exists x; auto|]. apply HI; lia.
        * split; [|lia]. split; [lia|]. exists i. split; [lia|]. split; [lia|]. split.
          { intros j Hj. apply HI; lia. }
          { intros j Hj. assert (j = i) by lia. subst j. intros (y&Hy&Hp). congruence. }
      + destruct HI as (k&Hk1&Hk2&Hk3&Hk4).
        destruct (p x) eqn:Ep; cbn [negb fst snd]; unfold I; cbn [fst snd Nat.eqb].
        * split; [|lia]. split; [lia|]. split; [lia|]. split; [reflexivity|].
          exists k. split; [lia|]. split; [apply Hk4; lia|]. exists x. auto.
        * split; [|lia]. split; [lia|]. exists k. split; [lia|]. split; [lia|]. split; [exact Hk3|].
          intros j Hj. destruct (Nat.eq_dec j i) as [->|Hne]; [|apply Hk4; lia].
          intros (y&Hy&Hp). congruence.
    - unfold I. cbn. split; [lia|]. intros j Hj. lia.
    - cbn. lia.
    - erewrite dbl_stop_correct; [|exact Hl|now apply depth_dbl]. cbn [bind].
      exists (snd sf <=? 1). split; [reflexivity|]. rewrite HPS.
      destruct sf as [i m]. destruct HI as [Hi HI]. cbn [fst snd] in *.
      destruct m as [|[|m]]; cbn [Nat.leb].
      + split; [intros _|reflexivity]. cbn in Hb. nb. subst i.
        exists last. split; [lia|]. split; [exact HI|intros; lia].
      + split; [intros _|reflexivity]. cbn in Hb. nb. subst i.
        destruct HI as (k&_&Hk). eauto.
      + split; [discriminate|]. intros (k&Hk&K1&K2).
        destruct HI as (Hil&_&k'&Hk'&Hn&Hs).
        destruct (Nat.lt_ge_cases i k) as [H|H].
        * exfalso. apply Hn, K1; lia.
        * exfalso. apply (K2 i); [lia|exact Hs].
  Qed.

  (** ** partition_point *)
  Lemma partition_point_impl_ok l p d : forall first last k,
    first <= last -> last <= length l -> split_b (tst p l) first last k -> bs_fuel (last - first) <= d ->
    partition_point_impl d l first last p (first + (last - first) / 2) = Ok k.
  Proof.
    induction d as [|d IH]; intros first last k Hf HL HS Hd; [unfold bs_fuel in Hd; lia|].
    cbn [partition_point_impl]. destruct HS as (Hk&Hlo&Hhi).
    destruct (first + (last - first) / 2 =? last) eqn:E; nb.
    - f_equal. lia.
    - set (mid := first + (last - first) / 2) in *.
      destruct (rd_ex l mid ltac:(lia)) as (x&Hx&Hr). rewrite Hr. cbn [bind].
      pose proof (bs_fuel_half (last - first) ltac:(lia)) as F1.
      pose proof (bs_fuel_half' (last - first) ltac:(lia)) as F2.
      assert (Ht : tst p l mid = p x) by (unfold tst; now rewrite Hx).
      destruct (p x).
      + assert (mid < k).
        { destruct (Nat.lt_ge_cases mid k); [lia|]. rewrite Hhi in Ht by lia. discriminate. }
        replace (mid + (1 + (last - mid - 1) / 2)) with (S mid + (last - S mid) / 2) by lia.
        apply IH; try lia.
        * split; [lia|]. split; intros i Hi; [apply Hlo|apply Hhi]; lia.
        * replace (last - S mid) with (last - first - ((last - first) / 2 + 1)) by lia. lia.
      + assert (k <= mid).
        { destruct (Nat.lt_ge_cases mid k); [|lia]. rewrite Hlo in Ht by lia. discriminate. }
        apply IH; try lia.
        * split; [lia|]. split; intros i Hi; [apply Hlo|apply Hhi]; lia.
        * replace (mid - first) with ((last - first) / 2) by lia. lia.
  Qed.

  Lemma partition_point_loop_ok l p d : forall first len k,
    first + len <= length l -> split_b (tst p l) first (first + len) k -> bs_fuel len <= d ->
    partition_point_loop d l first len p = Ok k.
  Proof.
    induction d as [|d IH]; intros first len k HL HS Hd; [unfold bs_fuel in Hd; lia|].
    cbn [partition_point_loop].
    destruct (len =? 0) eqn:E0.
    { apply Nat.eqb_eq in E0. subst len. now rewrite (splits_empty _ _ _ HS). }
    apply Nat.eqb_neq in E0. cbn zeta.
    destruct (rd_ex l (first + len / 2) ltac:(lia)) as (x&Hx&Hr). rewrite Hr. cbn [bind].
    pose proof (bs_fuel_half len ltac:(lia)). pose proof (bs_fuel_half' len ltac:(lia)).
    destruct HS as (Hk&Hlo&Hhi).
    assert (Ht : tst p l (first + len / 2) = p x) by (unfold tst; now rewrite Hx).
    destruct (p x).
    - assert (first + len / 2 < k).
      { destruct (Nat.lt_ge_cases (first + len / 2) k); [lia|].
        rewrite Hhi in Ht by lia. discriminate. }
      apply IH; [lia| |lia]. 
      split; [lia|]. split; intros i Hi; [apply Hlo|apply Hhi]; lia.
    - assert (k <= first + len / 2).
      { destruct (Nat.lt_ge_cases (first + len / 2) k); [|lia].
        rewrite Hlo in Ht by lia. discriminate. }
      apply IH; [lia| |lia].
      split; [lia|]. split; intros i Hi; [apply Hlo|apply Hhi]; lia.
  Qed.

  Lemma is_partitioned_correct_lemma c d d2 l first last p :
    valid l first last -> depth_bound (last - first) <= d -> depth_bound (last - first) <= d2 ->
    exists b, is_partitioned c d d2 l first last p = Ok b /\
      (b = true <-> partitioned (sat p l) first last).
  Proof.
    destruct c; [apply is_partitioned_ra_lemma|].
    intros V Hd _. now apply is_partitioned_in_lemma.
  Qed.

  Lemma partition_point_correct_lemma d l first last p :
    valid l first last -> partitioned (sat p l) first last -> Nat.log2 (last - first) + 2 <= d ->
    exists k, partition_point_11 d l first last p = Ok k /\
      partition_point_14 d l first last p = Ok k /\
      is_first (fun i => ~ sat p l i) first last k.
  Proof.
    intros V HP Hd. destruct V as [V1 V2].
    apply partitioned_split in HP; [|intros; apply sat_dec|exact V1].
    destruct HP as [k Hk]. exists k.
    pose proof (bs_fuel_log2 (last - first)).
    assert (HS : split_b (tst p l) first last k).
    { apply (splits_b _ _ _ _ _ (fun i _ => tst_sat p l i)), Hk. }
    split; [|split; [|now apply splits_first]].
    - unfold partition_point_11. apply partition_point_impl_ok; auto. lia.
    - unfold partition_point_14. apply partition_point_loop_ok; try lia.
      replace (first + (last - first)) with last by lia. exact HS.
  Qed.
End PartitionLemmas.

(** ** Sortedness *)
Section SortedLemmas.
  Context {A : Type} (comp : A -> A -> bool).
  Implicit Types l : list A.

  Definition longest_sorted l first last r :=
    first <= r <= last /\ sorted_range comp l first r /\
    forall j, first <= j <= last -> sorted_range comp l first j -> j <= r.

  Lemma sorted_scan l first last : first < last -> last <= length l ->
    longest_sorted l first last
      (S (scan (fun i => relb comp l (S i) l i) first (last - first - 1))).
  Proof.
    intros Hf HL. set (t := fun i => relb comp l (S i) l i).
    destruct (scan_spec t (last - first - 1) first) as (H1&H2&H3).
    set (r := scan t first (last - first - 1)) in *.
    split; [lia|]. split.
    - intros i Hi Hr. apply relb_false. apply (H2 i). lia.
    - intros j Hj HS. destruct (Nat.le_gt_cases j (S r)) as [H|H]; [exact H|exfalso].
      apply (HS r); [lia|lia|]. apply relb_rel. apply H3. lia.
  Qed.

  Lemma longest_full l first last r : longest_sorted l first last r -> first <= last ->
    (r = last <-> sorted_range comp l first last).
  Proof.
    intros (H1&H2&H3) Hf. split; [now intros <-|].
    intros HS. specialize (H3 last ltac:(lia) HS). lia.
  Qed.

  Lemma sorted_short l first last : last - first <= 1 -> sorted_range comp l first last.
  Proof. intros H i Hi1 Hi2. lia. Qed.

  Lemma is_sorted_until_correct_lemma c d l first last :
    valid l first last -> depth_bound (last - first) <= d ->
    exists r, is_sorted_until comp c d l first last = Ok r /\ longest_sorted l first last r.
  Proof.
    intros [V1 V2] Hd. unfold is_sorted_until. destruct c.
    - destruct ((first =? last) || (last - first =? 1)) eqn:E.
      + exists last. split; [reflexivity|]. split; [lia|]. split; [apply sorted_short; lia|].
        intros; lia.
      + replace (first + (last - first - 1)) with (last - 1) by lia.
        replace ((last - first - 1) / 2) with ((last - 1 - first) / 2) by (f_equal; lia).
        rewrite ra_search_ok with (t := fun i => relb comp l (S i) l i).
        * rewrite Nat.eqb_refl. cbn [bind]. eexists. split; [reflexivity|].
          replace (last - 1 - first) with (last - first - 1) by lia. apply sorted_scan; lia.
        * lia.
        * intros i Hi. apply (rd_relb comp l (S i) l i (fun b => b)); lia.
        * apply depth_ra. etransitivity; [apply depth_mono|exact Hd]. lia.
    - destruct (first =? last) eqn:E; nb.
      + exists last. split; [reflexivity|]. split; [lia|]. split; [apply sorted_short; lia|].
        intros; lia.
      + pose (I := fun s : nat * nat => first <= fst s < last /\
          sorted_range comp l first (S (fst s)) /\
          (snd s = S (fst s) \/ (snd s = last /\ rel comp l (S (fst s)) l (fst s)))).
        destruct (loop_inv (fun s : nat * nat => snd s =? last)
           (fun s => y <- rd l (snd s) ;; x <- rd l (fst s) ;;
                    Ok (if comp y x then (fst s, last) else (snd s, S (snd s))))
           I (fun s => last - snd s)) with (k := S (last - first)) (s := (first, S first))
          as (sf&Hl&HI&Hb).
        * intros [i j] (Hi&HS&Hj) Hb. cbn [fst snd] in *. nb.
          destruct Hj as [->|[Hj _]]; [|lia].
          destruct (rd_ex l i ltac:(lia)) as (x&Hx&Hr).
          destruct (rd_ex l (S i) ltac:(lia)) as (y&Hy&Hr').
          rewrite Hr', Hr. cbn [bind]. eexists. split; [reflexivity|].
          destruct (comp y x) eqn:Ec; cbn [fst snd]; unfold I; cbn [fst snd Nat.eqb].
          { split; [|lia]. split; [lia|]. split; [exact HS|]. right. split; [reflexivity|].
            exists y, x. auto. }
          { split; [|lia]. split; [lia|]. split; [|now left].
            intros k Hk1 Hk2. destruct (Nat.eq_dec k i) as [->|Hne]; [|apply HS; lia].
            rewrite (rel_val _ _ _ _ _ _ _ Hy Hx). congruence. }
        * unfold I. cbn. split; [lia|]. split; [|now left]. apply sorted_short. lia.
        * cbn. lia.
        * erewrite dbl_stop_correct; [|exact Hl|now apply depth_dbl]. cbn [bind].
          destruct sf as [i j]. destruct HI as (Hi&HS&Hj). cbn [fst snd] in *. nb. subst j.
          eexists. split; [reflexivity|]. split; [lia|]. split; [exact HS|].
          intros j Hj' HSj. destruct (Nat.le_gt_cases j (S i)) as [H|H]; [exact H|exfalso].
          destruct Hj as [Hj|[_ Hr]]; [lia|]. apply (HSj i); [lia|lia|exact Hr].
  Qed.

  Lemma is_sorted_correct_lemma c d l first last :
    valid l first last -> depth_bound (last - first) <= d ->
    exists b, is_sorted comp c d l first last = Ok b /\
      (b = true <-> sorted_range comp l first last).
  Proof.
    intros [V1 V2] Hd. unfold is_sorted. destruct c.
    - destruct ((first =? last) || (last - first =? 1)) eqn:E.
      + exists true. split; [reflexivity|]. split; [|reflexivity].
        intros _. apply sorted_short. lia.
      + replace (first + (last - first - 1)) with (last - 1) by lia.
        replace ((last - first - 1) / 2) with ((last - 1 - first) / 2) by (f_equal; lia).
        rewrite ra_and_ok with (t := fun i => negb (relb comp l (S i) l i)).
        * eexists. split; [reflexivity|]. rewrite forallb_seq_iff. split.
          { intros H i Hi1 Hi2. apply relb_false. specialize (H i ltac:(lia)).
            destruct (relb comp l (S i) l i); [discriminate|reflexivity]. }
          { intros H i Hi. apply negb_true_iff, relb_false. apply H; lia. }
        * lia.
        * intros i Hi. apply (rd_relb comp l (S i) l i negb); lia.
        * apply depth_ra. etransitivity; [apply depth_mono|exact Hd]. lia.
    - destruct (is_sorted_until_correct_lemma false d l first last) as (r&Er&Hr); [now split|exact Hd|].
      rewrite Er. cbn [bind]. eexists. split; [reflexivity|].
      rewrite Nat.eqb_eq. now apply longest_full.
  Qed.
End SortedLemmas.
