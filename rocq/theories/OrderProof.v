(** Proofs about the order-based models: binary searches, partitions, sortedness,
    extrema, heaps. *)
From Coq Require Import List Arith Bool ZArith Lia Permutation.
From Coq Require Import ZifyBool ZifyNat.
From Verif Require Import Base BaseProof SearchModel SearchSpec SearchProof SearchProof2
  OrderModel OrderSpec.
Import ListNotations.
Ltac Zify.zify_post_hook ::= Z.div_mod_to_equations.

(** ** Orders *)
Section Swo.
  Context {A : Type} (comp : A -> A -> bool) (W : strict_weak_order comp).

  Lemma swo_irr x : comp x x = false.
  Proof. apply W. Qed.
  Lemma swo_trans x y z : comp x y = true -> comp y z = true -> comp x z = true.
  Proof. apply W. Qed.
  Lemma swo_asym x y : comp x y = true -> comp y x = false.
  Proof.
    intros H. destruct (comp y x) eqn:E; [|reflexivity].
    pose proof (swo_trans _ _ _ H E) as H1. rewrite swo_irr in H1. discriminate.
  Qed.
  (** negative transitivity *)
  Lemma swo_neg x y z : comp x y = false -> comp y z = false -> comp x z = false.
  Proof.
    intros H1 H2. destruct (comp x z) eqn:E; [|reflexivity].
    destruct W as (_&_&HE).
    destruct (comp y x) eqn:Eyx.
    { pose proof (swo_trans _ _ _ Eyx E). congruence. }
    destruct (comp z y) eqn:Ezy.
    { pose proof (swo_trans _ _ _ E Ezy). congruence. }
    destruct (HE x y z) as [H3 _]; [now split..|]. congruence.
  Qed.
  Lemma swo_split x y z : comp x z = true -> comp x y = true \/ comp y z = true.
  Proof.
    intros H. destruct (comp x y) eqn:E1; [now left|].
    destruct (comp y z) eqn:E2; [now right|].
    rewrite (swo_neg _ _ _ E1 E2) in H. discriminate.
  Qed.
End Swo.

Lemma relb_rel' {A B} (p : A -> B -> bool) l1 i l2 j : relb p l1 i l2 j = true <-> rel p l1 i l2 j.
Proof. apply relb_rel. Qed.

Lemma relb_false {A B} (p : A -> B -> bool) l1 i l2 j : relb p l1 i l2 j = false <-> ~ rel p l1 i l2 j.
Proof. rewrite <- relb_rel. destruct (relb p l1 i l2 j); split; congruence. Qed.

Lemma tst_false {A} (p : A -> bool) l i : tst p l i = false <-> ~ sat p l i.
Proof. rewrite <- tst_sat. destruct (tst p l i); split; congruence. Qed.

Lemma rel_val {A B} (p : A -> B -> bool) l1 i l2 j x y :
  nth_error l1 i = Some x -> nth_error l2 j = Some y -> (rel p l1 i l2 j <-> p x y = true).
Proof.
  intros Hx Hy. split.
  - intros (a&b&Ha&Hb&H). congruence.
  - intros H. exists x, y. auto.
Qed.

Section SortedRange.
  Context {A : Type} (comp : A -> A -> bool) (W : strict_weak_order comp).

  Lemma sorted_pairs l first last : valid l first last -> sorted_range comp l first last ->
    forall i j, first <= i -> i <= j -> j < last -> ~ rel comp l j l i.
  Proof.
    intros [V1 V2] HS i j Hi Hij Hj.
    induction j as [|j IH].
    - assert (i = 0) by lia. subst i. intros (x&y&Hx&Hy&Hr).
      assert (x = y) by congruence. subst y. rewrite (swo_irr comp W) in Hr. discriminate.
    - destruct (Nat.eq_dec i (S j)) as [->|Hne].
      + intros (x&y&Hx&Hy&Hr).
        assert (x = y) by congruence. subst y. rewrite (swo_irr comp W) in Hr. discriminate.
      + specialize (IH ltac:(lia) ltac:(lia)).
        specialize (HS j ltac:(lia) ltac:(lia)).
        destruct (nth_error_ex l i ltac:(lia)) as [x Hx].
        destruct (nth_error_ex l j ltac:(lia)) as [y Hy].
        destruct (nth_error_ex l (S j) ltac:(lia)) as [z Hz].
        rewrite (rel_val _ _ _ _ _ _ _ Hz Hy) in HS.
        rewrite (rel_val _ _ _ _ _ _ _ Hy Hx) in IH.
        rewrite (rel_val _ _ _ _ _ _ _ Hz Hx).
        apply not_true_iff_false. apply not_true_iff_false in HS, IH.
        eapply (swo_neg comp W); eauto.
  Qed.
End SortedRange.

(** ** Binary searches *)
Definition split_b (t : nat -> bool) first last k :=
  first <= k <= last /\ (forall i, first <= i < k -> t i = true) /\
  (forall i, k <= i < last -> t i = false).

Lemma splits_b (t : nat -> bool) (P : nat -> Prop) first last k :
  (forall i, first <= i < last -> (t i = true <-> P i)) ->
  splits P first last k <-> split_b t first last k.
Proof.
  intros HP. unfold splits, split_b. split; intros (H1&H2&H3); split; auto; split; intros i Hi.
  - apply HP; [lia|]. apply H2; lia.
  - apply not_true_iff_false. rewrite HP by lia. apply H3; lia.
  - apply HP; [lia|]. apply H2; lia.
  - rewrite <- HP by lia. apply not_true_iff_false, H3; lia.
Qed.

Definition bs_fuel n := S (Nat.log2_up (S n)).

Lemma bs_fuel_half n : 1 <= n -> bs_fuel (n / 2) < bs_fuel n.
Proof.
  intros H. unfold bs_fuel. pose proof (log2_half (S n) ltac:(lia)) as H1.
  replace (S n - S n / 2) with (S (n / 2)) in H1 by lia. lia.
Qed.

Lemma bs_fuel_half' n : 1 <= n -> bs_fuel (n - (n / 2 + 1)) < bs_fuel n.
Proof.
  intros H. apply Nat.le_lt_trans with (bs_fuel (n / 2)); [|now apply bs_fuel_half].
  unfold bs_fuel. apply le_n_S, Nat.log2_up_le_mono. lia.
Qed.

Lemma bs_fuel_log2 n : bs_fuel n <= Nat.log2 n + 2.
Proof.
  unfold bs_fuel. destruct (Nat.eq_dec n 0) as [->|H]; [cbn; lia|].
  rewrite Nat.log2_up_eqn by lia. cbn [pred]. lia.
Qed.

Lemma splits_empty t first k : split_b t first (first + 0) k -> k = first.
Proof. intros [H _]. lia. Qed.

Lemma lower_bound_impl_ok {A B} (l : list A) (v : B) comp d : forall first len k,
  first + len <= length l -> split_b (tst (fun x => comp x v) l) first (first + len) k ->
  bs_fuel len <= d -> lower_bound_impl d l first len v comp = Ok k.
Proof.
  induction d as [|d IH]; intros first len k HL HS Hd; [unfold bs_fuel in Hd; lia|].
  cbn [lower_bound_impl].
  destruct (len =? 0) eqn:E0.
  { apply Nat.eqb_eq in E0. subst len. now rewrite (splits_empty _ _ _ HS). }
  apply Nat.eqb_neq in E0.
  destruct (rd_ex l (first + len / 2) ltac:(lia)) as (x&Hx&Hr). rewrite Hr. cbn [bind].
  pose proof (bs_fuel_half len ltac:(lia)). pose proof (bs_fuel_half' len ltac:(lia)).
  destruct HS as (Hk&Hlo&Hhi).
  assert (Ht : tst (fun x => comp x v) l (first + len / 2) = comp x v) by (unfold tst; now rewrite Hx).
  destruct (comp x v).
  - apply IH; [lia| |lia]. 
    assert (first + len / 2 < k).
    { destruct (Nat.lt_ge_cases (first + len / 2) k); [lia|].
      rewrite Hhi in Ht by lia. discriminate. }
    split; [lia|]. split; intros i Hi; [apply Hlo|apply Hhi]; lia.
  - apply IH; [lia| |lia].
    assert (k <= first + len / 2).
    { destruct (Nat.lt_ge_cases (first + len / 2) k); [|lia].
      rewrite Hlo in Ht by lia. discriminate. }
    split; [lia|]. split; intros i Hi; [apply Hlo|apply Hhi]; lia.
Qed.

Lemma upper_bound_impl_ok {A B} (l : list A) (v : B) comp d : forall first len k,
  first + len <= length l -> split_b (tst (fun x => negb (comp v x)) l) first (first + len) k ->
  bs_fuel len <= d -> upper_bound_impl d l first len v comp = Ok k.
Proof.
  induction d as [|d IH]; intros first len k HL HS Hd; [unfold bs_fuel in Hd; lia|].
  cbn [upper_bound_impl].
  destruct (len =? 0) eqn:E0.
  { apply Nat.eqb_eq in E0. subst len. now rewrite (splits_empty _ _ _ HS). }
  apply Nat.eqb_neq in E0.
  destruct (rd_ex l (first + len / 2) ltac:(lia)) as (x&Hx&Hr). rewrite Hr. cbn [bind].
  pose proof (bs_fuel_half len ltac:(lia)). pose proof (bs_fuel_half' len ltac:(lia)).
  destruct HS as (Hk&Hlo&Hhi).
  assert (Ht : tst (fun x => negb (comp v x)) l (first + len / 2) = negb (comp v x))
    by (unfold tst; now rewrite Hx).
  destruct (comp v x); cbn [negb] in Ht.
  - apply IH; [lia| |lia].
    assert (k <= first + len / 2).
    { destruct (Nat.lt_ge_cases (first + len / 2) k); [|lia].
      rewrite Hlo in Ht by lia. discriminate. }
    split; [lia|]. split; intros i Hi; [apply Hlo|apply Hhi]; lia.
  - apply IH; [lia| |lia]. 
    assert (first + len / 2 < k).
    { destruct (Nat.lt_ge_cases (first + len / 2) k); [lia|].
      rewrite Hhi in Ht by lia. discriminate. }
    split; [lia|]. split; intros i Hi; [apply Hlo|apply Hhi]; lia.
Qed.

Lemma equal_range_impl_ok {A B} (l : list A) (v : B) lt_av lt_va d : forall first len k1 k2,
  first + len <= length l ->
  split_b (tst (fun x => lt_av x v) l) first (first + len) k1 ->
  split_b (tst (fun x => negb (lt_va v x)) l) first (first + len) k2 ->
  k1 <= k2 ->
  bs_fuel len <= d -> equal_range_impl d l first len v lt_av lt_va = Ok (k1, k2).
Proof.
  induction d as [|d IH]; intros first len k1 k2 HL HS1 HS2 Hk12 Hd; [unfold bs_fuel in Hd; lia|].
  cbn [equal_range_impl].
  destruct (len =? 0) eqn:E0.
  { apply Nat.eqb_eq in E0. subst len.
    now rewrite (splits_empty _ _ _ HS1), (splits_empty _ _ _ HS2). }
  apply Nat.eqb_neq in E0.
  destruct (rd_ex l (first + len / 2) ltac:(lia)) as (x&Hx&Hr). rewrite Hr. cbn [bind].
  pose proof (bs_fuel_half len ltac:(lia)). pose proof (bs_fuel_half' len ltac:(lia)).
  destruct HS1 as (Hk1&Hlo1&Hhi1). destruct HS2 as (Hk2&Hlo2&Hhi2).
  assert (Ht1 : tst (fun x => lt_av x v) l (first + len / 2) = lt_av x v)
    by (unfold tst; now rewrite Hx).
  assert (Ht2 : tst (fun x => negb (lt_va v x)) l (first + len / 2) = negb (lt_va v x))
    by (unfold tst; now rewrite Hx).
  destruct (lt_av x v); [|destruct (lt_va v x)]; cbn [negb] in *.
  - assert (first + len / 2 < k1).
    { destruct (Nat.lt_ge_cases (first + len / 2) k1); [lia|].
      rewrite Hhi1 in Ht1 by lia. discriminate. }
    apply IH; try lia;
    (split; [lia|]; split; intros i Hi; [apply Hlo1 || apply Hlo2|apply Hhi1 || apply Hhi2]; lia).
  - assert (k2 <= first + len / 2).
    { destruct (Nat.lt_ge_cases (first + len / 2) k2); [|lia].
      rewrite Hlo2 in Ht2 by lia. discriminate. }
    apply IH; try lia;
    (split; [lia|]; split; intros i Hi; [apply Hlo1 || apply Hlo2|apply Hhi1 || apply Hhi2]; lia).
  - assert (k1 <= first + len / 2).
    { destruct (Nat.lt_ge_cases (first + len / 2) k1); [|lia].
      rewrite Hlo1 in Ht1 by lia. discriminate. }
    assert (first + len / 2 < k2).
    { destruct (Nat.lt_ge_cases (first + len / 2) k2); [lia|].
      rewrite Hhi2 in Ht2 by lia. discriminate. }
    rewrite (lower_bound_impl_ok l v lt_av d first (len / 2) k1); [|lia| |lia].
    2: { split; [lia|]; split; intros i Hi; [apply Hlo1|apply Hhi1]; lia. }
    cbn [bind].
    rewrite (upper_bound_impl_ok l v lt_va d _ _ k2); [|lia| |lia].
    2: { split; [lia|]; split; intros i Hi; [apply Hlo2|apply Hhi2]; lia. }
    reflexivity.
Qed.

Section BoundsLemmas.
  Context {A B : Type}.
  Variables (l : list A) (first last : nat) (v : B).
  Hypothesis V : valid l first last.

  Lemma sat_split (p : A -> bool) k :
    splits (sat p l) first last k <-> split_b (tst p l) first (first + (last - first)) k.
  Proof.
    destruct V. replace (first + (last - first)) with last by lia.
    apply splits_b. intros i Hi. apply tst_sat.
  Qed.

  Lemma nsat_split (p : A -> bool) k :
    splits (fun i => ~ sat p l i) first last k
    <-> split_b (tst (fun x => negb (p x)) l) first (first + (last - first)) k.
  Proof.
    destruct V. replace (first + (last - first)) with last by lia.
    apply splits_b. intros i Hi. rewrite tst_neg by lia. rewrite <- tst_sat.
    destruct (tst p l i); cbn; split; congruence.
  Qed.

  Lemma lower_bound_correct_lemma comp d k :
    splits (sat (fun x => comp x v) l) first last k -> Nat.log2 (last - first) + 2 <= d ->
    lower_bound d l first last v comp = Ok k.
  Proof.
    intros HS Hd. apply sat_split in HS. destruct V.
    apply lower_bound_impl_ok; [lia|exact HS|].
    pose proof (bs_fuel_log2 (last - first)). lia.
  Qed.

  Lemma upper_bound_correct_lemma comp d k :
    splits (fun i => ~ sat (comp v) l i) first last k -> Nat.log2 (last - first) + 2 <= d ->
    upper_bound d l first last v comp = Ok k.
  Proof.
    intros HS Hd. apply nsat_split in HS. destruct V.
    apply upper_bound_impl_ok; [lia|exact HS|].
    pose proof (bs_fuel_log2 (last - first)). lia.
  Qed.

  Lemma split_order (lt_av : A -> B -> bool) (lt_va : B -> A -> bool) k1 k2 :
    (forall i, first <= i < last -> sat (fun x => lt_av x v) l i -> ~ sat (lt_va v) l i) ->
    splits (sat (fun x => lt_av x v) l) first last k1 ->
    splits (fun i => ~ sat (lt_va v) l i) first last k2 -> k1 <= k2.
  Proof.
    intros HC (H1&H2&H3) (H4&H5&H6).
    destruct (Nat.le_gt_cases k1 k2) as [H|H]; [exact H|exfalso].
    assert (Hs : sat (fun x => lt_av x v) l k2) by (apply H2; lia).
    apply (H6 k2); [lia|]. apply HC; [lia|exact Hs].
  Qed.

  Lemma equal_range_correct_lemma (lt_av : A -> B -> bool) (lt_va : B -> A -> bool) d k1 k2 :
    (forall i, first <= i < last -> sat (fun x => lt_av x v) l i -> ~ sat (lt_va v) l i) ->
    splits (sat (fun x => lt_av x v) l) first last k1 ->
    splits (fun i => ~ sat (lt_va v) l i) first last k2 ->
    Nat.log2 (last - first) + 2 <= d ->
    equal_range d l first last v lt_av lt_va = Ok (k1, k2).
  Proof.
    intros HC HS1 HS2 Hd.
    pose proof (split_order _ _ _ _ HC HS1 HS2).
    apply sat_split in HS1. apply nsat_split in HS2. destruct V.
    apply equal_range_impl_ok; try assumption; try lia.
    pose proof (bs_fuel_log2 (last - first)). lia.
  Qed.

  Lemma binary_search_correct_lemma (lt_av : A -> B -> bool) (lt_va : B -> A -> bool) d k1 k2 :
    (forall i, first <= i < last -> sat (fun x => lt_av x v) l i -> ~ sat (lt_va v) l i) ->
    splits (sat (fun x => lt_av x v) l) first last k1 ->
    splits (fun i => ~ sat (lt_va v) l i) first last k2 ->
    Nat.log2 (last - first) + 2 <= d ->
    binary_search d l first last v lt_av lt_va = Ok (negb (k1 =? k2)).
  Proof.
    intros HC HS1 HS2 Hd. unfold binary_search.
    rewrite (lower_bound_correct_lemma _ _ _ HS1 Hd). cbn [bind].
    pose proof (split_order _ _ _ _ HC HS1 HS2) as Hk.
    destruct HS1 as (H1&H2&H3), HS2 as (H4&H5&H6). destruct V as [V1 V2].
    destruct (k1 =? last) eqn:E.
    - apply Nat.eqb_eq in E. assert (k2 = last) by lia.
      replace (k1 =? k2) with true by (symmetry; apply Nat.eqb_eq; lia). reflexivity.
    - apply Nat.eqb_neq in E.
      destruct (rd_ex l k1 ltac:(lia)) as (x&Hx&Hr). rewrite Hr. cbn [bind]. do 2 f_equal.
      destruct (k1 =? k2) eqn:E2.
      + apply Nat.eqb_eq in E2. subst k2.
        destruct (lt_va v x) eqn:El; [reflexivity|exfalso].
        apply (H6 k1); [lia|]. intros (y&Hy&Hv). congruence.
      + apply Nat.eqb_neq in E2.
        destruct (lt_va v x) eqn:El; [exfalso|reflexivity].
        apply (H5 k1); [lia|]. exists x. auto.
  Qed.
End BoundsLemmas.

Lemma first_split (P : nat -> Prop) first last :
  (forall i, first <= i < last -> P i \/ ~ P i) -> first <= last ->
  (forall i j, first <= i -> i <= j -> j < last -> P j -> P i) ->
  exists k, splits P first last k.
Proof.
  intros Hd Hf Hm. remember (last - first) as n eqn:En.
  revert last Hd Hf Hm En. induction n as [|n IH]; intros last Hd Hf Hm En.
  - exists first. split; [lia|]. split; intros i Hi; lia.
  - destruct (IH (last - 1)) as (k&Hk&H1&H2); try lia.
    { intros i Hi. apply Hd; lia. }
    { intros i j ????. apply (Hm i j); auto; lia. }
    destruct (Hd (last - 1) ltac:(lia)) as [HP|HP].
    + exists last. split; [lia|]. split; [|intros i Hi; lia].
      intros i Hi. apply (Hm i (last - 1)); auto; lia.
    + exists k. split; [lia|]. split; intros i Hi; [apply H1; lia|].
      destruct (Nat.eq_dec i (last - 1)) as [->|Hne]; [exact HP|]. apply H2; lia.
Qed.

Section SortedBounds.
  Context {A : Type} (comp : A -> A -> bool) (W : strict_weak_order comp).
  Variables (l : list A) (first last : nat) (v : A).
  Hypothesis V : valid l first last.
  Hypothesis HS : sorted_range comp l first last.

  Lemma lower_split_ex : exists k, splits (sat (fun x => comp x v) l) first last k.
  Proof.
    destruct V as [V1 V2]. apply first_split; [|exact V1|].
    - intros i Hi. rewrite <- tst_sat. destruct (tst _ l i); [now left|now right].
    - intros i j Hi Hij Hj (y&Hy&Hl).
      destruct (nth_error_ex l i ltac:(lia)) as [x Hx]. exists x. split; [exact Hx|].
      pose proof (sorted_pairs comp W l first last V HS i j Hi Hij Hj) as Hn.
      rewrite (rel_val _ _ _ _ _ _ _ Hy Hx) in Hn. apply not_true_iff_false in Hn.
      destruct (swo_split comp W _ x _ Hl) as [H|H]; [congruence|exact H].
  Qed.

  Lemma upper_split_ex : exists k, splits (fun i => ~ sat (comp v) l i) first last k.
  Proof.
    destruct V as [V1 V2]. apply first_split; [|exact V1|].
    - intros i Hi. rewrite <- tst_sat. destruct (tst _ l i); [right|left]; congruence.
    - intros i j Hi Hij Hj Hnj (x&Hx&Hl). apply Hnj.
      destruct (nth_error_ex l j ltac:(lia)) as [y Hy]. exists y. split; [exact Hy|].
      pose proof (sorted_pairs comp W l first last V HS i j Hi Hij Hj) as Hn.
      rewrite (rel_val _ _ _ _ _ _ _ Hy Hx) in Hn. apply not_true_iff_false in Hn.
      destruct (swo_split comp W _ y _ Hl) as [H|H]; [exact H|congruence].
  Qed.

  Lemma sorted_consistent i : first <= i < last ->
    sat (fun x => comp x v) l i -> ~ sat (comp v) l i.
  Proof.
    intros _ (x&Hx&H1) (y&Hy&H2). assert (x = y) by congruence. subst y.
    rewrite (swo_asym comp W _ _ H1) in H2. discriminate.
  Qed.

  Lemma splits_first (P : nat -> Prop) k : splits P first last k ->
    is_first (fun i => ~ P i) first last k.
  Proof.
    intros (H1&H2&H3). split; [exact H1|]. split.
    - intros j Hj Hn. apply Hn, H2; lia.
    - intros Hk. apply H3; lia.
  Qed.

  Lemma sorted_bounds_lemma d : Nat.log2 (last - first) + 2 <= d ->
    exists k1 k2,
      lower_bound d l first last v comp = Ok k1 /\
      upper_bound d l first last v comp = Ok k2 /\
      equal_range d l first last v comp comp = Ok (k1, k2) /\
      binary_search d l first last v comp comp = Ok (negb (k1 =? k2)) /\
      is_first (fun i => ~ sat (fun x => comp x v) l i) first last k1 /\
      is_first (sat (comp v) l) first last k2 /\
      (k1 <> k2 <-> exists i x, first <= i < last /\ nth_error l i = Some x /\ equivalent comp x v).
  Proof.
    intros Hd. destruct lower_split_ex as [k1 H1]. destruct upper_split_ex as [k2 H2].
    exists k1, k2.
    split; [now apply lower_bound_correct_lemma|].
    split; [now apply upper_bound_correct_lemma|].
    split; [apply equal_range_correct_lemma; auto; apply sorted_consistent|].
    split; [apply binary_search_correct_lemma; auto; apply sorted_consistent|].
    split; [now apply splits_first|].
    pose proof (split_order l first last v comp comp k1 k2 sorted_consistent H1 H2) as Hk.
    destruct H1 as (A1&A2&A3), H2 as (B1&B2&B3). destruct V as [V1 V2].
    split; [|split].
    - split; [exact B1|]. split; [exact B2|]. intros Hk2.
      specialize (B3 k2 ltac:(lia)). rewrite <- tst_sat in *.
      destruct (tst (comp v) l k2); [reflexivity|]. exfalso. apply B3. discriminate.
    - intros Hne. destruct (nth_error_ex l k1 ltac:(lia)) as [x Hx].
      exists k1, x. split; [lia|]. split; [exact Hx|].
      specialize (A3 k1 ltac:(lia)). specialize (B2 k1 ltac:(lia)).
      split; apply not_true_iff_false; intros E; [apply A3|apply B2]; exists x; auto.
    - intros (i&x&Hi&Hx&E1&E2) <-.
      destruct (Nat.lt_ge_cases i k1) as [H|H].
      + destruct (A2 i ltac:(lia)) as (y&Hy&E). congruence.
      + apply (B3 i ltac:(lia)). intros (y&Hy&E). congruence.
  Qed.
End SortedBounds.
