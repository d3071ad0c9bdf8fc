(** seed_array generates what the standard says. *)
From Coq Require Import List Arith Bool ZArith Lia.
From Coq Require Import ZifyBool ZifyNat.
From Verif Require Import Base SeedModel SeedSpec.
Import ListNotations.
Local Open Scope Z_scope.

Lemma tp_T x : tp x = T x.
Proof. unfold tp, T. now rewrite Z.shiftr_div_pow2 by lia. Qed.
Lemma nth_upd {A} (l : list A) i x j d : (i < length l)%nat -> nth j (upd l i x) d = if (j =? i)%nat then x else nth j l d.
Proof.
  revert i j. induction l as [|y l IH]; intros i j H; cbn [length] in H; [lia|].
  destruct i as [|i], j as [|j]; cbn [upd nth Nat.eqb]; try reflexivity. apply IH. lia.
Qed.
Lemma upd_len {A} (l : list A) i x : length (upd l i x) = length l.
Proof. revert i. induction l as [|y l IH]; intros [|i]; cbn [upd length]; auto. Qed.
Lemma rd_nth (l : list Z) i : (i < length l)%nat -> rd l i = Ok (nth i l 0).
Proof. intros H. unfold rd. now rewrite (nth_error_nth' l 0 H). Qed.

Section Seed.
  Variables (v : list Z) (n : nat).
  Hypothesis Hn : (0 < n)%nat.
  Notation t := (t_of n).
  Notation p := (p_of n).
  Notation q := (q_of n).
  Notation s := (length v).
  Notation m := (m_of v n).

  Definition holds (l : list Z) (b : mem) : Prop := length l = n /\ forall i, (i < n)%nat -> nth i l 0 = b i.
  Definition small (b : mem) : Prop := forall i, 0 <= b i < 2 ^ 32.

  Lemma ix_lt i : (i mod n < n)%nat.
  Proof. apply Nat.mod_upper_bound. lia. Qed.
  Lemma holds_rd l b i : holds l b -> (i < n)%nat -> rd l i = Ok (b i).
  Proof. intros [L E] H. rewrite rd_nth by lia. now rewrite E. Qed.
  Lemma holds_wr l b i x : holds l b -> (i < n)%nat -> exists l', wr l i x = Ok l' /\ holds l' (put b i x).
  Proof.
    intros [L E] H. unfold wr. replace (i <? length l)%nat with true by (symmetry; apply Nat.ltb_lt; lia).
    eexists. split; [reflexivity|]. split; [now rewrite upd_len|]. intros j Hj. rewrite nth_upd by lia. unfold put. now rewrite E.
  Qed.
  Lemma holds_map f b : (forall i, (i < n)%nat -> f i = b i) -> holds (map f (seq 0 n)) b.
  Proof.
    intros H. split; [now rewrite map_length, seq_length|]. intros i Hi.
    rewrite nth_indep with (d' := f 0%nat) by (rewrite map_length, seq_length; exact Hi).
    rewrite map_nth, seq_nth by exact Hi. auto.
  Qed.
  Lemma holds_eq l b : holds l b -> l = map b (seq 0 n).
  Proof.
    intros [L E]. apply nth_ext with (d := 0) (d' := b 0%nat); [now rewrite map_length, seq_length|].
    intros i Hi. rewrite map_nth, seq_nth by lia. apply E. lia.
  Qed.

  Lemma set1_ok l b k r1 r2 : holds l b -> small b ->
    holds (set1_impl l ((k + p) mod n) ((k + q) mod n) (k mod n) r1 r2) (mix n (fun x y => m32 (x + y)) r1 r2 b k).
  Proof.
    intros [L E] Sm. unfold set1_impl. rewrite L. apply holds_map. intros i Hi. unfold mix, put, ix. rewrite (E i Hi).
    destruct (i =? k mod n)%nat eqn:E0; [reflexivity|].
    unfold w32, m32.
    destruct (i =? (k + q) mod n)%nat eqn:E1.
    - apply Nat.eqb_eq in E1. rewrite <- E1. destruct (i =? (k + p) mod n)%nat eqn:E2.
      + apply Nat.eqb_eq in E2. rewrite <- E2. now rewrite Zplus_mod_idemp_l.
      + now rewrite Z.add_0_r.
    - destruct (i =? (k + p) mod n)%nat eqn:E2.
      + apply Nat.eqb_eq in E2. rewrite <- E2. now rewrite Z.add_0_r.
      + rewrite !Z.add_0_r. apply Z.mod_small. apply Sm.
  Qed.
  Lemma set2_ok l b k r1 r2 : holds l b ->
    holds (set2_impl l ((k + p) mod n) ((k + q) mod n) (k mod n) r1 r2) (mix n Z.lxor r1 r2 b k).
  Proof.
    intros [L E]. unfold set2_impl. rewrite L. apply holds_map. intros i Hi. unfold mix, put, ix. rewrite (E i Hi).
    destruct (i =? k mod n)%nat eqn:E0; [reflexivity|].
    destruct (i =? (k + q) mod n)%nat eqn:E1.
    - apply Nat.eqb_eq in E1. rewrite <- E1. destruct (i =? (k + p) mod n)%nat eqn:E2.
      + apply Nat.eqb_eq in E2. rewrite <- E2. reflexivity.
      + now rewrite Z.lxor_0_r.
    - destruct (i =? (k + p) mod n)%nat eqn:E2.
      + apply Nat.eqb_eq in E2. rewrite <- E2. now rewrite Z.lxor_0_r.
      + now rewrite !Z.lxor_0_r.
  Qed.
  Lemma m32_small x : 0 <= m32 x < 2 ^ 32.
  Proof. apply Z.mod_pos_bound. reflexivity. Qed.
  Lemma step_small b k : small b -> small (step_1 v n b k).
  Proof.
    intros H i. unfold step_1, mix, put. cbv zeta.
    repeat match goal with |- context [if ?c then _ else _] => destruct c end; try apply m32_small; apply H.
  Qed.

  Lemma p_lt : (p < n)%nat.
  Proof. unfold p_of. pose proof (Nat.div_le_upper_bound (n - t) 2 (n - t) ltac:(lia) ltac:(lia)).
    destruct (Nat.eq_dec t 0) as [->|]; [|lia].
    apply Nat.div_lt_upper_bound; lia.
  Qed.
  Lemma q_lt : (q < n)%nat.
  Proof.
    unfold q_of, p_of, t_of.
    destruct (623 <=? n)%nat eqn:E1; [|destruct (68 <=? n)%nat eqn:E2; [|destruct (39 <=? n)%nat eqn:E3; [|destruct (7 <=? n)%nat eqn:E4]]].
    1-4: pose proof (Nat.div_mod_eq (n - 11) 2); pose proof (Nat.div_mod_eq (n - 7) 2); pose proof (Nat.div_mod_eq (n - 5) 2); pose proof (Nat.div_mod_eq (n - 3) 2); lia.
    pose proof (Nat.div_mod_eq (n - 1) 2). pose proof (Nat.mod_upper_bound (n - 1) 2).
    pose proof (Nat.div_mod_eq (n - (n - 1) / 2) 2). lia.
  Qed.
  Lemma prev_ix k : (0 < k)%nat -> ((k - 1) mod n = (k + n - 1) mod n)%nat.
  Proof. intros H. replace (k + n - 1)%nat with (k - 1 + 1 * n)%nat by lia. now rewrite Nat.mod_add by lia. Qed.
  Lemma w32_add a b : w32 (a + w32 b) = m32 (a + b).
  Proof. unfold w32, m32. apply Zplus_mod_idemp_r. Qed.
  Lemma w32_sub a b : w32 (a - w32 b) = m32 (a - b).
  Proof. unfold w32, m32. apply Zminus_mod_idemp_r. Qed.

  Lemma gen1_0_ok l b : holds l b -> small b -> exists l', gen1_0 n s p q l = Ok l' /\ holds l' (step_1 v n b 0).
  Proof.
    intros H Sm. unfold gen1_0. rewrite !(holds_rd _ _ _ H) by (try apply p_lt; lia). cbn [bind]. eexists. split; [reflexivity|].
    pose proof p_lt. pose proof q_lt. unfold set1. rewrite w32_add.
    pose proof (set1_ok l b 0 (m32 (1664525 * T (Z.lxor (Z.lxor (b 0%nat) (b p)) (b (n - 1)%nat))))
       (m32 (m32 (1664525 * T (Z.lxor (Z.lxor (b 0%nat) (b p)) (b (n - 1)%nat))) + Z.of_nat s)) H Sm) as A.
    cbn [Nat.add] in A. rewrite !Nat.mod_small in A by lia.
    unfold step_1, ix. cbn [Nat.add]. rewrite !Nat.mod_small by lia. rewrite tp_T. exact A.
  Qed.
  Lemma gen1_1_ok d : forall l b k, holds l b -> small b -> (0 < k <= s + 1)%nat -> (s + 1 - k < d)%nat ->
    exists l', gen1_1 v n s p q d l k = Ok l' /\ holds l' (fold_left (step_1 v n) (seq k (s + 1 - k)) b).
  Proof.
    induction d as [|d IH]; intros l b k H Sm K D; [lia|]. cbn [gen1_1].
    destruct (k <=? s)%nat eqn:E.
    - apply Nat.leb_le in E. rewrite !(holds_rd _ _ _ H) by apply ix_lt. cbn [bind]. rewrite rd_nth by lia. cbn [bind].
      replace (s + 1 - k)%nat with (S (s + 1 - (k + 1))) by lia. cbn [seq fold_left]. replace (S k) with (k + 1)%nat by lia.
      apply IH; try lia; [|now apply step_small]. unfold set1. rewrite w32_add, tp_T, (prev_ix k) by lia.
      destruct k as [|k]; [lia|]. rewrite Nat.sub_succ, Nat.sub_0_r. exact (set1_ok _ _ _ _ _ H Sm).
    - apply Nat.leb_gt in E. replace (s + 1 - k)%nat with 0%nat by lia. exists l. auto.
  Qed.
  Lemma gen1_2_ok d : forall l b k, holds l b -> small b -> (s < k <= m)%nat -> (m - k < d)%nat ->
    exists l', gen1_2 n m p q d l k = Ok l' /\ holds l' (fold_left (step_1 v n) (seq k (m - k)) b).
  Proof.
    induction d as [|d IH]; intros l b k H Sm K D; [lia|]. cbn [gen1_2].
    destruct (k <? m)%nat eqn:E.
    - apply Nat.ltb_lt in E. rewrite !(holds_rd _ _ _ H) by apply ix_lt. cbn [bind].
      replace (m - k)%nat with (S (m - (k + 1))) by lia. cbn [seq fold_left]. replace (S k) with (k + 1)%nat by lia.
      apply IH; try lia; [|now apply step_small]. unfold set1. rewrite w32_add, tp_T, (prev_ix k) by lia.
      pose proof (set1_ok l b k (m32 (1664525 * T (Z.lxor (Z.lxor (b (k mod n)%nat) (b ((k + p) mod n)%nat)) (b ((k + n - 1) mod n)%nat))))
       (m32 (m32 (1664525 * T (Z.lxor (Z.lxor (b (k mod n)%nat) (b ((k + p) mod n)%nat)) (b ((k + n - 1) mod n)%nat))) + Z.of_nat (k mod n))) H Sm) as A.
      unfold step_1, ix. destruct k as [|k]; [lia|]. rewrite nth_overflow by lia. rewrite Z.add_0_r. exact A.
    - apply Nat.ltb_ge in E. replace (m - k)%nat with 0%nat by lia. exists l. auto.
  Qed.
  Lemma gen2_ok d : forall l b k, holds l b -> (k <= m + n)%nat -> (m + n - k < d)%nat ->
    exists l', gen2 n m p q d l k = Ok l' /\ holds l' (fold_left (step_2 n) (seq k (m + n - k)) b).
  Proof.
    induction d as [|d IH]; intros l b k H K D; [lia|]. cbn [gen2].
    destruct (k <? m + n)%nat eqn:E.
    - apply Nat.ltb_lt in E. rewrite !(holds_rd _ _ _ H) by apply ix_lt. cbn [bind].
      replace (m + n - k)%nat with (S (m + n - (k + 1))) by lia. cbn [seq fold_left]. replace (S k) with (k + 1)%nat by lia.
      apply IH; try lia. unfold set2. rewrite w32_sub, tp_T. exact (set2_ok _ _ _ _ _ H).
    - apply Nat.ltb_ge in E. replace (m + n - k)%nat with 0%nat by lia. exists l. auto.
  Qed.

  Lemma start : holds (repeat 2341178251 n) (fun _ => 2341178251).
  Proof.
    split; [apply repeat_length|]. intros i H.
    rewrite nth_indep with (d' := 2341178251) by (rewrite repeat_length; exact H). apply nth_repeat.
  Qed.
  Lemma fold_small l : forall b, small b -> small (fold_left (step_1 v n) l b).
  Proof. induction l as [|k l IH]; intros b H; cbn [fold_left]; [exact H|]. apply IH. now apply step_small. Qed.
  Lemma small0 : small (fun _ => 2341178251).
  Proof. intros i. lia. Qed.

  Lemma gen_ok d : (m + n < d)%nat -> gen_impl v n s m p q d (repeat 2341178251 n) = Ok (seeded v n).
  Proof.
    intros D. assert (Hm : (s + 1 <= m)%nat) by apply Nat.le_max_l. assert (Hm' : (n <= m)%nat) by apply Nat.le_max_r. unfold gen_impl.
    destruct (gen1_0_ok _ _ start small0) as (l0&->&H0). cbn [bind].
    pose proof (step_small _ 0 small0) as S0.
    destruct (gen1_1_ok d l0 _ 1 H0 S0) as (l1&->&H1); [lia..|]. cbn [bind].
    pose proof (fold_small (seq 1 (s + 1 - 1)) _ S0) as S1.
    destruct (gen1_2_ok d l1 _ (s + 1) H1 S1) as (l2&->&H2); [lia..|]. cbn [bind].
    destruct (gen2_ok d l2 _ m H2) as (l3&->&H3); [lia..|].
    apply f_equal. apply holds_eq in H3. rewrite H3. unfold seeded. f_equal.
    replace (m + n - m)%nat with n by lia. f_equal. rewrite <- fold_left_app.
    change (step_1 v n (fun _ => 2341178251) 0) with (fold_left (step_1 v n) [0%nat] (fun _ => 2341178251)).
    rewrite <- fold_left_app. f_equal. cbn [app].
    replace m with (1 + (s + (m - (s + 1))))%nat at 2 by lia. rewrite !seq_app. cbn [seq app Nat.add].
    replace (s + 1 - 1)%nat with s by lia. do 2 f_equal. now rewrite Nat.add_1_r.
  Qed.

  Lemma loop_1_ok d : forall l b k, holds l b -> (k <= m)%nat -> (m - k < d)%nat ->
    exists l', loop_1 v n s m p q d l k = Ok l' /\ holds l' (fold_left (step_1 v n) (seq k (m - k)) b).
  Proof.
    induction d as [|d IH]; intros l b k H K D; [lia|]. cbn [loop_1].
    destruct (k <? m)%nat eqn:E.
    - apply Nat.ltb_lt in E. cbv zeta. rewrite !(holds_rd _ _ _ H) by apply ix_lt. cbn [bind].
      set (r1 := w32 (1664525 * _)).
      assert (A : (if (k =? 0)%nat then Ok (Z.of_nat s) else if (k <=? s)%nat then (u <- rd v (k - 1) ;; Ok (Z.of_nat (k mod n) + u)) else Ok (Z.of_nat (k mod n)))
         = Ok (match k with O => Z.of_nat s | S j => Z.of_nat (ix n k) + nth j v 0 end)).
      { destruct k as [|k]; [reflexivity|]. cbn [Nat.eqb]. destruct (S k <=? s)%nat eqn:Es.
        - apply Nat.leb_le in Es. rewrite rd_nth by lia. cbn [bind]. rewrite Nat.sub_succ, Nat.sub_0_r. reflexivity.
        - apply Nat.leb_gt in Es. rewrite nth_overflow by lia. rewrite Z.add_0_r. reflexivity. }
      rewrite A. cbn [bind]. set (r2 := w32 (r1 + _)).
      destruct (holds_wr l b ((k + p) mod n) (w32 (b ((k + p) mod n)%nat + r1)) H (ix_lt _)) as (l1&->&H1). cbn [bind].
      rewrite (holds_rd _ _ _ H1) by apply ix_lt. cbn [bind].
      destruct (holds_wr l1 _ ((k + q) mod n) (w32 (put b ((k + p) mod n) (w32 (b ((k + p) mod n)%nat + r1)) ((k + q) mod n)%nat + r2)) H1 (ix_lt _)) as (l2&->&H2). cbn [bind].
      destruct (holds_wr l2 _ (k mod n) r2 H2 (ix_lt _)) as (l3&->&H3). cbn [bind].
      replace (m - k)%nat with (S (m - (k + 1))) by lia. cbn [seq fold_left]. replace (S k) with (k + 1)%nat by lia.
      apply IH; try lia. subst r1 r2. rewrite !tp_T in H3. exact H3.
    - apply Nat.ltb_ge in E. replace (m - k)%nat with 0%nat by lia. exists l. auto.
  Qed.
  Lemma loop_2_ok d : forall l b k, holds l b -> (k <= m + n)%nat -> (m + n - k < d)%nat ->
    exists l', loop_2 n m p q d l k = Ok l' /\ holds l' (fold_left (step_2 n) (seq k (m + n - k)) b).
  Proof.
    induction d as [|d IH]; intros l b k H K D; [lia|]. cbn [loop_2].
    destruct (k <? m + n)%nat eqn:E.
    - apply Nat.ltb_lt in E. cbv zeta. rewrite !(holds_rd _ _ _ H) by apply ix_lt. cbn [bind].
      set (r1 := w32 (1566083941 * _)). set (r2 := w32 (r1 - _)).
      destruct (holds_wr l b ((k + p) mod n) (Z.lxor (b ((k + p) mod n)%nat) r1) H (ix_lt _)) as (l1&->&H1). cbn [bind].
      rewrite (holds_rd _ _ _ H1) by apply ix_lt. cbn [bind].
      destruct (holds_wr l1 _ ((k + q) mod n) (Z.lxor (put b ((k + p) mod n) (Z.lxor (b ((k + p) mod n)%nat) r1) ((k + q) mod n)%nat) r2) H1 (ix_lt _)) as (l2&->&H2). cbn [bind].
      destruct (holds_wr l2 _ (k mod n) r2 H2 (ix_lt _)) as (l3&->&H3). cbn [bind].
      replace (m + n - k)%nat with (S (m + n - (k + 1))) by lia. cbn [seq fold_left]. replace (S k) with (k + 1)%nat by lia.
      apply IH; try lia. subst r1 r2. rewrite !tp_T in H3. exact H3.
    - apply Nat.ltb_ge in E. replace (m + n - k)%nat with 0%nat by lia. exists l. auto.
  Qed.
  Lemma loops_ok d : (m + n < d)%nat -> (b <- loop_1 v n s m p q d (repeat 2341178251 n) 0 ;; loop_2 n m p q d b m) = Ok (seeded v n).
  Proof.
    intros D. destruct (loop_1_ok d _ _ 0 start) as (l1&->&H1); [lia..|]. cbn [bind].
    destruct (loop_2_ok d l1 _ m H1) as (l2&->&H2); [lia..|]. apply f_equal. apply holds_eq in H2. rewrite H2. unfold seeded.
    replace (m + n - m)%nat with n by lia. now rewrite Nat.sub_0_r.
  Qed.
End Seed.

Lemma generate_lemma v result d : (Nat.max (length v + 1) (length result) + length result < d)%nat ->
  generate d v result = Ok (seeded v (length result)).
Proof.
  intros D. unfold generate. cbv zeta. destruct (length result =? 0)%nat eqn:E.
  - apply Nat.eqb_eq in E. destruct result; [reflexivity|discriminate].
  - apply Nat.eqb_neq in E. apply gen_ok; [lia|exact D].
Qed.
Lemma generate_range_lemma v result d : (Nat.max (length v + 1) (length result) + length result < d)%nat ->
  generate_range d v result = Ok (seeded v (length result)).
Proof.
  intros D. unfold generate_range. cbv zeta. destruct (length result =? 0)%nat eqn:E.
  - apply Nat.eqb_eq in E. destruct result; [reflexivity|discriminate].
  - apply Nat.eqb_neq in E. apply loops_ok; [lia|exact D].
Qed.
Lemma make_seed_lemma l : make_seed_array l = map (fun x => x mod 2 ^ 32) l.
Proof.
  apply map_ext. intros x. unfold seed_array_init, w32. change (Z.shiftl 2 32) with (2 ^ 33).
  rewrite <- (Znumtheory.Zmod_div_mod (2 ^ 32) (2 ^ 33)) by (try lia; exists 2; reflexivity).
  rewrite <- (Znumtheory.Zmod_div_mod (2 ^ 32) (2 ^ 64)) by (try lia; exists (2 ^ 32); reflexivity). reflexivity.
Qed.
