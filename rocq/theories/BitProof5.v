(** Proofs about carry_to_exp2, clrsb and cntl1. *)
From Coq Require Import List Arith ZArith Bool Lia.
From Verif Require Import Base BitModel BitSpec BitProof BitProof2 BitProof3 BitProof4.
Import ListNotations.
Open Scope Z_scope.

Lemma count_zero n : count_ones 0 n = 0.
Proof. induction n as [|n IH]; [reflexivity|]. cbn [count_ones]. rewrite IH, Z.bits_0. reflexivity. Qed.

Lemma ones_pow2 t x : 0 <= x < 2 ^ wid t -> (ones_in t x <= 1 <-> x = 0 \/ exists k, 0 <= k < wid t /\ x = 2 ^ k).
Proof.
  intros V. pose proof (wid_ge t). rewrite ones_in_count. split.
  - intros C. destruct (Z.eq_dec x 0) as [|N]; [now left|right]. set (k := Z.log2 x).
    assert (Hk : 0 <= k < wid t) by (split; [apply Z.log2_nonneg|apply Z.log2_lt_pow2; lia]).
    exists k. split; [exact Hk|]. set (y := Z.clearbit x k).
    assert (CY : count_ones x (Z.to_nat (wid t)) = 1 + count_ones y (Z.to_nat (wid t))).
    { apply (count_remove x y (Z.to_nat k)); try lia; rewrite ?Z2Nat.id by lia.
      - apply Z.bit_log2. lia.
      - unfold y. rewrite Z.clearbit_eqb by lia. rewrite Z.eqb_refl. now rewrite andb_false_r.
      - intros i Hi Ni. unfold y. rewrite Z.clearbit_neq by lia. reflexivity. }
    pose proof (count_bound y (Z.to_nat (wid t))).
    pose proof (count_0 y (Z.to_nat (wid t)) ltac:(lia)) as Z0. apply Z.bits_inj. intros i. destruct (Z_lt_ge_dec i 0) as [L|L].
    + now rewrite !Z.testbit_neg_r by exact L.
    + rewrite bit_bits by lia. destruct (Z.eqb_spec i k) as [->|NE]; [apply Z.bit_log2; lia|].
      destruct (Z_lt_ge_dec i (wid t)) as [L'|L'].
      * specialize (Z0 (Z.to_nat i) ltac:(lia)). rewrite Z2Nat.id in Z0 by lia. unfold y in Z0. rewrite Z.clearbit_neq in Z0 by lia. exact Z0.
      * apply (uns_high t); [exact V|lia].
  - intros [->|(k & Hk & ->)]; [rewrite count_zero; lia|].
    rewrite (count_remove (2 ^ k) 0 (Z.to_nat k)); try lia; try rewrite Z2Nat.id by lia.
    + rewrite count_zero. lia.
    + rewrite bit_bits by lia. apply Z.eqb_refl.
    + apply Z.bits_0.
    + intros i Hi Ni. rewrite Z.bits_0, bit_bits by lia. destruct (Z.eqb_spec (Z.of_nat i) k); [lia|reflexivity].
Qed.

Lemma lead_len t x c : 0 < x < 2 ^ wid t -> leading false t x c -> wid t - c = Z.log2 x + 1.
Proof.
  intros V L. assert (H : leading false t x (wid t - Z.log2 x - 1)).
  { pose proof (Z.log2_nonneg x). pose proof (proj1 (Z.log2_lt_pow2 x (wid t) ltac:(lia)) ltac:(lia)).
    split; [lia|]. split.
    - intros i Hi. apply Z.bits_above_log2; lia.
    - intros _. replace (wid t - 1 - (wid t - Z.log2 x - 1)) with (Z.log2 x) by lia. apply Z.bit_log2. lia. }
  pose proof (leading_unique _ _ _ _ _ L H). lia.
Qed.

Lemma next_pow2_pow k : 0 <= k -> next_pow2 (2 ^ k) (2 ^ k).
Proof. intros H. exists k. repeat split; try lia. intros j Hj. apply pow_strict. lia. Qed.
Lemma next_pow2_log x : 0 < x -> (forall k, 0 <= k -> x <> 2 ^ k) -> next_pow2 x (2 ^ (Z.log2 x + 1)).
Proof.
  intros Hx N. pose proof (Z.log2_spec x Hx) as [L1 L2]. pose proof (Z.log2_nonneg x). exists (Z.log2 x + 1). split; [lia|]. split; [reflexivity|]. split.
  - apply Z.lt_le_incl. rewrite Z.add_1_r. exact L2.
  - intros j Hj. pose proof (pow_mono j (Z.log2 x) ltac:(lia)). specialize (N (Z.log2 x) ltac:(lia)). lia.
Qed.
Lemma next_pow2_le x r k : next_pow2 x r -> 0 <= k -> x <= 2 ^ k -> r <= 2 ^ k.
Proof.
  intros (j & J1 & -> & J2 & J3) Hk Hx. apply pow_mono. destruct (Z_lt_ge_dec k j); [|lia]. specialize (J3 k ltac:(lia)). lia.
Qed.

Section B.
  Variable il : nat.
  Variable md : bool.
  Variable bi : bool.
  Notation promote := (promote il).

  Lemma not_pow2 t x : 0 <= x < 2 ^ wid t -> 1 < ones_in t x -> 0 < x /\ forall k, 0 <= k -> x <> 2 ^ k.
  Proof.
    intros B O. pose proof (ones_pow2 t x B) as OP. split.
    - destruct (Z.eq_dec x 0) as [->|]; [|lia]. assert (ones_in t 0 <= 1) by (apply OP; now left). lia.
    - intros k Hk ->. assert (ones_in t (2 ^ k) <= 1); [|lia]. apply OP. right. exists k. split; [|reflexivity].
      pose proof (wid_ge t). split; [lia|]. apply (Z.pow_lt_mono_r_iff 2); lia.
  Qed.

  (** the signed types *)
  Lemma simpl_ok t d x : sgn t = true -> wid t <= tmax (int_t il) -> wid t < Z.of_nat d -> is_val t x -> 0 <= x ->
    exists r, carry_to_exp2_simpl il md bi t d x = Ok r /\
      (x = 0 -> r = 0) /\ (0 < x <= 2 ^ (wid t - 2) -> next_pow2 x r) /\
      (2 ^ (wid t - 2) < x -> r = - 2 ^ (wid t - 1)).
  Proof.
    intros S WT Hd V Hx. pose proof (wid_ge t) as W8. pose proof (half_pos t). pose proof (wid_half t).
    assert (V' := V). unfold is_val in V'. rewrite S in V'.
    assert (B : 0 <= x < 2 ^ wid t) by lia. pose proof (pow_pos (wid t - 2) ltac:(lia)) as PP.
    unfold carry_to_exp2_simpl. rewrite popcount_lemma by assumption. cbn [bind].
    destruct (Z.leb_spec (ones_in t x) 1) as [O|O].
    - exists x. split; [reflexivity|]. apply ones_pow2 in O; [|exact B]. split; [auto|]. destruct O as [->|(k & Hk & ->)].
      + split; lia.
      + split; [intros _; apply next_pow2_pow; lia|]. intros H1. exfalso.
        assert (wid t - 2 < k) by (apply (Z.pow_lt_mono_r_iff 2); lia). pose proof (pow_mono (wid t - 1) k ltac:(lia)). lia.
    - destruct (not_pow2 t x B O) as [N0 NP]. unfold cntl0. destruct (clz_lemma il md bi t x V) as (c & -> & L). cbn [bind].
      rewrite (lead_len t x c) by (auto; lia). pose proof (next_pow2_log x ltac:(lia) NP) as NX.
      pose proof (Z.log2_nonneg x). pose proof (promote_wid il t).
      assert (LW : Z.log2 x < wid t - 1) by (apply Z.log2_lt_pow2; lia).
      rewrite shl1 by lia. cbn [bind]. eexists. split; [reflexivity|].
      assert (CC : forall z, conv t (conv (promote t) z) = conv t z).
      { intros z. apply (val_ext t); try apply conv_val. intros i Hi. now rewrite !conv_bits by lia. }
      rewrite CC. split; [lia|]. split.
      + intros R. pose proof (next_pow2_le _ _ (wid t - 2) NX ltac:(lia) ltac:(lia)). rewrite conv_id; [exact NX|].
        apply val_small. pose proof (pow_strict (wid t - 2) (wid t - 1) ltac:(lia)). pose proof (pow_pos (Z.log2 x + 1) ltac:(lia)). lia.
      + intros R. assert (E : Z.log2 x + 1 = wid t - 1).
        { assert (wid t - 2 <= Z.log2 x); [|lia]. apply Z.log2_le_pow2; lia. }
        rewrite E. unfold conv. rewrite S. rewrite Z.mod_small by lia. rewrite Z.leb_refl. cbn [andb]. lia.
  Qed.

  Lemma carry_signed_lemma t d x : sgn t = true -> wid (promote t) <= tmax (int_t il) -> wid (promote t) < Z.of_nat d -> is_val t x ->
    let h := 2 ^ (wid t - 2) in
    (0 <= x -> exists r, carry_to_exp2 il md bi t d x = Ok r /\
      (x = 0 -> r = 0) /\ (0 < x <= h -> next_pow2 x r) /\ (h < x -> r = tmin t)) /\
    (- h <= x < 0 -> exists r, carry_to_exp2 il md bi t d x = Ok r /\ next_pow2 (- x) (- r)) /\
    (tmin t < x < - h -> carry_to_exp2 il md bi t d x = if Nat.ltb (lg t) il then Ok (tmin t) else UB) /\
    (x = tmin t -> carry_to_exp2 il md bi t d x = Ok x).
  Proof.
    intros S WT Hd V h. pose proof (wid_ge t) as W8. pose proof (half_pos t) as HP. pose proof (wid_half t) as WH. pose proof (promote_wid il t) as PW.
    assert (V' := V). unfold is_val in V'. rewrite S in V'. assert (TM : tmin t = - 2 ^ (wid t - 1)) by (unfold tmin; now rewrite S).
    pose proof (pow_pos (wid t - 2) ltac:(lia)) as PP. assert (HH : 2 ^ (wid t - 1) = 2 * h).
    { unfold h. replace (wid t - 1) with (Z.succ (wid t - 2)) by lia. rewrite Z.pow_succ_r by lia. reflexivity. }
    unfold carry_to_exp2. rewrite S. fold h in PP.
    assert (SP : sgn (promote t) = true).
    { destruct (Nat.lt_ge_cases (lg t) il) as [L|L]; [destruct (promote_narrow il t L) as [-> _]; reflexivity|now rewrite promote_wide]. }
    assert (NEG : x < 0 -> x <> tmin t -> exists r, (y <- arith (promote t) (- x) ;; carry_to_exp2_simpl il md bi (promote t) d y) = Ok r /\
       arith (promote t) (- x) = Ok (- x) /\ (- x <= 2 ^ (wid (promote t) - 2) -> next_pow2 (- x) r) /\
      (2 ^ (wid (promote t) - 2) < - x -> r = - 2 ^ (wid (promote t) - 1))).
    { intros H1 H2. pose proof (pow_mono (wid t - 1) (wid (promote t) - 1) ltac:(lia)) as PM.
      assert (VP : is_val (promote t) (- x)) by (unfold is_val; rewrite SP; lia).
      assert (A : arith (promote t) (- x) = Ok (- x)).
      { apply arith_ok; auto. }
      rewrite A. cbn [bind]. destruct (simpl_ok (promote t) d (- x)) as (r & E & R1 & R2 & R3); auto; try lia.
      exists r. repeat split; auto. intros. apply R2. lia. }
    split; [|split; [|split]].
    - intros H0. destruct (Z.eqb_spec x (tmin t)); [lia|]. destruct (Z.ltb_spec x 0); [lia|].
      destruct (simpl_ok t d x) as (r & E & R1 & R2 & R3); auto; try lia. exists r. rewrite TM. auto.
    - intros H0. destruct (Z.eqb_spec x (tmin t)); [lia|]. destruct (Z.ltb_spec x 0); [|lia].
      destruct (NEG ltac:(lia) ltac:(lia)) as (r & E & A & R1 & _). rewrite A in *. cbn [bind] in *. rewrite E. cbn [bind].
      assert (LE : 2 ^ (wid t - 2) <= 2 ^ (wid (promote t) - 2)) by (apply pow_mono; lia). fold h in LE.
      specialize (R1 ltac:(lia)). pose proof (next_pow2_le _ _ (wid t - 2) R1 ltac:(lia) ltac:(lia)) as RL. fold h in RL.
      assert (0 < r) by (destruct R1 as (k & K & -> & _); apply pow_pos; lia).
      pose proof (pow_mono (wid t - 1) (wid (promote t) - 1) ltac:(lia)) as PM.
      rewrite arith_ok; [|unfold is_val; rewrite SP; lia]. cbn [bind]. exists (- r). rewrite Z.opp_involutive. split; [|exact R1].
      rewrite conv_id; [reflexivity|]. unfold is_val. rewrite S. lia.
    - intros H0. destruct (Z.eqb_spec x (tmin t)); [lia|]. destruct (Z.ltb_spec x 0); [|lia].
      destruct (NEG ltac:(lia) ltac:(lia)) as (r & E & A & R1 & R2). rewrite A in *. cbn [bind] in *. rewrite E. cbn [bind].
      destruct (Nat.ltb_spec (lg t) il) as [L|L].
      + destruct (promote_narrow il t L) as [_ Hw].
        pose proof (pow_mono (wid t - 1) (wid (promote t) - 2) ltac:(lia)) as PM. specialize (R1 ltac:(lia)).
        assert (RE : r = 2 ^ (wid t - 1)).
        { apply Z.le_antisymm; [apply (next_pow2_le _ _ (wid t - 1) R1); lia|]. destruct R1 as (k & K & -> & K1 & K2).
          apply pow_mono. assert (wid t - 2 < k); [|lia]. apply (Z.pow_lt_mono_r_iff 2); lia. }
        pose proof (pow_mono (wid (promote t) - 2) (wid (promote t) - 1) ltac:(lia)).
        rewrite arith_ok; [|unfold is_val; rewrite SP; lia]. cbn [bind]. rewrite conv_id; [now rewrite RE, TM|].
        unfold is_val. rewrite S. lia.
      + rewrite promote_wide in * by exact L. fold h in R2. rewrite R2 by lia. rewrite arith_ub; [reflexivity|exact S|].
        unfold is_val. rewrite S. lia.
    - intros ->. now rewrite Z.eqb_refl.
  Qed.

  Lemma carry_unsigned_lemma t d x : sgn t = false -> wid t <= tmax (int_t il) -> wid t < Z.of_nat d -> is_val t x ->
    exists r, carry_to_exp2 il md bi t d x = Ok r /\
      (x = 0 -> r = 0) /\ (0 < x <= 2 ^ (wid t - 1) -> next_pow2 x r) /\ (2 ^ (wid t - 1) < x -> r = 0).
  Proof.
    intros S WT Hd V. pose proof (wid_ge t) as W8. pose proof (half_pos t). pose proof (wid_half t). pose proof (promote_wid il t).
    assert (B := V). unfold is_val in B. rewrite S in B. unfold carry_to_exp2. rewrite S. rewrite popcount_lemma by assumption. cbn [bind].
    destruct (Z.leb_spec (ones_in t x) 1) as [O|O].
    - exists x. split; [reflexivity|]. apply ones_pow2 in O; [|exact B]. split; [auto|]. destruct O as [->|(k & Hk & ->)]; [split; lia|].
      split; [intros _; apply next_pow2_pow; lia|]. intros H2. exfalso. pose proof (pow_mono k (wid t - 1) ltac:(lia)). lia.
    - destruct (not_pow2 t x B O) as [N0 NP]. unfold cntl0. destruct (clz_lemma il md bi t x V) as (c & -> & L). cbn [bind].
      pose proof (lead_len t x c ltac:(lia) L) as LL. pose proof (next_pow2_log x ltac:(lia) NP) as NX. pose proof (Z.log2_nonneg x).
      unfold carry_to_exp2_uimpl. destruct (Z.eqb_spec c 0) as [->|NC].
      + exists 0. split; [reflexivity|]. split; [auto|]. split; [|auto]. intros R. exfalso.
        assert (LE : Z.log2 x = wid t - 1) by lia. pose proof (Z.log2_spec x ltac:(lia)) as [LS _]. rewrite LE in LS. apply (NP (wid t - 1)); lia.
      + destruct L as [Lc _]. rewrite LL. rewrite shl1 by lia. cbn [bind]. eexists. split; [reflexivity|].
        assert (CC : forall z, conv t (conv (promote t) z) = conv t z).
        { intros z. apply (val_ext t); try apply conv_val. intros i Hi. now rewrite !conv_bits by lia. }
        rewrite CC. split; [lia|]. pose proof (pow_strict (Z.log2 x + 1) (wid t) ltac:(lia)). pose proof (pow_pos (Z.log2 x + 1) ltac:(lia)).
        split.
        * intros _. rewrite conv_id; [exact NX|]. unfold is_val. rewrite S. lia.
        * intros R. exfalso. pose proof (Z.log2_spec x ltac:(lia)) as [_ LS]. pose proof (pow_mono (Z.succ (Z.log2 x)) (wid t - 1) ltac:(lia)). lia.
  Qed.

  (** ** cntl1 *)
  Lemma cntl1_narrow_unsigned t x : (lg t < il)%nat -> sgn t = false -> is_val t x -> cntl1 il md bi t x = Ok 0.
  Proof.
    intros N S V. unfold cntl1, clrsb. unfold has_builtin. rewrite (proj2 (Nat.leb_gt il (lg t)) N). rewrite andb_false_r.
    destruct (promote_narrow il t N) as [EP Hw]. assert (B := V). unfold is_val in B. rewrite S in B. pose proof (wid_ge t).
    destruct (clz_lemma il md bi (promote t) (cpl (promote t) x) (conv_val _ _)) as (c & -> & L). f_equal.
    apply (leading_unique false (promote t) (cpl (promote t) x)); [exact L|]. split; [lia|]. split; [intros; lia|]. intros _.
    rewrite cpl_bits by lia. replace (Z.testbit x (wid (promote t) - 1 - 0)) with false; [reflexivity|]. symmetry.
    apply (uns_high t); [exact B|lia].
  Qed.
  Lemma cntl1_builtin t x : has_builtin il bi t = true ->
    exists c, leading (Z.testbit x (wid t - 1)) t x c /\ cntl1 il md bi t x = Ok (c - 1).
  Proof.
    intros HB. exists (lead (Z.testbit x (wid t - 1)) x (widn t)). split; [apply lead_leading|]. unfold cntl1, clrsb. now rewrite HB.
  Qed.
  Lemma cntl1_builtin_wrong t x : has_builtin il bi t = true -> Z.testbit x (wid t - 1) = true ->
    exists c, leading true t x c /\ cntl1 il md bi t x = Ok (c - 1).
  Proof. intros HB B. destruct (cntl1_builtin t x HB) as (c & L & E). rewrite B in L. eauto. Qed.
  Lemma cntl1_narrow_signed t x : (lg t < il)%nat -> sgn t = true -> is_val t x ->
    exists c, leading true t x c /\ cntl1 il md bi t x = Ok (if x <? 0 then c + (wid (int_t il) - wid t) else c).
  Proof.
    intros N S V. unfold cntl1, clrsb. unfold has_builtin. rewrite (proj2 (Nat.leb_gt il (lg t)) N). rewrite andb_false_r.
    destruct (promote_narrow il t N) as [EP Hw]. assert (B := V). unfold is_val in B. rewrite S in B. pose proof (wid_ge t).
    exists (lead true x (widn t)). pose proof (lead_leading true t x) as LT. set (c := lead true x (widn t)) in *. split; [exact LT|].
    destruct (clz_lemma il md bi (promote t) (cpl (promote t) x) (conv_val _ _)) as (c' & -> & L). f_equal.
    apply (leading_unique false (promote t) (cpl (promote t) x)); [exact L|]. rewrite <- EP.
    assert (HI : forall i, wid t - 1 <= i -> Z.testbit x i = (x <? 0)).
    { intros i Hi. destruct (Z.ltb_spec x 0).
      - apply Z.bits_above_log2_neg; [lia|]. destruct (Z.eq_dec x (-1)) as [->|]; [change (Z.log2 (Z.pred (- -1))) with 0; lia|].
        apply Z.lt_le_trans with (wid t - 1); [|exact Hi]. apply Z.log2_lt_pow2; lia.
      - destruct (Z.eq_dec x 0) as [->|]; [apply Z.bits_0|]. apply Z.bits_above_log2; [lia|]. apply Z.lt_le_trans with (wid t - 1); [|exact Hi].
        apply Z.log2_lt_pow2; lia. }
    destruct LT as (L1 & L2 & L3). destruct (Z.ltb_spec x 0) as [G|G].
    - split; [lia|]. split.
      + intros i Hi. rewrite cpl_bits by lia. destruct (Z_lt_ge_dec i (wid t)).
        * now rewrite L2 by lia.
        * now rewrite HI by lia.
      + intros H'. replace (wid (promote t) - 1 - (c + (wid (promote t) - wid t))) with (wid t - 1 - c) by lia.
        rewrite cpl_bits by lia. now rewrite L3 by lia.
    - assert (c = 0) as ->. { destruct (Z.eq_dec c 0); [assumption|]. specialize (L2 (wid t - 1) ltac:(lia)). rewrite HI in L2 by lia. discriminate. }
      split; [lia|]. split; [intros; lia|]. intros _. rewrite cpl_bits by lia. now rewrite HI by lia.
  Qed.
End B.
