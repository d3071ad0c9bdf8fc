From Coq Require Import ZArith Bool List Lia ZifyBool ZifyNat.
From Verif Require Import Base BitModel BitSpec BitProof WordModel WordSpec.
Import ListNotations.
Open Scope Z_scope.

Lemma narrow_ok t z : is_val t z -> narrow t z = Ok z.
Proof.
  intros H. unfold is_val in H. unfold narrow, tmin, tmax. destruct (sgn t); replace (_ && _) with true by lia; reflexivity.
Qed.

Lemma abs_pow x k : Z.abs (x ^ k) = Z.abs x ^ k.
Proof. apply Z.abs_pow. Qed.

Lemma val_one t : is_val t 1.
Proof. pose proof (wid_ge t). apply val_small. pose proof (pow_mono 1 (wid t - 1) ltac:(lia)). change (2 ^ 1) with 2 in *. lia. Qed.

Lemma val_pow_le t X k Y : 0 <= k <= Y -> is_val t X -> is_val t (X ^ Y) -> is_val t (X ^ k).
Proof.
  intros Hk HX HY. destruct (Z.eq_dec k Y) as [->|Hn]; [assumption|].
  destruct (Z.eq_dec k 0) as [->|Hk0]. { rewrite Z.pow_0_r. apply val_one. }
  destruct (Z.eq_dec X 0) as [->|HX0]. { rewrite Z.pow_0_l by lia. apply val_0. }
  assert (2 * Z.abs (X ^ k) <= Z.abs (X ^ Y) \/ Z.abs X = 1) as [L|L].
  { destruct (Z.eq_dec (Z.abs X) 1); [tauto|left]. rewrite !abs_pow. replace Y with ((Y - k) + k) by lia. rewrite Z.pow_add_r by lia.
    assert (0 < Z.abs X ^ k) by (apply Z.pow_pos_nonneg; lia).
    assert (2 <= Z.abs X ^ (Y - k)). { pose proof (Z.pow_le_mono_r (Z.abs X) 1 (Y - k)). rewrite Z.pow_1_r in *. lia. }
    nia. }
  - unfold is_val in *. pose proof (half_pos t). destruct (sgn t); [lia|].
    assert (0 <= X ^ k) by (apply Z.pow_nonneg; lia). lia.
  - assert (X ^ k = X \/ X ^ k = 1) as [-> | ->]; [|assumption|apply val_one].
    assert (X = 1 \/ X = -1) as [-> | ->] by lia. { right. apply Z.pow_1_l. lia. }
    destruct (Z.Even_or_Odd k) as [[m ->]|[m ->]].
    + right. rewrite Z.pow_mul_r by lia. change ((-1) ^ 2) with 1. apply Z.pow_1_l. lia.
    + left. rewrite Z.pow_add_r by lia. rewrite Z.pow_mul_r by lia. change ((-1) ^ 2) with 1. rewrite Z.pow_1_l by lia. reflexivity.
Qed.

Section P.
  Variables (il : nat) (md : bool).

  Lemma static_pow_ok t X : is_val t X -> forall d Y, 0 <= Y -> is_val t (X ^ Y) ->
    1 <= Z.of_nat d -> 2 * Z.log2 Y + (if Z.odd Y then 1 else 0) <= Z.of_nat d ->
    static_pow il d t X Y = Ok (X ^ Y).
  Proof.
    intros HX d. induction d as [|d IH]; intros Y HY V H1 Hd; [lia|]. cbn [static_pow].
    assert (arith (promote il t) (X * X) = Ok (X * X) \/ ~ is_val t (X ^ 2)) as A2.
    { destruct (Z.eq_dec Y Y) as [_|]; [|lia]. unfold is_val at 1. replace (X ^ 2) with (X * X) by lia.
      assert (is_val t (X * X) \/ ~ is_val t (X * X)) as [K|K]; [unfold is_val; destruct (sgn t); lia| |right; exact K].
      left. apply arith_ok. apply promote_val. exact K. }
    destruct (Z.ltb_spec Y 3) as [L|L].
    - assert (Y = 0 \/ Y = 1 \/ Y = 2) as [-> | [-> | ->]] by lia.
      + change ((0 =? 0) && negb (negb (Z.rem 0 2 =? 0))) with true. cbn iota. rewrite narrow_ok by apply val_one. reflexivity.
      + change ((1 =? 0) && negb (negb (Z.rem 1 2 =? 0))) with false. change ((1 =? 1) && negb (Z.rem 1 2 =? 0)) with true. cbn iota.
        rewrite narrow_ok by assumption. now rewrite Z.pow_1_r.
      + change ((2 =? 0) && negb (negb (Z.rem 2 2 =? 0))) with false. change ((2 =? 1) && negb (Z.rem 2 2 =? 0)) with false.
        change ((2 =? 2) && negb (negb (Z.rem 2 2 =? 0))) with true. cbn iota.
        destruct A2 as [->|A2]; [|contradiction]. cbn [bind]. rewrite Z.pow_2_r in *. now rewrite narrow_ok.
    - change (3 =? 0) with false. change (3 =? 1) with false. change (3 =? 2) with false. cbn [andb].
      rewrite Z.rem_mod_nonneg by lia. rewrite Zmod_odd. destruct (Z.odd Y) eqn:O; cbn [negb Z.eqb].
      + assert (Z.log2 (Y - 1) <= Z.log2 Y) by (apply Z.log2_le_mono; lia).
        assert (Z.odd (Y - 1) = false) as O' by (rewrite Z.odd_sub, O; reflexivity).
        assert (1 <= Z.log2 Y) by (apply (Z.log2_le_mono 2); lia).
        rewrite (IH (Y - 1)) by (try rewrite O'; try lia; now apply (val_pow_le t X (Y - 1) Y); [lia|..]). cbn [bind].
        assert (X * X ^ (Y - 1) = X ^ Y) as ->. { rewrite <- Z.pow_succ_r by lia. f_equal. lia. }
        rewrite arith_ok by now apply promote_val. cbn [bind]. now apply narrow_ok.
      + rewrite Z.quot_div_nonneg by lia.
        assert (Y = 2 * (Y / 2)) as E2. { pose proof (Z.div_mod Y 2 ltac:(lia)). rewrite Zmod_odd, O in *. lia. }
        assert (Z.log2 Y = 1 + Z.log2 (Y / 2)) as E3. { rewrite E2 at 1. rewrite Z.log2_double by lia. lia. }
        assert (1 <= Z.log2 (Y / 2)) by (apply (Z.log2_le_mono 2); lia).
        rewrite (IH (Y / 2)); [|lia|apply (val_pow_le t X (Y / 2) Y); [lia|assumption..]|lia|destruct (Z.odd (Y / 2)); lia]. cbn [bind].
        destruct d as [|d]; [lia|]. cbn [static_pow]. change (2 <? 3) with true. cbn iota.
        change ((2 =? 0) && negb (negb (Z.rem 2 2 =? 0))) with false. change ((2 =? 1) && negb (Z.rem 2 2 =? 0)) with false.
        change ((2 =? 2) && negb (negb (Z.rem 2 2 =? 0))) with true. cbn iota.
        assert (X ^ (Y / 2) * X ^ (Y / 2) = X ^ Y) as ->. { rewrite <- Z.pow_add_r by lia. f_equal. lia. }
        rewrite arith_ok by now apply promote_val. cbn [bind]. now apply narrow_ok.
  Qed.

  Lemma static_pow_lemma t d X Y : is_val t X -> 0 <= Y -> is_val t (X ^ Y) -> 2 * Z.log2 Y + 1 <= Z.of_nat d ->
    static_pow il d t X Y = Ok (X ^ Y).
  Proof. intros HX HY V Hd. apply static_pow_ok; try assumption; pose proof (Z.log2_nonneg Y); destruct (Z.odd Y); lia. Qed.

  Lemma static_pow2_lemma t X : 0 <= X <= wid (int_t il) - 2 -> is_val t (2 ^ X) -> static_pow2 il md t X = Ok (2 ^ X).
  Proof.
    intros HX V. unfold static_pow2. assert (is_val (int_t il) (2 ^ X)) as VI.
    { apply val_small. split; [pose proof (pow_pos X); lia|apply pow_strict; lia]. }
    rewrite shl_ok; [|lia|right; right; split; [lia|]].
    - cbn [bind]. rewrite Z.mul_1_l. rewrite conv_id by exact VI. now apply narrow_ok.
    - rewrite Z.mul_1_l. apply pow_strict. lia.
  Qed.

  Lemma static_pow2m1_lemma t X : 1 <= X -> is_val t X -> is_val t (2 ^ X - 1) -> static_pow2m1 il md t X = Ok (2 ^ X - 1).
  Proof.
    intros HX VX V. unfold static_pow2m1. replace (X =? 0) with false by lia. cbv zeta.
    set (p := promote il t).
    assert (is_val p (2 ^ X - 1)) as VP by now apply promote_val.
    assert (2 ^ X = 2 * 2 ^ (X - 1)) as E. { rewrite <- Z.pow_succ_r by lia. f_equal. lia. }
    assert (0 < 2 ^ (X - 1)) as P by (apply pow_pos; lia).
    assert (X <= wid p) as HW.
    { assert (2 ^ X - 1 < 2 ^ wid p) as Q. { unfold is_val in VP. pose proof (wid_half p). pose proof (half_pos p). destruct (sgn p); lia. }
      destruct (Z.le_gt_cases X (wid p)); [assumption|]. pose proof (pow_strict (wid p) X ltac:(pose proof (wid_ge p); lia)). lia. }
    assert (forall z, 0 <= z <= 2 ^ X - 1 -> is_val p z) as Vz.
    { intros z Hz. unfold is_val in *. pose proof (half_pos p). destruct (sgn p); lia. }
    assert (forall z, 0 <= z <= 2 ^ X - 1 -> arith p z = Ok z) as Az by (intros z Hz; apply arith_ok; auto).
    assert (is_val p (X - 1)) as VX1. { apply promote_val with (il := il) in VX. fold p in VX. unfold is_val in *. pose proof (half_pos p). destruct (sgn p); lia. }
    rewrite (arith_ok p (X - 1) VX1). cbn [bind].
    rewrite shl_ok; [|lia|right; right; split; [lia|rewrite Z.mul_1_l; apply pow_strict; lia]].
    cbn [bind]. rewrite Z.mul_1_l. rewrite conv_id by (apply Vz; lia). rewrite Az by lia. cbn [bind].
    assert (2 ^ X <= 2 ^ wid p) as L by (apply pow_mono; lia).
    rewrite shl_ok; [|pose proof (wid_ge p); lia|right; right; split; [lia|change (2 ^ 1) with 2; lia]].
    cbn [bind]. change (2 ^ 1) with 2. rewrite conv_id by (apply Vz; lia). rewrite Az by lia. cbn [bind].
    replace ((2 ^ (X - 1) - 1) * 2 + 1) with (2 ^ X - 1) by lia. now apply narrow_ok.
  Qed.
End P.

Lemma digits_lemma t base : (lg t <= 3)%nat -> 2 <= base <= 16 ->
  exists k, integer_digits t base = Ok k /\ 1 <= k /\ base ^ (k - 1) <= tmax t < base ^ k.
Proof.
  destruct t as [s l]. cbn [lg]. intros Hl Hb.
  assert (base = 2 \/ base = 3 \/ base = 4 \/ base = 5 \/ base = 6 \/ base = 7 \/ base = 8 \/ base = 9 \/ base = 10 \/ base = 11 \/
    base = 12 \/ base = 13 \/ base = 14 \/ base = 15 \/ base = 16) as B by lia. clear Hb.
  destruct l as [|[|[|[|l]]]]; [| | | |lia]; destruct s; decompose [or] B; subst base;
    (eexists; split; [reflexivity|]; split; [|split]; vm_compute; congruence).
Qed.

Lemma static_pow2_refuted_lemma : is_val (Ity false 3) (2 ^ 40) /\ static_pow2 2 false (Ity false 3) 40 = UB /\
  static_pow2 2 true (Ity false 3) 31 = UB.
Proof. vm_compute. repeat split; congruence. Qed.

Lemma static_pow2m1_refuted_lemma il md t : static_pow2m1 il md t 0 = Ok 1.
Proof. exact (narrow_ok t 1 (val_one t)). Qed.
