(** Proofs about the integer types and shifts. *)
From Coq Require Import List Arith ZArith Bool Lia.
From Verif Require Import Base BitModel BitSpec.
Import ListNotations.
Open Scope Z_scope.

Lemma bytes_pos t : 1 <= bytes t.
Proof. unfold bytes. pose proof (Z.pow_pos_nonneg 2 (Z.of_nat (lg t)) ltac:(lia) ltac:(lia)). lia. Qed.
Lemma wid_ge t : 8 <= wid t.
Proof. unfold wid. pose proof (bytes_pos t). lia. Qed.
Lemma pow_pos n : 0 <= n -> 0 < 2 ^ n.
Proof. intros H. apply Z.pow_pos_nonneg; lia. Qed.
Lemma wid_half t : 2 ^ wid t = 2 * 2 ^ (wid t - 1).
Proof. pose proof (wid_ge t). rewrite <- Z.pow_succ_r by lia. f_equal. lia. Qed.
Lemma half_pos t : 0 < 2 ^ (wid t - 1).
Proof. pose proof (wid_ge t). apply pow_pos. lia. Qed.
Lemma pow_mono a b : 0 <= a <= b -> 2 ^ a <= 2 ^ b.
Proof. intros H. apply Z.pow_le_mono_r; lia. Qed.
Lemma pow_strict a b : 0 <= a < b -> 2 ^ a < 2 ^ b.
Proof. intros H. apply Z.pow_lt_mono_r; lia. Qed.

Lemma wid_uns t : wid (uns t) = wid t. Proof. reflexivity. Qed.
Lemma wid_sig t : wid (sig t) = wid t. Proof. reflexivity. Qed.

(** ** Conversions *)
Lemma conv_mod t z : conv t z mod 2 ^ wid t = z mod 2 ^ wid t.
Proof.
  unfold conv. pose proof (half_pos t). pose proof (wid_half t). cbv zeta. destruct (sgn t && _).
  - replace (z mod 2 ^ wid t - 2 ^ wid t) with (z mod 2 ^ wid t + (-1) * 2 ^ wid t) by lia.
    rewrite Z.mod_add by lia. apply Z.mod_mod. lia.
  - apply Z.mod_mod. lia.
Qed.
Lemma conv_val t z : is_val t (conv t z).
Proof.
  unfold conv, is_val. pose proof (half_pos t). pose proof (wid_half t). pose proof (Z.mod_pos_bound z (2 ^ wid t) ltac:(lia)).
  cbv zeta. destruct (sgn t); cbn [andb]; [|lia]. destruct (Z.leb_spec (2 ^ (wid t - 1)) (z mod 2 ^ wid t)); lia.
Qed.
Lemma conv_id t x : is_val t x -> conv t x = x.
Proof.
  unfold conv, is_val. pose proof (half_pos t). pose proof (wid_half t). cbv zeta. destruct (sgn t); cbn [andb]; intros H1.
  - destruct (Z_lt_ge_dec x 0) as [N|N].
    + replace (x mod 2 ^ wid t) with (x + 2 ^ wid t).
      * destruct (Z.leb_spec (2 ^ (wid t - 1)) (x + 2 ^ wid t)); lia.
      * rewrite <- (Z.mod_add x 1) by lia. rewrite Z.mul_1_l. symmetry. apply Z.mod_small. lia.
    + rewrite Z.mod_small by lia. destruct (Z.leb_spec (2 ^ (wid t - 1)) x); lia.
  - apply Z.mod_small. lia.
Qed.
Lemma mod_bits a n i : 0 <= i < n -> Z.testbit (a mod 2 ^ n) i = Z.testbit a i.
Proof. intros H. apply Z.mod_pow2_bits_low. lia. Qed.
Lemma conv_bits t z i : 0 <= i < wid t -> Z.testbit (conv t z) i = Z.testbit z i.
Proof. intros H. rewrite <- (mod_bits (conv t z) (wid t)), conv_mod by exact H. now apply mod_bits. Qed.

Lemma bits_mod a b n : 0 <= n -> (forall i, 0 <= i < n -> Z.testbit a i = Z.testbit b i) -> a mod 2 ^ n = b mod 2 ^ n.
Proof.
  intros Hn H. apply Z.bits_inj'. intros i Hi. destruct (Z_lt_ge_dec i n) as [L|L].
  - rewrite !mod_bits by lia. apply H. lia.
  - rewrite !Z.mod_pow2_bits_high by lia. reflexivity.
Qed.
Lemma conv_of_mod t a b : a mod 2 ^ wid t = b mod 2 ^ wid t -> conv t a = conv t b.
Proof. unfold conv. now intros ->. Qed.
Lemma val_ext t a b : is_val t a -> is_val t b -> (forall i, 0 <= i < wid t -> Z.testbit a i = Z.testbit b i) -> a = b.
Proof.
  intros Ha Hb H. rewrite <- (conv_id t a Ha), <- (conv_id t b Hb). apply conv_of_mod, bits_mod; [pose proof (wid_ge t); lia|exact H].
Qed.
Lemma conv_conv t u z : wid u <= wid t -> conv u (conv t z) = conv u z.
Proof.
  intros H. apply (val_ext u); try apply conv_val. intros i Hi. rewrite !conv_bits by lia. reflexivity.
Qed.

Lemma val_small t z : 0 <= z < 2 ^ (wid t - 1) -> is_val t z.
Proof. intros H. unfold is_val. pose proof (half_pos t). pose proof (wid_half t). destruct (sgn t); lia. Qed.
Lemma val_0 t : is_val t 0.
Proof. apply val_small. pose proof (half_pos t). lia. Qed.
Lemma uns_val t x : is_val (uns t) x <-> 0 <= x < 2 ^ wid t.
Proof. reflexivity. Qed.
Lemma uns_high t x i : is_val (uns t) x -> wid t <= i -> Z.testbit x i = false.
Proof.
  intros H Hi. change (0 <= x < 2 ^ wid t) in H. destruct (Z.eq_dec x 0) as [->|N]; [apply Z.bits_0|].
  apply Z.bits_above_log2; [lia|]. apply Z.lt_le_trans with (wid t); [|exact Hi]. apply Z.log2_lt_pow2; lia.
Qed.

Section B.
  Variable il : nat.
  Variable md : bool.
  Variable bi : bool.
  Notation promote := (promote il).

  Lemma promote_wid t : wid t <= wid (promote t).
  Proof.
    unfold BitModel.promote. destruct (Nat.ltb_spec (lg t) il); [|lia]. unfold wid, bytes. cbn [lg int_t].
    pose proof (pow_mono (Z.of_nat (lg t)) (Z.of_nat il) ltac:(lia)). lia.
  Qed.
  Lemma promote_narrow t : (lg t < il)%nat -> promote t = int_t il /\ 2 * wid t <= wid (promote t).
  Proof.
    intros H. unfold BitModel.promote. destruct (Nat.ltb_spec (lg t) il); [|lia]. split; [reflexivity|].
    unfold wid, bytes. cbn [lg int_t]. pose proof (pow_mono (Z.of_nat (S (lg t))) (Z.of_nat il) ltac:(lia)) as P.
    rewrite Nat2Z.inj_succ, Z.pow_succ_r in P by lia. lia.
  Qed.
  Lemma promote_wide t : (il <= lg t)%nat -> promote t = t.
  Proof. intros H. unfold BitModel.promote. destruct (Nat.ltb_spec (lg t) il); [lia|reflexivity]. Qed.
  Lemma promote_val t x : is_val t x -> is_val (promote t) x.
  Proof.
    intros H. destruct (Nat.lt_ge_cases (lg t) il) as [L|L]; [|now rewrite promote_wide].
    destruct (promote_narrow t L) as [E W]. pose proof (wid_ge t). rewrite E in *. revert H. unfold is_val. cbn [sgn int_t].
    pose proof (pow_mono (wid t) (wid (int_t il) - 1) ltac:(lia)). pose proof (wid_half t). pose proof (half_pos t).
    destruct (sgn t); lia.
  Qed.
  Lemma promote_uns t : wid (promote (uns t)) = wid (promote t).
  Proof. unfold BitModel.promote. cbn [lg uns]. destruct (Nat.ltb (lg t) il); reflexivity. Qed.
  Lemma promote_sig t : wid (promote (sig t)) = wid (promote t).
  Proof. unfold BitModel.promote. cbn [lg sig]. destruct (Nat.ltb (lg t) il); reflexivity. Qed.

  Lemma cpl_bits p x i : 0 <= i < wid p -> Z.testbit (cpl p x) i = negb (Z.testbit x i).
  Proof. intros H. unfold cpl. rewrite conv_bits by exact H. apply Z.lnot_spec. lia. Qed.

  Lemma arith_ok p z : is_val p z -> arith p z = Ok z.
  Proof.
    intros H. unfold arith. destruct (sgn p) eqn:E; [|now rewrite conv_id].
    revert H. unfold is_val, tmin, tmax. rewrite E. intros H.
    destruct (Z.leb_spec (- 2 ^ (wid p - 1)) z), (Z.leb_spec z (2 ^ (wid p - 1) - 1)); cbn [andb]; try reflexivity; lia.
  Qed.
  Lemma arith_ub p z : sgn p = true -> ~ is_val p z -> arith p z = UB.
  Proof.
    intros E H. unfold arith. rewrite E. revert H. unfold is_val, tmin, tmax. rewrite E. intros H.
    destruct (Z.leb_spec (- 2 ^ (wid p - 1)) z), (Z.leb_spec z (2 ^ (wid p - 1) - 1)); cbn [andb]; try reflexivity; lia.
  Qed.
  (** either way, the low bits are those of the exact result *)
  Lemma arith_cases p z : (exists r, arith p z = Ok r /\ is_val p r /\ forall i, 0 <= i < wid p -> Z.testbit r i = Z.testbit z i) \/
    (arith p z = UB /\ sgn p = true /\ ~ is_val p z).
  Proof.
    unfold arith. destruct (sgn p) eqn:E.
    - unfold is_val, tmin, tmax. rewrite E. destruct (Z.leb_spec (- 2 ^ (wid p - 1)) z), (Z.leb_spec z (2 ^ (wid p - 1) - 1)); cbn [andb].
      + left. exists z. split; [reflexivity|]. split; [lia|auto].
      + right. repeat split; lia.
      + right. repeat split; lia.
      + right. repeat split; lia.
    - left. exists (conv p z). split; [reflexivity|]. split; [apply conv_val|]. intros. now apply conv_bits.
  Qed.

  (** ** Shifts *)
  Lemma shl_ok p x s : 0 <= s < wid p -> (sgn p = false \/ md = true \/ (0 <= x /\ x * 2 ^ s < 2 ^ wid p)) ->
    shl md p x s = Ok (conv p (x * 2 ^ s)).
  Proof.
    intros Hs H. unfold shl. destruct (Z.leb_spec 0 s), (Z.ltb_spec s (wid p)); try lia. cbn [andb].
    destruct (sgn p), md; cbn [andb negb]; try reflexivity.
    destruct H as [H|[H|H]]; try discriminate.
    destruct (Z.ltb_spec x 0), (Z.leb_spec (2 ^ wid p) (x * 2 ^ s)); cbn [orb]; try lia; reflexivity.
  Qed.
  Lemma shl_ub p x s : ~ 0 <= s < wid p -> shl md p x s = UB.
  Proof. intros H. unfold shl. destruct (Z.leb_spec 0 s), (Z.ltb_spec s (wid p)); cbn [andb]; try reflexivity; lia. Qed.
  Lemma shr_ok p x s : 0 <= s < wid p -> shr p x s = Ok (Z.shiftr x s).
  Proof. intros Hs. unfold shr. destruct (Z.leb_spec 0 s), (Z.ltb_spec s (wid p)); try lia. reflexivity. Qed.
  Lemma shr_ub p x s : ~ 0 <= s < wid p -> shr p x s = UB.
  Proof. intros H. unfold shr. destruct (Z.leb_spec 0 s), (Z.ltb_spec s (wid p)); cbn [andb]; try reflexivity; lia. Qed.

  Lemma mul_bits x s i : 0 <= s -> 0 <= i -> Z.testbit (x * 2 ^ s) i = (s <=? i) && Z.testbit x (i - s).
  Proof.
    intros Hs Hi. rewrite <- Z.shiftl_mul_pow2 by lia. rewrite Z.shiftl_spec by lia. destruct (Z.leb_spec s i); [reflexivity|].
    now rewrite Z.testbit_neg_r by lia.
  Qed.

  Lemma shlr_spec t x s : 0 <= s < wid (promote t) ->
    exists r, shlr il t x s = Ok r /\ is_val t r /\
      forall i, 0 <= i < wid t -> Z.testbit r i = (i + s <? wid t) && Z.testbit x (i + s).
  Proof.
    intros Hs. unfold shlr. rewrite shr_ok by (now rewrite promote_uns). cbn [bind]. eexists. split; [reflexivity|]. split; [apply conv_val|].
    intros i Hi. rewrite conv_bits by exact Hi. rewrite Z.shiftr_spec by lia. destruct (Z.ltb_spec (i + s) (wid t)).
    - apply conv_bits. rewrite wid_uns. lia.
    - apply (uns_high t); [apply conv_val|lia].
  Qed.
  Lemma shlr_ub t x s : ~ 0 <= s < wid (promote t) -> shlr il t x s = UB.
  Proof. intros H. unfold shlr. rewrite shr_ub; [reflexivity|now rewrite promote_uns]. Qed.

  Lemma shll_spec t x s : 0 <= s <= wid t -> s < wid (promote t) ->
    exists r, shll il md t x s = Ok r /\ is_val t r /\
      forall i, 0 <= i < wid t -> Z.testbit r i = (s <=? i) && Z.testbit x (i - s).
  Proof.
    intros Hs Hp. unfold shll. rewrite shl_ok.
    - cbn [bind]. eexists. split; [reflexivity|]. split; [apply conv_val|]. intros i Hi.
      pose proof (promote_wid (uns t)). rewrite wid_uns in *. rewrite !conv_bits by lia. rewrite mul_bits by lia.
      destruct (Z.leb_spec s i); [|reflexivity]. cbn [andb]. apply conv_bits. rewrite wid_uns. lia.
    - rewrite promote_uns. lia.
    - destruct (Nat.lt_ge_cases (lg t) il) as [L|L].
      + right. right. pose proof (conv_val (uns t) x) as [V1 V2]. rewrite wid_uns in V2. split; [exact V1|].
        destruct (promote_narrow (uns t) L) as [_ Hw]. rewrite wid_uns in Hw.
        apply Z.lt_le_trans with (2 ^ wid t * 2 ^ s); [apply Z.mul_lt_mono_pos_r; [apply pow_pos; lia|exact V2]|].
        rewrite <- Z.pow_add_r by (pose proof (wid_ge t); lia). apply pow_mono. pose proof (wid_ge t). lia.
      + left. rewrite promote_wide by exact L. reflexivity.
  Qed.
  Lemma shll_ub t x s : ~ 0 <= s < wid (promote t) -> shll il md t x s = UB.
  Proof. intros H. unfold shll. rewrite shl_ub; [reflexivity|now rewrite promote_uns]. Qed.

  Lemma shar_spec t x s : is_val t x -> 0 <= s < wid (promote t) ->
    exists r, shar il t x s = Ok r /\ is_val t r /\
      forall i, 0 <= i < wid t -> Z.testbit r i = Z.testbit x (if i + s <? wid t then i + s else wid t - 1).
  Proof.
    intros V Hs. unfold shar. rewrite shr_ok by (now rewrite promote_sig). cbn [bind]. eexists. split; [reflexivity|]. split; [apply conv_val|].
    intros i Hi. rewrite conv_bits by exact Hi. rewrite Z.shiftr_spec by lia. destruct (Z.ltb_spec (i + s) (wid t)).
    - apply conv_bits. rewrite wid_sig. lia.
    - pose proof (wid_ge t) as W8. rewrite <- (conv_bits (sig t) x (wid t - 1)) by (rewrite wid_sig; lia).
      pose proof (conv_val (sig t) x) as [V1 V2]. rewrite wid_sig in *. set (y := conv (sig t) x) in *.
      assert (HI : forall j, wid t - 1 <= j -> Z.testbit y j = (y <? 0)).
      { intros j Hj. destruct (Z.ltb_spec y 0) as [N|N].
        - apply Z.bits_above_log2_neg; [exact N|]. destruct (Z.eq_dec (Z.pred (- y)) 0) as [E|E]; [rewrite E; cbn; lia|].
          apply Z.lt_le_trans with (wid t - 1); [|exact Hj]. apply Z.log2_lt_pow2; lia.
        - destruct (Z.eq_dec y 0) as [->|E]; [apply Z.bits_0|]. apply Z.bits_above_log2; [exact N|].
          apply Z.lt_le_trans with (wid t - 1); [|exact Hj]. apply Z.log2_lt_pow2; lia. }
      now rewrite !HI by lia.
  Qed.
End B.
