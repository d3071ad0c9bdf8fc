(** Proofs about parity, bit_length, bit_reverse and carry_to_exp2. *)
From Coq Require Import List Arith ZArith Bool Lia.
From Verif Require Import Base BitModel BitSpec BitProof BitProof2 BitProof3.
Import ListNotations.
Open Scope Z_scope.

(** ** Exclusive or of a family of bits *)
Fixpoint xors (f : nat -> bool) (n : nat) : bool :=
  match n with O => false | S n => xorb (xors f n) (f n) end.
Lemma xors_ext f g n : (forall i, (i < n)%nat -> f i = g i) -> xors f n = xors g n.
Proof. induction n as [|n IH]; intros H; [reflexivity|]. cbn [xors]. rewrite IH, H by auto with arith. reflexivity. Qed.
Lemma xors_xor f g n : xors (fun i => xorb (f i) (g i)) n = xorb (xors f n) (xors g n).
Proof. induction n as [|n IH]; [reflexivity|]. cbn [xors]. rewrite IH. destruct (xors f n), (xors g n), (f n), (g n); reflexivity. Qed.
Lemma xors_add f a b : xors f (a + b) = xorb (xors f a) (xors (fun i => f (a + i)%nat) b).
Proof.
  induction b as [|b IH]; [rewrite Nat.add_0_r; cbn; now rewrite xorb_false_r|]. rewrite Nat.add_succ_r. cbn [xors]. rewrite IH. now rewrite xorb_assoc.
Qed.
Lemma xors_blocks f m n : xors (fun a => xors (fun j => f (m * a + j)%nat) m) n = xors f (m * n)%nat.
Proof.
  induction n as [|n IH]; [now rewrite Nat.mul_0_r|]. cbn [xors]. rewrite IH. rewrite Nat.mul_succ_r, xors_add. reflexivity.
Qed.
Lemma xors_count x n : (if xors (fun i => Z.testbit x (Z.of_nat i)) n then 1 else 0) = count_ones x n mod 2.
Proof.
  induction n as [|n IH]; [reflexivity|]. cbn [xors count_ones]. rewrite Z.add_mod, <- IH by lia.
  destruct (xors _ n), (Z.testbit x (Z.of_nat n)); reflexivity.
Qed.

Section B.
  Variable il : nat.
  Variable md : bool.
  Variable bi : bool.
  Notation promote := (promote il).

  Lemma xorshift t x s : 0 <= s < wid t -> exists y, shlr il t x s = Ok y /\
    forall i, 0 <= i -> i + s < wid t -> Z.testbit (Z.lxor x y) i = xorb (Z.testbit x i) (Z.testbit x (i + s)).
  Proof.
    intros Hs. pose proof (promote_wid il t). destruct (shlr_spec il t x s) as (y & E & _ & B); [lia|]. exists y. split; [exact E|].
    intros i Hi Hi'. rewrite Z.lxor_spec, B by lia. destruct (Z.ltb_spec (i + s) (wid t)); [reflexivity|lia].
  Qed.

  Lemma parity_bits4_ok t x : exists r, parity_bits4 il t x = Ok r /\
    forall i, 0 <= i -> i + 4 < wid t -> Z.testbit r i = xorb (Z.testbit x i) (Z.testbit x (i + 4)).
  Proof.
    pose proof (wid_ge t). unfold parity_bits4. destruct (xorshift t x 4) as (y & -> & B); [lia|]. cbn [bind]. eexists. split; [reflexivity|].
    intros i H1 H2. rewrite conv_bits by lia. now apply B.
  Qed.
  Lemma parity_bits2_ok t x : exists r, parity_bits2 il t x = Ok r /\
    forall i, 0 <= i -> i + 6 < wid t -> Z.testbit r i =
      xorb (xorb (Z.testbit x i) (Z.testbit x (i + 2))) (xorb (Z.testbit x (i + 4)) (Z.testbit x (i + 6))).
  Proof.
    pose proof (wid_ge t). pose proof (promote_wid il t). unfold parity_bits2. destruct (xorshift t x 2) as (y & -> & B); [lia|]. cbn [bind].
    destruct (parity_bits4_ok (promote t) (Z.lxor x y)) as (r & -> & R). cbn [bind]. eexists. split; [reflexivity|].
    intros i H1 H2. rewrite conv_bits, R, !B by lia. now replace (i + 4 + 2) with (i + 6) by lia.
  Qed.
  Lemma parity_bits1_ok t x : exists r, parity_bits1 il t x = Ok r /\
    forall i, 0 <= i -> i + 7 < wid t -> Z.testbit r i = xors (fun j => Z.testbit x (i + Z.of_nat j)) 8.
  Proof.
    pose proof (wid_ge t). pose proof (promote_wid il t). unfold parity_bits1. destruct (xorshift t x 1) as (y & -> & B); [lia|]. cbn [bind].
    destruct (parity_bits2_ok (promote t) (Z.lxor x y)) as (r & -> & R). cbn [bind]. eexists. split; [reflexivity|].
    intros i H1 H2. rewrite conv_bits, R, !B by lia. cbn [xors Z.of_nat].
    change (Z.pos (Pos.of_succ_nat 0)) with 1. change (Z.pos (Pos.of_succ_nat 1)) with 2. change (Z.pos (Pos.of_succ_nat 2)) with 3.
    change (Z.pos (Pos.of_succ_nat 3)) with 4. change (Z.pos (Pos.of_succ_nat 4)) with 5. change (Z.pos (Pos.of_succ_nat 5)) with 6.
    change (Z.pos (Pos.of_succ_nat 6)) with 7. rewrite Z.add_0_r.
    replace (i + 2 + 1) with (i + 3) by lia. replace (i + 4 + 1) with (i + 5) by lia. replace (i + 6 + 1) with (i + 7) by lia.
    destruct (Z.testbit x i), (Z.testbit x (i + 1)), (Z.testbit x (i + 2)), (Z.testbit x (i + 3)), (Z.testbit x (i + 4)),
      (Z.testbit x (i + 5)), (Z.testbit x (i + 6)), (Z.testbit x (i + 7)); reflexivity.
  Qed.
  Lemma parity_bytes_ok : forall k t z, 8 * 2 ^ Z.of_nat k <= wid t -> exists r, parity_bytes il k t z = Ok r /\
    Z.testbit r 0 = xors (fun a => Z.testbit z (Z.of_nat (8 * a))) (2 ^ k).
  Proof.
    induction k as [|k IH]; intros t z Hw; cbn [parity_bytes].
    - exists z. split; [reflexivity|]. cbn [Nat.pow xors]. cbn. now destruct (Z.odd z), (Z.testbit z 0).
    - rewrite Nat2Z.inj_succ, Z.pow_succ_r in Hw by lia. pose proof (pow_pos (Z.of_nat k) ltac:(lia)). pose proof (promote_wid il t).
      destruct (xorshift t z (8 * 2 ^ Z.of_nat k)) as (y & -> & B); [lia|]. cbn [bind].
      destruct (IH (promote t) (Z.lxor z y)) as (r & -> & R); [lia|]. cbn [bind]. eexists. split; [reflexivity|].
      rewrite conv_bits by (pose proof (wid_ge t); lia). rewrite R.
      assert (PE : Z.of_nat (2 ^ k) = 2 ^ Z.of_nat k) by (now rewrite Nat2Z.inj_pow).
      rewrite (xors_ext _ (fun a => xorb (Z.testbit z (Z.of_nat (8 * a))) (Z.testbit z (Z.of_nat (8 * (2 ^ k + a)))))).
      + rewrite xors_xor. rewrite Nat.pow_succ_r', Nat.mul_succ_l, Nat.mul_1_l. now rewrite xors_add.
      + intros a Ha. rewrite B by lia. f_equal. f_equal. lia.
  Qed.

  Lemma parity_lemma t x : parity il bi t x = Ok (ones_in t x mod 2).
  Proof.
    unfold parity. rewrite ones_in_count. destruct (has_builtin il bi t); [reflexivity|].
    destruct (parity_bits1_ok t x) as (y & -> & Y). cbn [bind].
    destruct (parity_bytes_ok (lg t) t y) as (r & -> & R); [unfold wid, bytes; lia|]. cbn [bind]. f_equal.
    assert (WN : Z.to_nat (wid t) = (8 * 2 ^ lg t)%nat).
    { unfold wid, bytes. apply Nat2Z.inj. rewrite Z2Nat.id by (pose proof (pow_pos (Z.of_nat (lg t)) ltac:(lia)); lia).
      rewrite Nat2Z.inj_mul, Nat2Z.inj_pow. reflexivity. }
    rewrite <- xors_count. rewrite WN, <- xors_blocks.
    rewrite (xors_ext _ (fun a => Z.testbit y (Z.of_nat (8 * a)))), <- R.
    - change 1 with (Z.ones 1) at 1. rewrite Z.land_ones by lia. change (2 ^ 1) with 2.
      rewrite <- (conv_bits (int_t il) r 0) by (pose proof (wid_ge (int_t il)); lia). rewrite Z.bit0_odd.
      rewrite Zmod_odd. reflexivity.
    - intros a Ha. assert (WZ : wid t = 8 * Z.of_nat (2 ^ lg t)) by (unfold wid, bytes; now rewrite Nat2Z.inj_pow).
      rewrite Y by lia. apply xors_ext. intros j Hj. f_equal. lia.
  Qed.

  (** ** bit_length *)
  Definition len (x : Z) : Z := if x =? 0 then 0 else Z.log2 x + 1.
  Lemma len_table : forallb (fun i => match nth_error bit_len_8_table i with Some r => r =? len (Z.of_nat i) | None => false end) (seq 0 256) = true.
  Proof. vm_compute. reflexivity. Qed.
  Lemma len_rd y : 0 <= y < 256 -> rd bit_len_8_table (Z.to_nat y) = Ok (len y).
  Proof.
    intros H. pose proof len_table as T. rewrite forallb_forall in T. specialize (T (Z.to_nat y)).
    unfold rd. destruct (nth_error _ _) as [r|].
    - rewrite Z2Nat.id in T by lia. rewrite Z.eqb_eq in T. rewrite T; [reflexivity|]. apply in_seq. lia.
    - exfalso. assert (false = true); [|discriminate]. apply T. apply in_seq. lia.
  Qed.
  Lemma land255 y : Z.land y 255 = y mod 256.
  Proof. change 255 with (Z.ones 8). rewrite Z.land_ones by lia. reflexivity. Qed.

  Lemma len_val t x : 0 <= x < 2 ^ wid t -> is_val t (len x) /\ 0 <= len x <= wid t.
  Proof.
    intros H. pose proof (wid_ge t) as W8. assert (B : 0 <= len x <= wid t).
    { unfold len. destruct (Z.eqb_spec x 0); [lia|]. pose proof (Z.log2_nonneg x). pose proof (proj1 (Z.log2_lt_pow2 x (wid t) ltac:(lia)) ltac:(lia)). lia. }
    split; [|exact B]. apply val_small. split; [lia|].
    assert (G : forall n, 8 <= n -> n < 2 ^ (n - 1)).
    { intros n Hn. pattern n. apply (Zlt_lower_bound_ind _ 8); [|exact Hn]. intros m IH Hm. destruct (Z.eq_dec m 8) as [->|]; [reflexivity|].
      specialize (IH (m - 1) ltac:(lia)). replace (m - 1) with (Z.succ (m - 1 - 1)) at 1 by lia. rewrite Z.pow_succ_r by lia. lia. }
    specialize (G (wid t) W8). lia.
  Qed.
  Lemma wid_val t : is_val t (wid t).
  Proof.
    pose proof (wid_ge t). pose proof (half_pos t). pose proof (wid_half t). destruct (len_val t (2 ^ (wid t - 1)) ltac:(lia)) as [V _]. revert V. unfold len.
    destruct (Z.eqb_spec (2 ^ (wid t - 1)) 0); [lia|]. rewrite Z.log2_pow2 by lia. now replace (wid t - 1 + 1) with (wid t) by lia.
  Qed.

  Lemma bit_len_ok t x : 0 <= x < 2 ^ wid t -> forall n, 8 * Z.of_nat (S n) <= wid t -> x < 2 ^ (8 * Z.of_nat (S n)) ->
    bit_len il n t x = Ok (len x).
  Proof.
    intros V. induction n as [|n IH]; intros Hn Hx.
    - cbn [bit_len]. rewrite land255. change (2 ^ (8 * Z.of_nat 1)) with 256 in Hx. rewrite Z.mod_small by lia. rewrite len_rd by lia. cbn [bind].
      now rewrite conv_id by now apply len_val.
    - cbn [bit_len]. pose proof (promote_wid il t). rewrite shr_ok by lia. cbn [bind]. rewrite land255. rewrite Z.shiftr_div_pow2 by lia.
      set (e := 8 * Z.of_nat (S n)) in *. pose proof (pow_pos e ltac:(lia)) as PP.
      assert (Hy : 0 <= x / 2 ^ e < 256).
      { split; [apply Z.div_pos; lia|]. apply Z.div_lt_upper_bound; [lia|]. change 256 with (2 ^ 8). rewrite <- Z.pow_add_r by lia.
        replace (e + 8) with (8 * Z.of_nat (S (S n))) by lia. exact Hx. }
      rewrite Z.mod_small by exact Hy. rewrite len_rd by exact Hy. cbn [bind]. unfold len at 1 2.
      destruct (Z.eqb_spec (x / 2 ^ e) 0) as [E|E].
      + cbn [negb Z.eqb]. apply IH; [lia|]. apply Z.div_small_iff in E; lia.
      + pose proof (Z.log2_nonneg (x / 2 ^ e)). destruct (Z.eqb_spec (Z.log2 (x / 2 ^ e) + 1) 0) as [|_]; [lia|]. cbn [negb].
        assert (L : len x = Z.log2 (x / 2 ^ e) + 1 + e).
        { assert (2 ^ e <= x). { destruct (Z_lt_ge_dec x (2 ^ e)); [|lia]. exfalso. apply E. apply Z.div_small. lia. }
          unfold len. destruct (Z.eqb_spec x 0); [lia|]. rewrite <- Z.shiftr_div_pow2 by lia. rewrite Z.log2_shiftr by lia.
          rewrite Z.max_r; [lia|]. apply Z.log2_le_mono in H1. rewrite Z.log2_pow2 in H1 by lia. lia. }
        rewrite <- L. now rewrite conv_id by now apply len_val.
  Qed.
  Lemma bytes_nat t : wid t = 8 * Z.of_nat (S (Z.to_nat (bytes t) - 1)).
  Proof. unfold wid. pose proof (bytes_pos t). lia. Qed.
  Lemma bit_length_lemma t x : is_val t x -> 0 <= x ->
    exists n, bit_length il t x = Ok n /\ 0 <= n <= wid t /\ x < 2 ^ n /\ forall m, 0 <= m -> x < 2 ^ m -> n <= m.
  Proof.
    intros V Hx. assert (B : 0 <= x < 2 ^ wid t).
    { pose proof (half_pos t). pose proof (wid_half t). revert V. unfold is_val. destruct (sgn t); lia. }
    exists (len x). split; [unfold bit_length; apply bit_len_ok; auto; rewrite <- bytes_nat; lia|]. split; [now apply len_val|].
    unfold len. destruct (Z.eqb_spec x 0) as [->|N].
    - split; [reflexivity|lia].
    - pose proof (Z.log2_spec x ltac:(lia)) as LS. split; [apply LS|]. intros m Hm H.
      pose proof (proj1 (Z.log2_lt_pow2 x m ltac:(lia)) H). lia.
  Qed.
  Lemma bit_length_neg t x : is_val t x -> x < 0 -> bit_length il t x = Ok (wid t).
  Proof.
    intros V Hx. assert (S : sgn t = true) by (revert V; unfold is_val; destruct (sgn t); [auto|lia]).
    assert (V' := V). unfold is_val in V'. rewrite S in V'. pose proof (wid_ge t) as W8. pose proof (promote_wid il t).
    assert (G : forall b, 128 <= b < 256 -> len b = 8).
    { intros b Hb. unfold len. destruct (Z.eqb_spec b 0); [lia|]. assert (Z.log2 b = 7); [|lia]. apply Z.log2_unique; lia. }
    unfold bit_length. destruct (Z.to_nat (bytes t) - 1)%nat as [|n] eqn:En.
    - pose proof (bytes_nat t) as BN. rewrite En in BN. change (wid t = 8) in BN. rewrite BN in V'. change (2 ^ (8 - 1)) with 128 in V'. cbn [bit_len]. rewrite land255.
      assert (M : x mod 256 = x + 256) by (rewrite <- (Z.mod_add x 1) by lia; apply Z.mod_small; lia).
      rewrite M, len_rd by lia. cbn [bind]. rewrite G by lia. rewrite BN. rewrite conv_id; [reflexivity|]. rewrite <- BN. apply wid_val.
    - cbn [bit_len]. pose proof (bytes_nat t) as BN. rewrite En in BN. rewrite shr_ok by lia. cbn [bind]. rewrite land255, Z.shiftr_div_pow2 by lia.
      set (e := 8 * Z.of_nat (Datatypes.S n)) in *. assert (We : wid t = e + 8) by lia. pose proof (pow_pos e ltac:(lia)) as PP.
      assert (P7 : 2 ^ (wid t - 1) = 128 * 2 ^ e) by (rewrite We; replace (e + 8 - 1) with (7 + e) by lia; rewrite Z.pow_add_r by lia; reflexivity).
      assert (Hq : -128 <= x / 2 ^ e < 0). { split; [apply Z.div_le_lower_bound; lia|apply Z.div_lt_upper_bound; lia]. }
      assert (M : (x / 2 ^ e) mod 256 = x / 2 ^ e + 256) by (rewrite <- (Z.mod_add (x / 2 ^ e) 1) by lia; apply Z.mod_small; lia).
      rewrite M, len_rd by lia. cbn [bind]. rewrite G by lia. cbn [Z.eqb negb]. change (8 =? 0) with false. cbn [negb]. f_equal.
      replace (8 + e) with (wid t) by lia. apply conv_id, wid_val.
  Qed.

  (** ** bit_reverse *)
  Lemma rev_table : forallb (fun i => match nth_error bit_rev_8_table i with
      | Some r => (0 <=? r) && (r <? 256) && forallb (fun j => Bool.eqb (Z.testbit r (Z.of_nat j)) (Z.testbit (Z.of_nat i) (7 - Z.of_nat j))) (seq 0 8)
      | None => false end) (seq 0 256) = true.
  Proof. vm_compute. reflexivity. Qed.
  Lemma rev_rd y : 0 <= y < 256 -> exists r, rd bit_rev_8_table (Z.to_nat y) = Ok r /\ 0 <= r < 256 /\
    forall j, 0 <= j < 8 -> Z.testbit r j = Z.testbit y (7 - j).
  Proof.
    intros H. pose proof rev_table as T. rewrite forallb_forall in T. specialize (T (Z.to_nat y) ltac:(apply in_seq; lia)).
    unfold rd. destruct (nth_error _ _) as [r|]; [|discriminate]. rewrite !andb_true_iff, Z.leb_le, Z.ltb_lt in T. destruct T as [[T1 T2] T3].
    exists r. split; [reflexivity|]. split; [lia|]. intros j Hj. rewrite forallb_forall in T3. specialize (T3 (Z.to_nat j) ltac:(apply in_seq; lia)).
    rewrite Bool.eqb_true_iff in T3. rewrite !Z2Nat.id in T3 by lia. exact T3.
  Qed.

  Lemma bit_rev_ok : forall k t x, 8 * 2 ^ Z.of_nat k <= wid t -> (sgn t = true -> 8 * 2 ^ Z.of_nat k < wid t) ->
    exists r, bit_rev il md k t x = Ok r /\ 0 <= r < 2 ^ (8 * 2 ^ Z.of_nat k) /\
      forall i, 0 <= i < 8 * 2 ^ Z.of_nat k -> Z.testbit r i = Z.testbit x (8 * 2 ^ Z.of_nat k - 1 - i).
  Proof.
    assert (CV : forall t z n, 0 < n -> n <= wid t -> (sgn t = true -> n < wid t) -> 0 <= z < 2 ^ n -> conv t z = z).
    { intros t z n Hn Hw S Hz. apply conv_id. unfold is_val. destruct (sgn t).
      - pose proof (pow_mono n (wid t - 1) ltac:(lia)). lia.
      - pose proof (pow_mono n (wid t) ltac:(lia)). lia. }
    induction k as [|k IH]; intros t x Hw Hs; cbn [bit_rev].
    - rewrite land255. destruct (rev_rd (x mod 256)) as (r & -> & R1 & R2); [apply Z.mod_pos_bound; lia|]. cbn [bind].
      change (8 * 2 ^ Z.of_nat 0) with 8 in *. exists r. rewrite (CV t r 8) by (auto; try lia; exact R1). split; [reflexivity|]. split; [exact R1|].
      intros i Hi. rewrite R2 by lia. change 256 with (2 ^ 8). rewrite mod_bits by lia. reflexivity.
    - rewrite Nat2Z.inj_succ, Z.pow_succ_r in * by lia. cbv zeta. pose proof (pow_pos (Z.of_nat k) ltac:(lia)) as PK.
      set (h := 8 * 2 ^ Z.of_nat k) in *. replace (8 * (2 * 2 ^ Z.of_nat k)) with (2 * h) in * by lia.
      pose proof (promote_wid il t) as PW.
      assert (PS : sgn (promote t) = true -> 2 * h < wid (promote t)).
      { destruct (Nat.lt_ge_cases (lg t) il) as [L|L]; [destruct (promote_narrow il t L); lia|rewrite promote_wide by exact L; exact Hs]. }
      destruct (IH t x) as (a & -> & A1 & A2); [lia|lia|]. cbn [bind].
      assert (A3 : 0 <= a * 2 ^ h < 2 ^ (2 * h)).
      { pose proof (pow_pos h ltac:(lia)). replace (2 * h) with (h + h) by lia. rewrite Z.pow_add_r by lia. nia. }
      rewrite shl_ok.
      2:{ lia. }
      2:{ right. right. pose proof (pow_mono (2 * h) (wid (promote t)) ltac:(lia)). lia. }
      cbn [bind]. rewrite (CV (promote t) (a * 2 ^ h) (2 * h)) by (auto; lia). rewrite shr_ok by lia. cbn [bind].
      destruct (IH (promote t) (Z.shiftr x h)) as (b & -> & B1 & B2); [lia|lia|]. cbn [bind]. eexists. split; [reflexivity|].
      assert (LB : 0 <= Z.lor (a * 2 ^ h) b < 2 ^ (2 * h)).
      { split; [apply Z.lor_nonneg; lia|]. pose proof (pow_mono h (2 * h) ltac:(lia)).
        destruct (Z.eq_dec (Z.lor (a * 2 ^ h) b) 0) as [->|]; [apply pow_pos; lia|].
        assert (0 <= Z.lor (a * 2 ^ h) b) by (apply Z.lor_nonneg; lia). apply Z.log2_lt_pow2; [lia|]. rewrite Z.log2_lor by lia.
        apply Z.max_lub_lt.
        - destruct (Z.eq_dec (a * 2 ^ h) 0) as [->|]; [change (Z.log2 0) with 0; lia|]. apply Z.log2_lt_pow2; lia.
        - destruct (Z.eq_dec b 0) as [->|]; [change (Z.log2 0) with 0; lia|]. apply Z.log2_lt_pow2; lia. }
      rewrite (CV t _ (2 * h)) by (auto; lia). split; [exact LB|]. intros i Hi. rewrite Z.lor_spec, mul_bits by lia.
      destruct (Z.leb_spec h i) as [G|G]; cbn [andb orb].
      + rewrite A2 by lia. replace (Z.testbit b i) with false; [rewrite orb_false_r; f_equal; lia|].
        symmetry. destruct (Z.eq_dec b 0) as [->|]; [apply Z.bits_0|]. apply Z.bits_above_log2; [lia|].
        apply Z.lt_le_trans with h; [apply Z.log2_lt_pow2; lia|lia].
      + rewrite B2 by lia. rewrite Z.shiftr_spec by lia. f_equal. lia.
  Qed.

  Lemma bit_reverse_lemma t x : exists r, bit_reverse il md t x = Ok r /\ has_bits t r (fun i => Z.testbit x (wid t - 1 - i) = true).
  Proof.
    unfold bit_reverse. destruct (bit_rev_ok (lg t) (uns t) (conv (uns t) x)) as (r & -> & R1 & R2).
    - unfold wid, bytes. cbn [lg uns]. lia.
    - discriminate.
    - cbn [bind]. eexists. split; [reflexivity|]. apply bits_intro. intros i Hi. change (8 * 2 ^ Z.of_nat (lg t)) with (wid t) in R2.
      rewrite R2 by exact Hi. rewrite conv_bits by (rewrite wid_uns; lia). reflexivity.
  Qed.
  Lemma bit_reverse_involutive_lemma t x : is_val t x -> exists r, bit_reverse il md t x = Ok r /\ bit_reverse il md t r = Ok x.
  Proof.
    intros V. destruct (bit_reverse_lemma t x) as (r & E & Vr & B). exists r. split; [exact E|].
    destruct (bit_reverse_lemma t r) as (z & -> & Vz & B'). f_equal. apply (val_ext t); auto. intros i Hi.
    specialize (B' i Hi). specialize (B (wid t - 1 - i) ltac:(lia)). replace (wid t - 1 - (wid t - 1 - i)) with i in B by lia.
    destruct (Z.testbit z i), (Z.testbit x i), (Z.testbit r (wid t - 1 - i)); intuition congruence.
  Qed.
  Lemma bit_reverse_in_lemma t x n : 0 < n <= wid t ->
    exists r, bit_reverse_in il md t x n = Ok r /\ has_bits t r (fun i => i < n /\ Z.testbit x (n - 1 - i) = true).
  Proof.
    intros Hn. unfold bit_reverse_in. destruct (Z.leb_spec 0 n), (Z.leb_spec n (wid t)); try lia. cbn [andb].
    destruct (bit_rev_ok (lg t) (uns t) (conv (uns t) x)) as (r & -> & R1 & R2).
    - unfold wid, bytes. cbn [lg uns]. lia.
    - discriminate.
    - cbn [bind]. change (8 * 2 ^ Z.of_nat (lg t)) with (wid t) in *. pose proof (promote_wid il (uns t)). rewrite wid_uns in *. rewrite shr_ok by lia.
      cbn [bind]. eexists. split; [reflexivity|]. apply bits_intro. intros i Hi. rewrite Z.shiftr_spec by lia.
      destruct (Z_lt_ge_dec i n) as [L|L].
      + rewrite R2 by lia. rewrite conv_bits by (rewrite wid_uns; lia). replace (wid t - 1 - (i + (wid t - n))) with (n - 1 - i) by lia. intuition lia.
      + rewrite (uns_high t); [split; [discriminate|lia]|exact R1|lia].
  Qed.
  Lemma bit_reverse_in_0 t x : bit_reverse_in il md t x 0 = if Nat.ltb (lg t) il then Ok 0 else UB.
  Proof.
    unfold bit_reverse_in. pose proof (wid_ge t). destruct (Z.leb_spec 0 (wid t)); [|lia]. cbn [andb Z.leb]. change (0 <=? 0) with true. cbn [andb].
    destruct (bit_rev_ok (lg t) (uns t) (conv (uns t) x)) as (r & -> & R1 & _).
    - unfold wid, bytes. cbn [lg uns]. lia.
    - discriminate.
    - cbn [bind]. change (8 * 2 ^ Z.of_nat (lg t)) with (wid t) in *. destruct (Nat.ltb_spec (lg t) il) as [L|L].
      + destruct (promote_narrow il (uns t) L) as [_ Hw]. rewrite wid_uns in Hw. rewrite shr_ok by lia. cbn [bind].
        rewrite Z.shiftr_div_pow2 by lia. rewrite Z.sub_0_r, Z.div_small by lia. now rewrite conv_id by apply val_0.
      + rewrite promote_wide by exact L. rewrite shr_ub by (rewrite wid_uns; lia). reflexivity.
  Qed.
End B.
