(** Proofs about linear feedback shift registers. *)
From Coq Require Import List Arith ZArith Bool Lia.
From Verif Require Import Base BitModel BitSpec BitProof ShaModel LcgSpec LcgProof3 MtProof LfsrModel LfsrSpec.
Import ListNotations.
Open Scope Z_scope.

Lemma times_add m n f x : times (m + n) f x = times m f (times n f x).
Proof. revert x. induction n as [|n IH]; intros x; [rewrite Nat.add_0_r; reflexivity|]. rewrite Nat.add_succ_r. cbn [times]. apply IH. Qed.

Section R.
  Variable P : lfp.
  Hypothesis V : lf_valid P.
  Let w := fw P.
  Let k := fk P.
  Let q := fq P.
  Let s := fs P.

  Lemma V' : 0 < w <= wid (ft P) /\ 0 < q /\ k < w /\ 2 * q < k /\ 0 < s <= k - q.
  Proof. pose proof V as (_ & A). exact A. Qed.

  Lemma tick_range x : 0 <= tick P x < 2 ^ w.
  Proof. pose proof V'. apply Z.mod_pos_bound, pow_pos. lia. Qed.
  Lemma tick_0 x : Z.testbit (tick P x) 0 = feedback P x.
  Proof. pose proof V'. unfold tick. rewrite mod_bits by (unfold w in *; lia). apply Z.testbit_0_r. Qed.
  Lemma tick_S x i : 0 < i < w -> Z.testbit (tick P x) i = Z.testbit x (i - 1).
  Proof.
    intros I. unfold tick. rewrite mod_bits by (unfold w in *; lia).
    replace i with (Z.succ (i - 1)) at 1 by lia. apply Z.testbit_succ_r. lia.
  Qed.
  Lemma ticks_range n x : 0 <= x < 2 ^ w -> 0 <= times n (tick P) x < 2 ^ w.
  Proof. revert x. induction n as [|n IH]; intros x X; [exact X|]. cbn [times]. apply IH, tick_range. Qed.
  Lemma ticks_high n : forall x i, Z.of_nat n <= i < w -> Z.testbit (times n (tick P) x) i = Z.testbit x (i - Z.of_nat n).
  Proof.
    induction n as [|n IH]; intros x i I; [cbn [times]; f_equal; lia|].
    cbn [times]. rewrite IH by lia. rewrite tick_S by lia. f_equal. lia.
  Qed.
  (** a bit appended on the way *)
  Lemma ticks_low n x i : 0 <= i < Z.of_nat n -> Z.of_nat n - i <= k - q -> i < w ->
    Z.testbit (times n (tick P) x) i = xorb (Z.testbit x (i + k - Z.of_nat n)) (Z.testbit x (i + k - q - Z.of_nat n)).
  Proof.
    pose proof V' as (A & B & C & D & E). intros I J Iw.
    assert (exists m, n = (Z.to_nat i + S m)%nat) as [m ->] by (exists (n - Z.to_nat i - 1)%nat; lia).
    rewrite times_add. rewrite ticks_high by lia.
    replace (i - Z.of_nat (Z.to_nat i)) with 0 by lia.
    cbn [times]. rewrite <- (Nat.add_0_r m) at 1.
    rewrite times_shift. rewrite tick_0. unfold feedback. fold k q.
    rewrite !(ticks_high (m + 0)) by lia.
    f_equal; f_equal; lia.
  Qed.
  Lemma word_tick x : lf_word P x -> lf_word P (tick P x).
  Proof.
    pose proof V' as (A & B & C & D & E). intros [X R]. split; [apply tick_range|]. fold k q w in X, R. fold k q w.
    intros i I J. destruct (Z.eq_dec i 0) as [->|N].
    - rewrite tick_0. unfold feedback. fold k q. rewrite !tick_S by lia. f_equal; f_equal; lia.
    - rewrite !tick_S by lia. rewrite R by lia. f_equal; f_equal; lia.
  Qed.
  Lemma word_ticks n : forall x, lf_word P x -> lf_word P (times n (tick P) x).
  Proof. induction n as [|n IH]; intros x X; [exact X|]. cbn [times]. apply IH, word_tick, X. Qed.

  Lemma lead_range x : 0 <= x < 2 ^ w -> 0 <= lead_k P x < 2 ^ k.
  Proof.
    pose proof V' as (A & B & C & D & E). intros X. unfold lead_k. fold w k.
    pose proof (pow_pos (w - k) ltac:(lia)). split; [apply Z.div_pos; lia|].
    apply Z.div_lt_upper_bound; [lia|]. rewrite <- Z.pow_add_r by lia. replace (w - k + k) with w by lia. lia.
  Qed.
  Lemma lead_bit x i : 0 <= i -> Z.testbit (lead_k P x) i = Z.testbit x (i + (w - k)).
  Proof. pose proof V'. intros I. unfold lead_k. fold w k. rewrite Z.div_pow2_bits by lia. reflexivity. Qed.
  Lemma extend_high x i : w - k <= i < w -> Z.testbit (extend P x) i = Z.testbit x i.
  Proof.
    pose proof V' as (A & B & C & D & E). intros I. unfold extend. fold w k. rewrite ticks_high by lia. rewrite lead_bit by lia. f_equal. lia.
  Qed.
  Lemma ext_gen n x : Z.of_nat n <= w - k -> 0 <= x < 2 ^ k ->
    let y := times n (tick P) x in
    (forall i, k + Z.of_nat n <= i -> i < w -> Z.testbit y i = false) /\
    (forall i, 0 <= i < Z.of_nat n -> Z.testbit y i = xorb (Z.testbit y (i + k)) (Z.testbit y (i + k - q))).
  Proof.
    pose proof V' as (A & B & C & D & E). intros N X.
    assert (Hh : forall i, k <= i -> Z.testbit x i = false) by (apply lt_pow_bits; lia).
    induction n as [|n IH]; cbn zeta.
    - split; [intros; apply Hh; lia|intros; lia].
    - rewrite <- Nat.add_1_r, (Nat.add_comm n 1), times_add. cbn [times].
      destruct (IH ltac:(lia)) as [H1 H2]. set (y := times n (tick P) x) in *. split.
      + intros i I J. rewrite tick_S by lia. apply H1; lia.
      + intros i I. destruct (Z.eq_dec i 0) as [->|Ni].
        * rewrite tick_0. unfold feedback. fold k q. rewrite !tick_S by lia. f_equal; f_equal; lia.
        * rewrite !tick_S by lia. rewrite H2 by lia. f_equal; f_equal; lia.
  Qed.
  Lemma extend_word x : 0 <= x < 2 ^ w -> lf_word P (extend P x).
  Proof.
    pose proof V' as (A & B & C & D & E). intros X. pose proof (lead_range x X) as L.
    split.
    - apply ticks_range. pose proof (pow_mono k w ltac:(lia)). lia.
    - fold w k q. intros i I J. destruct (ext_gen (Z.to_nat (w - k)) (lead_k P x)) as [_ H]; [lia|exact L|].
      apply H. lia.
  Qed.
  Lemma extend_id x : lf_word P x -> extend P x = x.
  Proof.
    pose proof V' as (A & B & C & D & E). intros W. pose proof W as [X R]. pose proof (extend_word x X) as [Y R']. fold w k q in X, R, Y, R'.
    assert (H : forall n i, w - k - Z.of_nat n <= i -> 0 <= i < w -> Z.testbit (extend P x) i = Z.testbit x i).
    { induction n as [|n IH]; intros i I J; [apply extend_high; lia|].
      destruct (Z_le_gt_dec (w - k) i); [apply extend_high; lia|].
      rewrite R', R by lia. rewrite !IH by lia. reflexivity. }
    apply Z.bits_inj'. intros i I. destruct (Z_lt_ge_dec i w) as [L|L]; [apply (H (Z.to_nat (w - k))); lia|].
    rewrite (proj1 (lt_pow_bits (extend P x) w ltac:(lia) ltac:(lia)) Y i) by lia.
    rewrite (proj1 (lt_pow_bits x w ltac:(lia) ltac:(lia)) X i) by lia. reflexivity.
  Qed.

  Lemma ush md z n : 0 <= n < wid (ft P) -> shl md (ft P) z n = Ok ((z * 2 ^ n) mod 2 ^ wid (ft P)).
  Proof.
    pose proof V as (U & _). intros N. unfold shl.
    replace (0 <=? n) with true by (symmetry; apply Z.leb_le; lia). replace (n <? wid (ft P)) with true by (symmetry; apply Z.ltb_lt; lia).
    rewrite U. cbn [andb]. unfold conv. rewrite U. reflexivity.
  Qed.
  Lemma ushr z n : 0 <= n < wid (ft P) -> shr (ft P) z n = Ok (Z.shiftr z n).
  Proof.
    intros N. unfold shr.
    replace (0 <=? n) with true by (symmetry; apply Z.leb_le; lia). replace (n <? wid (ft P)) with true by (symmetry; apply Z.ltb_lt; lia). reflexivity.
  Qed.
  Lemma mask_bit i : 0 <= i -> Z.testbit (2 ^ w - 1) i = (i <? w).
  Proof.
    pose proof V'. intros I. rewrite Z.sub_1_r, <- Z.ones_equiv. destruct (i <? w) eqn:L.
    - apply Z.ltb_lt in L. apply Z.ones_spec_low. lia.
    - apply Z.ltb_ge in L. apply Z.ones_spec_high. lia.
  Qed.
  Lemma shm_bit z n i : 0 <= n -> 0 <= i < wid (ft P) -> Z.testbit ((z * 2 ^ n) mod 2 ^ wid (ft P)) i = (n <=? i) && Z.testbit z (i - n).
  Proof.
    intros N I. rewrite mod_bits by lia. rewrite <- Z.shiftl_mul_pow2 by lia. rewrite Z.shiftl_spec by lia.
    destruct (n <=? i) eqn:L; [reflexivity|]. apply Z.leb_gt in L. rewrite Z.testbit_neg_r by lia. reflexivity.
  Qed.

  (** the value of the step, bit by bit *)
  Lemma step_bits md x : 0 <= x -> exists y, lf_step md P x = Ok (y, y) /\ 0 <= y < 2 ^ wid (ft P) /\
    forall i, 0 <= i < w -> Z.testbit y i =
      if w - k + s <=? i then Z.testbit x (i - s) else xorb (Z.testbit x (i + k - s)) (Z.testbit x (i + k - s - q)).
  Proof.
    pose proof V' as (A & B & C & D & E). intros X.
    unfold lf_step. fold w k q s. unfold wordmask. fold w.
    rewrite ush by lia. cbn [bind]. rewrite ush by lia. cbn [bind]. rewrite ush by lia. cbn [bind]. rewrite ushr by lia. cbn [bind].
    eexists. split; [reflexivity|]. set (T := wid (ft P)) in *.
    assert (L0 : 0 <= Z.land (Z.lxor ((x * 2 ^ q) mod 2 ^ T) x) (2 ^ w - 1) < 2 ^ w).
    { apply land_lt; [lia| |pose proof (pow_pos w ltac:(lia)); lia]. apply Z.lxor_nonneg. split; [intros _; lia|]. intros _.
      apply Z.mod_pos_bound, pow_pos. lia. }
    split.
    { apply lxor_lt; [lia|apply Z.mod_pos_bound, pow_pos; lia|].
      rewrite Z.shiftr_div_pow2 by lia. pose proof (pow_pos (k - s) ltac:(lia)). pose proof (pow_mono w T ltac:(lia)).
      split; [apply Z.div_pos; lia|]. apply Z.div_lt_upper_bound; [lia|]. nia. }
    intros i I. rewrite Z.lxor_spec. rewrite shm_bit by (fold T; lia). rewrite Z.shiftr_spec by lia.
    rewrite !Z.land_spec, Z.lxor_spec, (mask_bit (i + (k - s))) by lia.
    destruct (w - k + s <=? i) eqn:Q.
    - apply Z.leb_le in Q. replace (s <=? i) with true by (symmetry; apply Z.leb_le; lia).
      replace (i + (k - s) <? w) with false by (symmetry; apply Z.ltb_ge; lia). rewrite andb_false_r, xorb_false_r.
      rewrite (shm_bit _ (w - k)) by (fold T; lia). replace (w - k <=? i - s) with true by (symmetry; apply Z.leb_le; lia).
      rewrite !mask_bit by lia. replace (i - s - (w - k) <? w) with true by (symmetry; apply Z.ltb_lt; lia).
      replace (i - s <? w) with true by (symmetry; apply Z.ltb_lt; lia). cbn [andb]. rewrite andb_true_r. reflexivity.
    - apply Z.leb_gt in Q. replace (i + (k - s) <? w) with true by (symmetry; apply Z.ltb_lt; lia). rewrite andb_true_r.
      assert (Z1 : (s <=? i) && (Z.testbit x (i - s) && (Z.testbit (((2 ^ w - 1) * 2 ^ (w - k)) mod 2 ^ T) (i - s) && Z.testbit (2 ^ w - 1) (i - s))) = false).
      { destruct (s <=? i) eqn:S1; [|reflexivity]. apply Z.leb_le in S1. rewrite (shm_bit _ (w - k)) by (fold T; lia).
        replace (w - k <=? i - s) with false by (symmetry; apply Z.leb_gt; lia). cbn [andb]. apply andb_false_r. }
      rewrite Z1, xorb_false_l. rewrite (shm_bit _ q) by (fold T; lia). replace (q <=? i + (k - s)) with true by (symmetry; apply Z.leb_le; lia).
      cbn [andb]. rewrite xorb_comm. f_equal; f_equal; lia.
  Qed.

  Lemma step_ticks md x y : 0 <= x -> lf_word P y -> (forall j, w - k <= j < w -> Z.testbit x j = Z.testbit y j) ->
    (forall j, k - s - q <= j < w -> Z.testbit x j = Z.testbit y j) ->
    exists z, lf_step md P x = Ok (z, z) /\ 0 <= z < 2 ^ wid (ft P) /\ z mod 2 ^ w = times (Z.to_nat s) (tick P) y.
  Proof.
    pose proof V' as (A & B & C & D & E). intros X W H1 H2. pose proof W as [Y R]. fold w k q in Y, R.
    destruct (step_bits md x X) as (z & Hz & Rz & Bz). exists z. split; [exact Hz|]. split; [exact Rz|].
    rewrite <- (Z.mod_small (times (Z.to_nat s) (tick P) y) (2 ^ w)) by (apply ticks_range, Y).
    apply bits_mod; [lia|]. intros i I. rewrite Bz by exact I.
    destruct (w - k + s <=? i) eqn:Q.
    - apply Z.leb_le in Q. rewrite ticks_high by lia. rewrite H1 by lia. f_equal. lia.
    - apply Z.leb_gt in Q. rewrite !H2 by lia. destruct (Z_le_gt_dec s i) as [S1|S1].
      + rewrite ticks_high by lia. rewrite (R (i - Z.of_nat (Z.to_nat s))) by lia. f_equal; f_equal; lia.
      + rewrite ticks_low by lia. f_equal; f_equal; lia.
  Qed.

  Lemma mod_agree x y j : 0 <= j < w -> x mod 2 ^ w = y -> Z.testbit x j = Z.testbit y j.
  Proof. intros J <-. symmetry. apply mod_bits. lia. Qed.

  Lemma lf_step_word_lemma md x : 0 <= x -> lf_word P (x mod 2 ^ w) ->
    exists z, lf_step md P x = Ok (z, z) /\ 0 <= z < 2 ^ wid (ft P) /\ z mod 2 ^ w = times (Z.to_nat s) (tick P) (x mod 2 ^ w).
  Proof.
    pose proof V' as (A & B & C & D & E). intros X W.
    apply step_ticks; [exact X|exact W| |]; intros j J; symmetry; apply mod_bits; lia.
  Qed.
  Lemma lf_step_any_lemma md x : 0 <= x -> w - k <= k - s - q ->
    exists z, lf_step md P x = Ok (z, z) /\ 0 <= z < 2 ^ wid (ft P) /\ z mod 2 ^ w = times (Z.to_nat s) (tick P) (extend P (x mod 2 ^ w)).
  Proof.
    pose proof V' as (A & B & C & D & E). intros X G.
    assert (Rm : 0 <= x mod 2 ^ w < 2 ^ w) by (apply Z.mod_pos_bound, pow_pos; lia).
    apply step_ticks; [exact X|apply extend_word, Rm| |]; intros j J; rewrite extend_high by lia; symmetry; apply mod_bits; lia.
  Qed.

  (** a word of the full width of the type *)
  Hypothesis F : w = wid (ft P).
  Lemma lf_run_word md n : forall y, lf_word P y ->
    run (lf_step md P) n y = Ok (map (fun i => times (Z.to_nat s * S i) (tick P) y) (seq 0 n)).
  Proof.
    induction n as [|n IH]; intros y W; [reflexivity|]. pose proof W as [Y R]. fold w in Y.
    destruct (lf_step_word_lemma md y) as (z & Hz & Rz & Mz); [lia|rewrite Z.mod_small by lia; exact W|].
    rewrite (Z.mod_small y), <- F, ?Z.mod_small in * by lia.
    cbn [run]. rewrite Hz. cbn [bind fst snd]. subst z. rewrite IH by apply word_ticks, W. cbn [bind].
    cbn [seq map]. rewrite <- seq_shift, map_map. rewrite Nat.mul_1_r. do 2 f_equal. apply map_ext. intros i.
    rewrite <- times_add. f_equal. lia.
  Qed.
  Lemma lf_run_lemma md n x : 0 <= x < 2 ^ w -> w - k <= k - s - q \/ lf_word P x ->
    run (lf_step md P) n x = Ok (map (lf_out P x) (seq 0 n)).
  Proof.
    intros X [G|W]; [|unfold lf_out; rewrite extend_id by exact W; apply lf_run_word, W].
    destruct n as [|n]; [reflexivity|].
    destruct (lf_step_any_lemma md x) as (z & Hz & Rz & Mz); [lia|exact G|].
    rewrite (Z.mod_small x), <- F, ?Z.mod_small in * by lia.
    cbn [run]. rewrite Hz. cbn [bind fst snd]. subst z. rewrite lf_run_word by apply word_ticks, extend_word, X. cbn [bind].
    cbn [seq map]. rewrite <- seq_shift, map_map. unfold lf_out at 1. fold s. rewrite Nat.mul_1_r. do 2 f_equal. apply map_ext. intros i.
    unfold lf_out. fold s. rewrite <- times_add. f_equal. lia.
  Qed.
  Lemma lf_range_lemma x i : 0 <= x < 2 ^ w -> 0 <= lf_out P x i <= lf_max P.
  Proof.
    intros X. unfold lf_out, lf_max, wordmask. fold w.
    pose proof (ticks_range (Z.to_nat (fs P) * S i) (extend P x) (proj1 (extend_word x X))). lia.
  Qed.

  Lemma lead_zero x : 0 <= x < 2 ^ w -> lead_k P x = 0 <-> forall i, w - k <= i < w -> Z.testbit x i = false.
  Proof.
    pose proof V' as (A & B & C & D & E). intros X. split; intros H.
    - intros i I. replace i with (i - (w - k) + (w - k)) by lia. rewrite <- lead_bit by lia. rewrite H. apply Z.bits_0.
    - apply Z.bits_inj'. intros i I. rewrite Z.bits_0, lead_bit by lia.
      destruct (Z_lt_ge_dec (i + (w - k)) w); [apply H; lia|]. apply (proj1 (lt_pow_bits x w ltac:(lia) ltac:(lia)) X). lia.
  Qed.
  Lemma tick_nonzero y : lf_word P y -> lead_k P y <> 0 -> lead_k P (tick P y) <> 0.
  Proof.
    pose proof V' as (A & B & C & D & E). intros [Y R] N Z0. apply N. fold w k q in Y, R.
    apply (lead_zero y Y). pose proof (proj1 (lead_zero _ (tick_range y)) Z0) as H.
    assert (L : forall i, w - k - 1 <= i < w - 1 -> Z.testbit y i = false).
    { intros i I. replace i with (i + 1 - 1) by lia. rewrite <- tick_S by lia. apply H. lia. }
    intros i I. destruct (Z.eq_dec i (w - 1)) as [->|Ni]; [|apply L; lia].
    pose proof (R (w - 1 - k) ltac:(lia) ltac:(lia)) as Q. rewrite L in Q by lia.
    replace (w - 1 - k + k) with (w - 1) in Q by lia. rewrite (L (w - 1 - q)) in Q by lia. rewrite xorb_false_r in Q. congruence.
  Qed.
  Lemma lf_alive_lemma x i : 0 <= x < 2 ^ w -> lead_k P x <> 0 -> lead_k P (lf_out P x i) <> 0 /\ 0 < lf_out P x i.
  Proof.
    intros X N.
    assert (G : forall n y, lf_word P y -> lead_k P y <> 0 -> lead_k P (times n (tick P) y) <> 0).
    { induction n as [|n IH]; intros y W Ny; [exact Ny|]. cbn [times]. apply IH; [apply word_tick, W|apply tick_nonzero; assumption]. }
    pose proof (extend_word x X) as W.
    assert (Q : lead_k P (lf_out P x i) <> 0).
    { apply G; [exact W|]. intros Z0. apply N. apply (lead_zero x X). intros j J. rewrite <- extend_high by exact J.
      apply (proj1 (lead_zero _ (proj1 W)) Z0). exact J. }
    split; [exact Q|]. pose proof (lf_range_lemma x i X). destruct (Z.eq_dec (lf_out P x i) 0) as [E0|]; [|lia].
    exfalso. apply Q. rewrite E0. apply Z.div_0_l. pose proof V'. pose proof (pow_pos (fw P - fk P) ltac:(fold w k; lia)). lia.
  Qed.
End R.

Lemma lf_seed_lemma md P x0 : lf_valid P -> fw P - fk P <= 30 -> 0 <= x0 ->
  exists x, lf_seed md P x0 = Ok x /\ 0 <= x < 2 ^ fw P /\ lead_k P x <> 0 /\
    x = (if 2 ^ (fw P - fk P) <=? x0 mod 2 ^ fw P then x0 mod 2 ^ fw P else x0 mod 2 ^ fw P + 2 ^ (fw P - fk P)).
Proof.
  intros V L X. pose proof (V' P V) as (A & B & C & D & E). set (w := fw P) in *. set (k := fk P) in *.
  pose proof (pow_pos (w - k) ltac:(lia)) as P0. pose proof (pow_mono (w - k) 30 ltac:(lia)) as P1.
  pose proof (pow_strict (w - k + 1) w ltac:(lia)) as P2. rewrite Z.pow_add_r, Z.pow_1_r in P2 by lia.
  pose proof (pow_mono w (wid (ft P)) ltac:(lia)) as P3.
  unfold lf_seed, lf_seed_1. unfold wordmask. fold w k. rewrite land_low by lia.
  assert (S1 : shl md i32 1 (w - k) = Ok (2 ^ (w - k))).
  { unfold shl. change (wid i32) with 32. replace (0 <=? w - k) with true by (symmetry; apply Z.leb_le; lia).
    replace (w - k <? 32) with true by (symmetry; apply Z.ltb_lt; lia). cbn [andb].
    rewrite Z.mul_1_l. replace (2 ^ 32 <=? 2 ^ (w - k)) with false by (symmetry; apply Z.leb_gt; lia).
    rewrite orb_false_r. replace (1 <? 0) with false by reflexivity. rewrite andb_false_r. f_equal. apply conv_id.
    unfold is_val. cbn [sgn i32]. change (wid i32) with 32. lia. }
  rewrite S1. cbn [bind]. pose proof V as (U & _).
  rewrite (conv_id (ft P) (2 ^ (w - k))) by (unfold is_val; rewrite U; lia).
  pose proof (Z.mod_pos_bound x0 (2 ^ w) ltac:(lia)) as M. set (x := x0 mod 2 ^ w) in *.
  assert (Q : forall y, 2 ^ (w - k) <= y -> lead_k P y <> 0).
  { intros y Hy. unfold lead_k. fold w k. pose proof (Z.div_le_mono _ _ (2 ^ (w - k)) P0 Hy) as G. rewrite Z.div_same in G by lia. lia. }
  destruct (2 ^ (w - k) <=? x) eqn:T.
  - apply Z.leb_le in T. replace (x <? 2 ^ (w - k)) with false by (symmetry; apply Z.ltb_ge; lia).
    exists x. split; [reflexivity|]. split; [lia|]. split; [apply Q; lia|reflexivity].
  - apply Z.leb_gt in T. replace (x <? 2 ^ (w - k)) with true by (symmetry; apply Z.ltb_lt; lia).
    exists (x + 2 ^ (w - k)). rewrite uarith by exact U. rewrite Z.mod_small by lia.
    split; [reflexivity|]. split; [lia|]. split; [apply Q; lia|reflexivity].
Qed.

(** ** xor_combine *)
Lemma xc_lemma il md t S1 S2 (step1 : S1 -> res (Z * S1)) (step2 : S2 -> res (Z * S2)) e1 e2 o1 o2 s1 s2 :
  sgn t = false -> (il <= lg t)%nat -> 0 <= s1 < wid t -> 0 <= s2 < wid t ->
  step1 e1 = Ok o1 -> step2 e2 = Ok o2 -> is_val t (fst o1) -> is_val t (fst o2) ->
  let r := Ok (Z.lxor (fst o1 * 2 ^ s1 mod 2 ^ wid t) (fst o2 * 2 ^ s2 mod 2 ^ wid t), (snd o1, snd o2)) in
  xc_step il md t s1 s2 S1 S2 step1 step2 (e1, e2) = r /\ xc_step11 il md t t s1 s2 S1 S2 step1 step2 (e1, e2) = r.
Proof.
  intros U L R1 R2 E1 E2 V1 V2 r. unfold xc_step, xc_step11. cbn [fst snd]. rewrite E1, E2. cbn [bind].
  rewrite !conv_id by assumption.
  assert (Pr : promote il t = t) by (unfold promote; replace (lg t <? il)%nat with false by (symmetry; apply Nat.ltb_ge; lia); reflexivity).
  rewrite Pr.
  assert (Sh : forall z n, 0 <= n < wid t -> shl md t z n = Ok ((z * 2 ^ n) mod 2 ^ wid t)).
  { intros z n N. unfold shl. replace (0 <=? n) with true by (symmetry; apply Z.leb_le; lia). replace (n <? wid t) with true by (symmetry; apply Z.ltb_lt; lia).
    rewrite U. cbn [andb]. unfold conv. rewrite U. reflexivity. }
  rewrite !Sh by assumption. cbn [bind].
  pose proof (wid_ge t) as W. pose proof (pow_pos (wid t) ltac:(lia)) as PW.
  rewrite conv_id; [split; reflexivity|].
  pose proof (lxor_lt _ _ (wid t) ltac:(lia) (Z.mod_pos_bound (fst o1 * 2 ^ s1) _ PW) (Z.mod_pos_bound (fst o2 * 2 ^ s2) _ PW)).
  unfold is_val. rewrite U. lia.
Qed.

(** ** taus88 *)
Lemma taus_valid : lf_valid taus_1 /\ lf_valid taus_2 /\ lf_valid taus_3.
Proof. unfold lf_valid. cbn. repeat split; lia. Qed.

Definition w32b (x : Z) : Prop := 0 <= x < 2 ^ 32.
Lemma taus_lf md k q s x : w32b x -> lf_valid (Lfp u32 32 k q s) ->
  lf_step md (Lfp u32 32 k q s) x =
  Ok (let y := Z.lxor ((Z.land x (2 ^ 32 - 2 ^ (32 - k)) * 2 ^ s) mod 2 ^ 32) (Z.lxor ((x * 2 ^ q) mod 2 ^ 32) x / 2 ^ (k - s)) in (y, y)) /\
  w32b (Z.lxor ((Z.land x (2 ^ 32 - 2 ^ (32 - k)) * 2 ^ s) mod 2 ^ 32) (Z.lxor ((x * 2 ^ q) mod 2 ^ 32) x / 2 ^ (k - s))).
Proof.
  intros X V. pose proof (V' _ V) as (A & B & C & D & E). cbn [fw fk fq fs ft] in *. change (wid u32) with 32 in *. unfold w32b in *.
  unfold lf_step, wordmask. cbn [fw fk fq fs ft].
  rewrite (ush _ V) by (cbn [ft]; change (wid u32) with 32; lia). cbn [bind ft].
  rewrite (ush _ V) by (cbn [ft]; change (wid u32) with 32; lia). cbn [bind ft].
  rewrite (ush _ V) by (cbn [ft]; change (wid u32) with 32; lia). cbn [bind ft].
  rewrite (ushr (Lfp u32 32 k q s)) by (cbn [ft]; change (wid u32) with 32; lia). cbn [bind ft]. change (wid u32) with 32.
  assert (Q : Z.lxor ((x * 2 ^ q) mod 2 ^ 32) x mod 2 ^ 32 = Z.lxor ((x * 2 ^ q) mod 2 ^ 32) x).
  { apply Z.mod_small. apply lxor_lt; [lia|apply Z.mod_pos_bound; lia|lia]. }
  rewrite (land_low (Z.lxor _ _)), Q by lia. rewrite (land_low (((2 ^ 32 - 1) * 2 ^ (32 - k)) mod 2 ^ 32)) by lia. rewrite Z.mod_mod by lia.
  assert (H : ((2 ^ 32 - 1) * 2 ^ (32 - k)) mod 2 ^ 32 = 2 ^ 32 - 2 ^ (32 - k)).
  { pose proof (pow_pos (32 - k) ltac:(lia)). pose proof (pow_mono (32 - k) 32 ltac:(lia)).
    symmetry. apply Z.mod_unique with (q := 2 ^ (32 - k) - 1); [left; lia|]. ring. }
  rewrite H. rewrite Z.shiftr_div_pow2 by lia. split; [reflexivity|].
  apply lxor_lt; [lia|apply Z.mod_pos_bound; lia|].
  pose proof (pow_pos (k - s) ltac:(lia)).
  assert (0 <= Z.lxor ((x * 2 ^ q) mod 2 ^ 32) x < 2 ^ 32) by (apply lxor_lt; [lia|apply Z.mod_pos_bound; lia|lia]).
  split; [apply Z.div_pos; lia|]. apply Z.div_lt_upper_bound; [lia|]. nia.
Qed.

Lemma xc0 il md S1 S2 (step1 : S1 -> res (Z * S1)) (step2 : S2 -> res (Z * S2)) e1 e2 o1 o2 : (il <= 2)%nat ->
  step1 e1 = Ok o1 -> step2 e2 = Ok o2 -> w32b (fst o1) -> w32b (fst o2) ->
  xc_step il md u32 0 0 S1 S2 step1 step2 (e1, e2) = Ok (Z.lxor (fst o1) (fst o2), (snd o1, snd o2)).
Proof.
  intros I E1 E2 V1 V2. unfold w32b in *.
  destruct (xc_lemma il md u32 S1 S2 step1 step2 e1 e2 o1 o2 0 0) as [H _]; try assumption; try reflexivity;
    try (change (wid u32) with 32; lia); try (unfold is_val; change (wid u32) with 32; cbn [sgn u32]; lia).
  rewrite H. change (wid u32) with 32. rewrite Z.pow_0_r, !Z.mul_1_r, !Z.mod_small by lia. reflexivity.
Qed.

Lemma taus88_lemma il md s1 s2 s3 : (il <= 2)%nat -> w32b s1 -> w32b s2 -> w32b s3 ->
  taus88_step il md (s1, s2, s3) = Ok (lecuyer_out (lecuyer (s1, s2, s3)), lecuyer (s1, s2, s3)) /\
  let '(a, b, c) := lecuyer (s1, s2, s3) in w32b a /\ w32b b /\ w32b c.
Proof.
  intros I X1 X2 X3. destruct taus_valid as (V1 & V2 & V3).
  destruct (taus_lf md _ _ _ s1 X1 V1) as [E1 R1]. destruct (taus_lf md _ _ _ s2 X2 V2) as [E2 R2]. destruct (taus_lf md _ _ _ s3 X3 V3) as [E3 R3].
  split; [|split; [exact R1|split; [exact R2|exact R3]]].
  unfold taus88_step.
  erewrite (xc0 il md (Z * Z) Z _ _ (s1, s2) s3); [|exact I|eapply (xc0 il md Z Z _ _ s1 s2); [exact I|exact E1|exact E2|exact R1|exact R2]|exact E3| |exact R3].
  - reflexivity.
  - cbn [fst]. unfold w32b. apply lxor_lt; [lia|exact R1|exact R2].
Qed.

Lemma taus88_run_lemma il md n : (il <= 2)%nat -> forall s1 s2 s3, w32b s1 -> w32b s2 -> w32b s3 ->
  run (taus88_step il md) n (s1, s2, s3) =
  Ok (map (fun i => Z.lxor (Z.lxor (lf_out taus_1 s1 i) (lf_out taus_2 s2 i)) (lf_out taus_3 s3 i)) (seq 0 n)).
Proof.
  intros I s1 s2 s3 X1 X2 X3. destruct taus_valid as (V1 & V2 & V3).
  assert (G : forall n s1 s2 s3 l1 l2 l3, w32b s1 -> w32b s2 -> w32b s3 ->
    run (lf_step md taus_1) n s1 = Ok l1 -> run (lf_step md taus_2) n s2 = Ok l2 -> run (lf_step md taus_3) n s3 = Ok l3 ->
    run (taus88_step il md) n (s1, s2, s3) = Ok (map (fun i => Z.lxor (Z.lxor (nth i l1 0) (nth i l2 0)) (nth i l3 0)) (seq 0 n))).
  { clear - I V1 V2 V3. induction n as [|n IH]; intros s1 s2 s3 l1 l2 l3 X1 X2 X3 H1 H2 H3; [reflexivity|].
    destruct (taus_lf md _ _ _ s1 X1 V1) as [E1 R1]. destruct (taus_lf md _ _ _ s2 X2 V2) as [E2 R2]. destruct (taus_lf md _ _ _ s3 X3 V3) as [E3 R3].
    fold taus_1 in E1. fold taus_2 in E2. fold taus_3 in E3.
    destruct (taus88_lemma il md s1 s2 s3 I X1 X2 X3) as [E _].
    cbn [run] in *. rewrite E1 in H1. rewrite E2 in H2. rewrite E3 in H3. rewrite E. cbn [bind fst snd] in *.
    match type of H1 with bind ?r _ = _ => destruct r as [m1| |] eqn:M1; cbn [bind] in H1; [|discriminate|discriminate] end.
    match type of H2 with bind ?r _ = _ => destruct r as [m2| |] eqn:M2; cbn [bind] in H2; [|discriminate|discriminate] end.
    match type of H3 with bind ?r _ = _ => destruct r as [m3| |] eqn:M3; cbn [bind] in H3; [|discriminate|discriminate] end.
    apply (f_equal (fun r => match r with Ok l => l | _ => [] end)) in H1, H2, H3. subst l1 l2 l3.
    unfold lecuyer. rewrite (IH _ _ _ m1 m2 m3) by assumption. cbn [bind seq map nth]. rewrite <- seq_shift, map_map. reflexivity. }
  pose proof (lf_run_lemma taus_1 V1 eq_refl md n s1 X1 (or_introl (Zle_bool_imp_le 1 6 eq_refl))) as L1.
  pose proof (lf_run_lemma taus_2 V2 eq_refl md n s2 X2 (or_introl (Zle_bool_imp_le 3 23 eq_refl))) as L2.
  pose proof (lf_run_lemma taus_3 V3 eq_refl md n s3 X3 (or_introl (Zle_bool_imp_le 4 8 eq_refl))) as L3.
  rewrite (G n s1 s2 s3 _ _ _ X1 X2 X3 L1 L2 L3).
  f_equal. apply map_ext_in. intros i Hi. apply in_seq in Hi.
  rewrite !(fun f => map_seq_nth f n i) by lia. reflexivity.
Qed.
