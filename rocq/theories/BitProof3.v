(** Proofs about the counting functions. *)
From Coq Require Import List Arith ZArith Bool Lia.
From Verif Require Import Base BitModel BitSpec BitProof BitProof2.
Import ListNotations.
Open Scope Z_scope.

(** ** Counting *)
Lemma count_ones_filter x n : count_ones x n = Z.of_nat (length (filter (fun i => Z.testbit x (Z.of_nat i)) (seq 0 n))).
Proof.
  induction n as [|n IH]; [reflexivity|]. cbn [count_ones]. rewrite seq_S, filter_app, app_length, Nat2Z.inj_add, IH. f_equal.
  cbn [plus filter]. destruct (Z.testbit x (Z.of_nat n)); reflexivity.
Qed.
Lemma ones_in_count t x : ones_in t x = count_ones x (Z.to_nat (wid t)).
Proof. symmetry. apply count_ones_filter. Qed.
Lemma count_bound x n : 0 <= count_ones x n <= Z.of_nat n.
Proof. induction n as [|n IH]; cbn [count_ones]; [lia|]. destruct (Z.testbit x (Z.of_nat n)); lia. Qed.
Lemma count_ext x y n : (forall i, (i < n)%nat -> Z.testbit x (Z.of_nat i) = Z.testbit y (Z.of_nat i)) -> count_ones x n = count_ones y n.
Proof. induction n as [|n IH]; intros H; [reflexivity|]. cbn [count_ones]. rewrite IH, (H n) by auto with arith. reflexivity. Qed.
Lemma count_remove x y l n : (l < n)%nat -> Z.testbit x (Z.of_nat l) = true -> Z.testbit y (Z.of_nat l) = false ->
  (forall i, (i < n)%nat -> i <> l -> Z.testbit y (Z.of_nat i) = Z.testbit x (Z.of_nat i)) ->
  count_ones x n = 1 + count_ones y n.
Proof.
  induction n as [|n IH]; intros Hl Hx Hy H; [lia|]. cbn [count_ones]. destruct (Nat.eq_dec l n) as [->|N].
  - rewrite Hx, Hy. rewrite (count_ext x y n); [lia|]. intros i Hi. symmetry. apply H; lia.
  - rewrite (H n) by lia. rewrite IH; [lia|lia|exact Hx|exact Hy|]. intros i Hi. apply H. lia.
Qed.
Lemma count_0 x n : count_ones x n = 0 -> forall i, (i < n)%nat -> Z.testbit x (Z.of_nat i) = false.
Proof.
  induction n as [|n IH]; intros H i Hi; [lia|]. cbn [count_ones] in H. pose proof (count_bound x n).
  destruct (Z.testbit x (Z.of_nat n)) eqn:E; [lia|]. destruct (Nat.eq_dec i n) as [->|]; [exact E|apply IH; lia].
Qed.

(** the lowest one bit *)
Lemma lowest_one x n : (exists i, (i < n)%nat /\ Z.testbit x (Z.of_nat i) = true) ->
  exists l, (l < n)%nat /\ Z.testbit x (Z.of_nat l) = true /\ allb false x l = true.
Proof.
  induction n as [|n IH]; intros (i & Hi & B); [lia|].
  destruct (allb false x n) eqn:E.
  - exists n. split; [lia|]. split; [|exact E]. assert (i = n) as <-; [|exact B].
    destruct (Nat.eq_dec i n); [assumption|]. exfalso. rewrite allb_iff in E. rewrite E in B by lia. discriminate.
  - destruct IH as (l & Hl & B1 & B2); [|exists l; split; [lia|auto]].
    clear - E. induction n as [|n IH]; [discriminate|]. cbn [allb] in E. destruct (Z.testbit x (Z.of_nat n)) eqn:B.
    + exists n. split; [lia|exact B].
    + cbn in E. destruct (IH E) as (i & Hi & Hb). exists i. split; [lia|exact Hb].
Qed.

Lemma val_nonzero t x : is_val t x -> x <> 0 -> exists i, (i < Z.to_nat (wid t))%nat /\ Z.testbit x (Z.of_nat i) = true.
Proof.
  intros V N. destruct (allb false x (Z.to_nat (wid t))) eqn:E.
  - exfalso. apply N. apply (val_ext t); [exact V|apply val_0|]. intros i Hi. rewrite allb_iff in E.
    rewrite E, Z.bits_0 by lia. reflexivity.
  - set (n := Z.to_nat (wid t)) in *. clearbody n. clear - E. induction n as [|n IH]; [discriminate|]. cbn [allb] in E.
    destruct (Z.testbit x (Z.of_nat n)) eqn:B.
    + exists n. split; [lia|exact B].
    + cbn in E. destruct (IH E) as (i & Hi & Hb). exists i. split; [lia|exact Hb].
Qed.

Section B.
  Variable il : nat.
  Variable md : bool.
  Variable bi : bool.
  Notation promote := (promote il).

  (** ** popcount *)
  Lemma popcount_rec_ok t : sgn t = false -> wid t <= tmax (int_t il) ->
    forall d n, is_val t n -> ones_in t n < Z.of_nat d -> popcount_rec il t d n = Ok (ones_in t n).
  Proof.
    intros U WT. induction d as [|d IH]; intros n V Hd.
    { rewrite ones_in_count in Hd. pose proof (count_bound n (Z.to_nat (wid t))). lia. }
    pose proof (wid_ge t) as W8. cbn [popcount_rec]. destruct (Z.eqb_spec n 0) as [->|N].
    - f_equal. symmetry. rewrite ones_in_count. clear. induction (Z.to_nat (wid t)) as [|n IH]; [reflexivity|].
      cbn [count_ones]. rewrite IH, Z.bits_0. reflexivity.
    - pose proof V as V'. unfold is_val in V'. rewrite U in V'.
      assert (V1 : is_val t (n - 1)) by (unfold is_val; rewrite U; lia).
      rewrite arith_ok by now apply promote_val. cbn [bind]. set (y := conv t (Z.land n (n - 1))).
      assert (C : ones_in t n = 1 + ones_in t y).
      { destruct (lowest_one n _ (val_nonzero t n V N)) as (l & Hl & B & A). rewrite !ones_in_count.
        apply (count_remove n y l); auto; unfold y.
        - rewrite conv_bits by lia. rewrite Z.land_spec, sub1_bits by lia. unfold blw. rewrite Nat2Z.id, A, B. reflexivity.
        - intros i Hi Nl. rewrite conv_bits by lia. rewrite Z.land_spec, sub1_bits by lia. unfold blw. rewrite Nat2Z.id.
          destruct (Z.testbit n (Z.of_nat i)) eqn:Bi; [|reflexivity]. cbn [andb xorb].
          destruct (allb false n i) eqn:Ai; [exfalso|reflexivity].
          rewrite allb_iff in A, Ai. destruct (Nat.lt_total i l) as [L|[L|L]]; [| |].
          + rewrite A in Bi by lia. discriminate.
          + contradiction.
          + rewrite Ai in B by lia. discriminate. }
      rewrite (IH y); [|apply conv_val|lia]. cbn [bind]. rewrite <- C. apply arith_ok. unfold is_val. cbn [sgn int_t]. unfold tmax in WT. cbn [sgn int_t] in WT.
      rewrite ones_in_count. pose proof (count_bound n (Z.to_nat (wid t))). pose proof (half_pos (int_t il)). lia.
  Qed.

  Lemma ones_in_conv t x : ones_in (uns t) (conv (uns t) x) = ones_in t x.
  Proof.
    rewrite !ones_in_count, wid_uns. apply count_ext. intros i Hi. apply conv_bits. rewrite wid_uns. pose proof (wid_ge t). lia.
  Qed.
  Lemma popcount_lemma t d x : wid t <= tmax (int_t il) -> wid t < Z.of_nat d ->
    popcount il bi t d x = Ok (ones_in t x).
  Proof.
    intros WT Hd. unfold popcount. cbv zeta. rewrite <- (ones_in_conv t x). destruct (has_builtin il bi (uns t)).
    - f_equal. symmetry. apply ones_in_count.
    - apply popcount_rec_ok; [reflexivity|now rewrite wid_uns|apply conv_val|]. rewrite ones_in_count, wid_uns.
      pose proof (count_bound (conv (uns t) x) (Z.to_nat (wid t))). pose proof (wid_ge t). lia.
  Qed.

  (** ** leading and trailing *)
  Lemma leading_unique b t x c c' : leading b t x c -> leading b t x c' -> c = c'.
  Proof.
    intros (H1 & H2 & H3) (H1' & H2' & H3'). destruct (Z.lt_trichotomy c c') as [L|[L|L]]; [exfalso|exact L|exfalso].
    - specialize (H3 ltac:(lia)). rewrite H2' in H3 by lia. now destruct b.
    - specialize (H3' ltac:(lia)). rewrite H2 in H3' by lia. now destruct b.
  Qed.
  Lemma lead_ok b x : forall n, 0 <= lead b x n <= Z.of_nat n /\
    (forall i, Z.of_nat n - lead b x n <= i < Z.of_nat n -> Z.testbit x i = b) /\
    (lead b x n < Z.of_nat n -> Z.testbit x (Z.of_nat n - 1 - lead b x n) = negb b).
  Proof.
    induction n as [|n (I1 & I2 & I3)]; cbn [lead]; [repeat split; lia|].
    destruct (Bool.eqb_spec (Z.testbit x (Z.of_nat n)) b) as [E|E].
    - split; [lia|]. split.
      + intros i Hi. destruct (Z.eq_dec i (Z.of_nat n)) as [->|]; [exact E|]. apply I2. lia.
      + intros H. rewrite <- I3 by lia. f_equal. lia.
    - split; [lia|]. split; [lia|]. intros _. replace (Z.of_nat (S n) - 1 - 0) with (Z.of_nat n) by lia. destruct (Z.testbit x (Z.of_nat n)), b; cbn; congruence.
  Qed.
  Lemma lead_leading b t x : leading b t x (lead b x (widn t)).
  Proof.
    destruct (lead_ok b x (widn t)) as (H1 & H2 & H3). unfold widn in *. pose proof (wid_ge t). rewrite Z2Nat.id in * by lia. repeat split; auto; lia.
  Qed.
  Lemma trail_ok b x : forall n i, 0 <= trail b x i n <= Z.of_nat n /\
    (forall j, Z.of_nat i <= j < Z.of_nat i + trail b x i n -> Z.testbit x j = b) /\
    (trail b x i n < Z.of_nat n -> Z.testbit x (Z.of_nat i + trail b x i n) = negb b).
  Proof.
    induction n as [|n IH]; intros i; cbn [trail]; [repeat split; lia|].
    destruct (Bool.eqb_spec (Z.testbit x (Z.of_nat i)) b) as [E|E].
    - destruct (IH (S i)) as (I1 & I2 & I3). split; [lia|]. split.
      + intros j Hj. destruct (Z.eq_dec j (Z.of_nat i)) as [->|]; [exact E|]. apply I2. lia.
      + intros H. rewrite <- I3 by lia. f_equal. lia.
    - split; [lia|]. split; [lia|]. intros _. rewrite Z.add_0_r. destruct (Z.testbit x _), b; cbn; congruence.
  Qed.
  Lemma trail_trailing b t x : trailing b t x (trail b x 0 (widn t)).
  Proof.
    destruct (trail_ok b x (widn t) 0) as (H1 & H2 & H3). unfold widn in *. pose proof (wid_ge t). rewrite Z2Nat.id in * by lia.
    cbn [Z.of_nat] in *. repeat split; auto; try lia.
  Qed.

  (** ** clz *)
  Lemma shlr_zero t x h c : leading false t x c -> c < wid t -> 0 < h <= wid t ->
    exists y, shlr il t x (wid t - h) = Ok y /\ (y =? 0) = (h <=? c).
  Proof.
    intros (H1 & H2 & H3) Hc Hh. pose proof (promote_wid il t). destruct (shlr_spec il t x (wid t - h)) as (y & E & V & B); [lia|].
    exists y. split; [exact E|]. destruct (Z.leb_spec h c).
    - apply Z.eqb_eq. apply (val_ext t); [exact V|apply val_0|]. intros i Hi. rewrite B, Z.bits_0 by exact Hi.
      destruct (Z.ltb_spec (i + (wid t - h)) (wid t)); [|reflexivity]. cbn [andb]. apply H2. lia.
    - apply Z.eqb_neq. intros ->. specialize (H3 Hc). specialize (B (h - 1 - c) ltac:(lia)). rewrite Z.bits_0 in B.
      replace (h - 1 - c + (wid t - h)) with (wid t - 1 - c) in B by lia. rewrite H3 in B.
      destruct (Z.ltb_spec (wid t - 1 - c) (wid t)); [discriminate|lia].
  Qed.
  Lemma shll_leading t x h c : leading false t x c -> c < wid t -> 0 < h <= c -> 
    exists z, shll il md t x h = Ok z /\ leading false t z (c - h).
  Proof.
    intros (H1 & H2 & H3) Hc Hh. pose proof (promote_wid il t). destruct (shll_spec il md t x h) as (z & E & V & B); [lia|lia|].
    exists z. split; [exact E|]. split; [lia|]. split.
    - intros i Hi. rewrite B by lia. destruct (Z.leb_spec h i); [|reflexivity]. cbn [andb]. apply H2. lia.
    - intros _. rewrite B by lia. destruct (Z.leb_spec h (wid t - 1 - (c - h))); [|lia]. cbn [andb].
      replace (wid t - 1 - (c - h) - h) with (wid t - 1 - c) by lia. auto.
  Qed.

  Lemma clz_bytes_ok t : forall k x n c, (k <= lg t)%nat -> leading false t x c -> c < 8 * 2 ^ Z.of_nat k ->
    exists y n' c', clz_bytes il md k t x n = Ok (y, n') /\ leading false t y c' /\ c' < 8 /\ n' + c' = n + c.
  Proof.
    induction k as [|k IH]; intros x n c Hk L Hc; cbn [clz_bytes].
    - exists x, n, c. split; [reflexivity|]. split; [exact L|]. split; [exact Hc|reflexivity].
    - rewrite Nat2Z.inj_succ, Z.pow_succ_r in Hc by lia. cbv zeta. pose proof (pow_pos (Z.of_nat k) ltac:(lia)) as PP.
      assert (HW : 2 * (8 * 2 ^ Z.of_nat k) <= wid t).
      { unfold wid, bytes. pose proof (pow_mono (Z.of_nat (S k)) (Z.of_nat (lg t)) ltac:(lia)) as PM.
        rewrite Nat2Z.inj_succ, Z.pow_succ_r in PM by lia. lia. }
      pose proof L as (L1 & _). set (h := 8 * 2 ^ Z.of_nat k) in *.
      destruct (shlr_zero t x h c L ltac:(lia) ltac:(lia)) as (y & -> & E). cbn [bind]. rewrite E. destruct (Z.leb_spec h c); cbn [negb].
      + destruct (shll_leading t x h c L ltac:(lia) ltac:(lia)) as (z & -> & L'). cbn [bind].
        destruct (IH z (n + h) (c - h) ltac:(lia) L' ltac:(lia)) as (y' & n' & c' & E' & R1 & R2 & R3).
        exists y', n', c'. split; [exact E'|]. split; [exact R1|]. split; [exact R2|lia].
      + apply IH; [lia|exact L|lia].
  Qed.
  Lemma clz_bits1_ok t x n c : leading false t x c -> c < 2 -> clz_bits1 il t x n = Ok (n + c - 1).
  Proof.
    intros L Hc. pose proof L as (L1 & L2 & L3). pose proof (wid_ge t). pose proof (promote_wid il t).
    unfold clz_bits1. destruct (shlr_spec il t x (wid t - 1)) as (y & -> & V & B); [lia|]. cbn [bind]. f_equal.
    assert (y = 1 - c); [|lia]. apply (val_ext t); [exact V|apply val_small; pose proof (pow_mono 1 (wid t - 1) ltac:(lia)); lia|].
    intros i Hi. rewrite B by exact Hi. destruct (Z.eq_dec c 0) as [->|N].
    - change (1 - 0) with (2 ^ 0). rewrite bit_bits by lia. destruct (Z.ltb_spec (i + (wid t - 1)) (wid t)), (Z.eqb_spec i 0); try lia; cbn [andb]; try reflexivity.
      subst i. replace (0 + (wid t - 1)) with (wid t - 1 - 0) by lia. now apply L3.
    - assert (c = 1) as -> by lia. rewrite Z.bits_0. destruct (Z.ltb_spec (i + (wid t - 1)) (wid t)); [|reflexivity]. cbn [andb]. apply L2. lia.
  Qed.
  Lemma clz_bits2_ok t x n c : leading false t x c -> c < 4 -> clz_bits2 il md t x n = Ok (n + c - 1).
  Proof.
    intros L Hc. pose proof (wid_ge t). unfold clz_bits2. destruct (shlr_zero t x 2 c L ltac:(lia) ltac:(lia)) as (y & -> & E). cbn [bind]. rewrite E.
    destruct (Z.leb_spec 2 c); cbn [negb]; [|apply clz_bits1_ok; auto].
    destruct (shll_leading t x 2 c L ltac:(lia) ltac:(lia)) as (z & -> & L'). cbn [bind]. rewrite (clz_bits1_ok t z (n + 2) (c - 2)) by (auto; lia). f_equal. lia.
  Qed.
  Lemma clz_bits4_ok t x n c : leading false t x c -> c < 8 -> clz_bits4 il md t x n = Ok (n + c - 1).
  Proof.
    intros L Hc. pose proof (wid_ge t) as W8. unfold clz_bits4. pose proof L as (L1 & _).
    destruct (Z.eq_dec c (wid t)) as [Ec|Nc]; [lia|].
    destruct (shlr_zero t x 4 c L ltac:(lia) ltac:(lia)) as (y & -> & E). cbn [bind]. rewrite E.
    destruct (Z.leb_spec 4 c); cbn [negb]; [|apply clz_bits2_ok; auto].
    destruct (shll_leading t x 4 c L ltac:(lia) ltac:(lia)) as (z & -> & L'). cbn [bind]. rewrite (clz_bits2_ok t z (n + 4) (c - 4)) by (auto; lia). f_equal. lia.
  Qed.
  Lemma nonzero_lead t x c : is_val t x -> x <> 0 -> leading false t x c -> c < wid t.
  Proof.
    intros V N (L1 & L2 & _). destruct (Z.eq_dec c (wid t)) as [->|]; [|lia]. exfalso. apply N.
    apply (val_ext t); [exact V|apply val_0|]. intros i Hi. rewrite Z.bits_0. apply L2. lia.
  Qed.
  Lemma clz_lemma t x : is_val t x -> exists c, clz il md bi t x = Ok c /\ leading false t x c.
  Proof.
    intros V. unfold clz. destruct (Z.eqb_spec x 0) as [->|N].
    - exists (wid t). split; [reflexivity|]. pose proof (wid_ge t). repeat split; try lia. intros. apply Z.bits_0.
    - pose proof (lead_leading false t x) as L. set (c := lead false x (widn t)) in *. exists c. split; [|exact L].
      unfold clz_non0. destruct (has_builtin il bi t); [reflexivity|].
      pose proof (nonzero_lead t x c V N L) as Hc.
      destruct (clz_bytes_ok t (lg t) x 1 c ltac:(lia) L Hc) as (y & n' & c' & -> & L' & Hc' & E). cbn [bind].
      rewrite (clz_bits4_ok t y n' c' L' Hc'). f_equal. lia.
  Qed.

  (** ** ctz *)
  Lemma mask_zero t x h c : trailing false t x c -> c < wid t -> 0 < h < wid t ->
    (Z.land x (conv t (2 ^ h - 1)) =? 0) = (h <=? c).
  Proof.
    intros (H1 & H2 & H3) Hc Hh. rewrite conv_id.
    2:{ apply val_small. pose proof (pow_pos h ltac:(lia)). pose proof (pow_mono h (wid t - 1) ltac:(lia)). lia. }
    replace (2 ^ h - 1) with (Z.ones h) by now rewrite Z.ones_equiv.
    destruct (Z.leb_spec h c).
    - apply Z.eqb_eq. apply Z.bits_inj'. intros i Hi. rewrite Z.land_spec, ones_bits, Z.bits_0 by lia.
      destruct (Z.ltb_spec i h); [rewrite H2 by lia; reflexivity|apply andb_false_r].
    - apply Z.eqb_neq. intros E. apply (f_equal (fun z => Z.testbit z c)) in E. rewrite Z.land_spec, ones_bits, Z.bits_0, H3 in E by lia.
      destruct (Z.ltb_spec c h); [discriminate|lia].
  Qed.
  Lemma shlr_trailing t x h c : trailing false t x c -> c < wid t -> 0 < h <= c ->
    exists z, shlr il t x h = Ok z /\ trailing false t z (c - h).
  Proof.
    intros (H1 & H2 & H3) Hc Hh. pose proof (promote_wid il t). destruct (shlr_spec il t x h) as (z & E & V & B); [lia|].
    exists z. split; [exact E|]. split; [lia|]. split.
    - intros i Hi. rewrite B by lia. destruct (Z.ltb_spec (i + h) (wid t)); [|reflexivity]. cbn [andb]. apply H2. lia.
    - intros _. rewrite B by lia. destruct (Z.ltb_spec (c - h + h) (wid t)); [|lia]. cbn [andb].
      replace (c - h + h) with c by lia. auto.
  Qed.
  Lemma ctz_bytes_ok t : forall k x n c, (k <= lg t)%nat -> trailing false t x c -> c < 8 * 2 ^ Z.of_nat k ->
    exists y n' c', ctz_bytes il k t x n = Ok (y, n') /\ trailing false t y c' /\ c' < 8 /\ n' + c' = n + c.
  Proof.
    induction k as [|k IH]; intros x n c Hk L Hc; cbn [ctz_bytes].
    - exists x, n, c. split; [reflexivity|]. split; [exact L|]. split; [exact Hc|reflexivity].
    - rewrite Nat2Z.inj_succ, Z.pow_succ_r in Hc by lia. cbv zeta. pose proof (pow_pos (Z.of_nat k) ltac:(lia)) as PP.
      assert (HW : 2 * (8 * 2 ^ Z.of_nat k) <= wid t).
      { unfold wid, bytes. pose proof (pow_mono (Z.of_nat (S k)) (Z.of_nat (lg t)) ltac:(lia)) as PM.
        rewrite Nat2Z.inj_succ, Z.pow_succ_r in PM by lia. lia. }
      pose proof L as (L1 & _). set (h := 8 * 2 ^ Z.of_nat k) in *.
      rewrite (mask_zero t x h c L) by lia. destruct (Z.leb_spec h c); cbn [negb].
      + destruct (shlr_trailing t x h c L ltac:(lia) ltac:(lia)) as (z & -> & L'). cbn [bind].
        destruct (IH z (n + h) (c - h) ltac:(lia) L' ltac:(lia)) as (y' & n' & c' & E' & R1 & R2 & R3).
        exists y', n', c'. split; [exact E'|]. split; [exact R1|]. split; [exact R2|lia].
      + apply IH; [lia|exact L|lia].
  Qed.
  Lemma ctz_bits1_ok t x n c : trailing false t x c -> c < 2 -> ctz_bits1 t x n = Ok (n + c).
  Proof.
    intros L Hc. pose proof L as (L1 & _). pose proof (wid_ge t). unfold ctz_bits1. change 1 with (2 ^ 1 - 1) at 1. rewrite (mask_zero t x 1 c L) by lia.
    f_equal. destruct (Z.leb_spec 1 c); cbn [negb]; lia.
  Qed.
  Lemma ctz_bits2_ok t x n c : trailing false t x c -> c < 4 -> ctz_bits2 il t x n = Ok (n + c).
  Proof.
    intros L Hc. pose proof (wid_ge t). unfold ctz_bits2. change 3 with (2 ^ 2 - 1). rewrite (mask_zero t x 2 c L) by lia.
    destruct (Z.leb_spec 2 c); cbn [negb]; [|apply ctz_bits1_ok; auto].
    destruct (shlr_trailing t x 2 c L ltac:(lia) ltac:(lia)) as (z & -> & L'). cbn [bind]. rewrite (ctz_bits1_ok t z (n + 2) (c - 2)) by (auto; lia). f_equal. lia.
  Qed.
  Lemma ctz_bits4_ok t x n c : trailing false t x c -> c < 8 -> ctz_bits4 il t x n = Ok (n + c).
  Proof.
    intros L Hc. pose proof (wid_ge t). unfold ctz_bits4. change 15 with (2 ^ 4 - 1). rewrite (mask_zero t x 4 c L) by lia.
    destruct (Z.leb_spec 4 c); cbn [negb]; [|apply ctz_bits2_ok; auto].
    destruct (shlr_trailing t x 4 c L ltac:(lia) ltac:(lia)) as (z & -> & L'). cbn [bind]. rewrite (ctz_bits2_ok t z (n + 4) (c - 4)) by (auto; lia). f_equal. lia.
  Qed.
  Lemma nonzero_trail t x c : is_val t x -> x <> 0 -> trailing false t x c -> c < wid t.
  Proof.
    intros V N (L1 & L2 & _). destruct (Z.eq_dec c (wid t)) as [->|]; [|lia]. exfalso. apply N.
    apply (val_ext t); [exact V|apply val_0|]. intros i Hi. rewrite Z.bits_0. apply L2. lia.
  Qed.
  Lemma ctz_lemma t x : is_val t x -> exists c, ctz il bi t x = Ok c /\ trailing false t x c.
  Proof.
    intros V. unfold ctz. destruct (Z.eqb_spec x 0) as [->|N].
    - exists (wid t). split; [reflexivity|]. pose proof (wid_ge t). repeat split; try lia. intros. apply Z.bits_0.
    - pose proof (trail_trailing false t x) as L. set (c := trail false x 0 (widn t)) in *. exists c. split; [|exact L].
      unfold ctz_non0. destruct (has_builtin il bi t); [reflexivity|].
      pose proof (nonzero_trail t x c V N L) as Hc.
      destruct (ctz_bytes_ok t (lg t) x 0 c ltac:(lia) L Hc) as (y & n' & c' & -> & L' & Hc' & E). cbn [bind].
      rewrite (ctz_bits4_ok t y n' c' L' Hc'). f_equal. lia.
  Qed.

  (** ** cntt1, cntl1, clrsb *)
  Lemma trailing_cpl t x c : is_val t x -> trailing false (promote t) (cpl (promote t) x) c -> 
    trailing true t x (Z.min c (wid t)).
  Proof.
    intros V (L1 & L2 & L3). pose proof (promote_wid il t). pose proof (wid_ge t). split; [lia|]. split.
    - intros i Hi. specialize (L2 i ltac:(lia)). rewrite cpl_bits in L2 by lia. now apply negb_false_iff.
    - intros Hc. rewrite Z.min_l in * by lia. specialize (L3 ltac:(lia)). rewrite cpl_bits in L3 by lia. cbn [negb] in *. now apply negb_true_iff.
  Qed.
  (** ~x of a narrower unsigned type has ones above the width of the type *)
  Lemma cntt1_lemma t x : is_val t x -> exists c, cntt1 il bi t x = Ok c /\ trailing true t x (Z.min c (wid t)) /\
    (c <= wid t \/ ((lg t < il)%nat /\ sgn t = true /\ x = -1 /\ c = wid (int_t il))).
  Proof.
    intros V. unfold cntt1. destruct (ctz_lemma (promote t) (cpl (promote t) x) (conv_val _ _)) as (c & E & L). exists c. split; [exact E|].
    split; [now apply trailing_cpl|]. destruct (Nat.lt_ge_cases (lg t) il) as [N|N].
    - destruct (Z_le_gt_dec c (wid t)) as [Hc|Hc]; [now left|right]. destruct L as (L1 & L2 & L3).
      destruct (promote_narrow il t N) as [EP Hw]. pose proof (wid_ge t).
      assert (B : forall i, 0 <= i <= wid t -> Z.testbit x i = true).
      { intros i Hi. specialize (L2 i ltac:(lia)). rewrite cpl_bits in L2 by lia. now apply negb_false_iff. }
      assert (S : sgn t = true).
      { destruct (sgn t) eqn:S; [reflexivity|exfalso]. unfold is_val in V. rewrite S in V.
        specialize (B (wid t) ltac:(lia)). rewrite (uns_high t x (wid t)) in B; [discriminate|exact V|lia]. }
      assert (X : x = -1).
      { apply (val_ext t); [exact V| |].
        - unfold is_val. rewrite S. pose proof (half_pos t). lia.
        - intros i Hi. rewrite B by lia. symmetry. apply Z.bits_m1. lia. }
      repeat split; auto. rewrite <- EP. destruct (Z.eq_dec c (wid (promote t))) as [|Nc]; [assumption|exfalso].
      specialize (L3 ltac:(lia)). rewrite cpl_bits in L3 by lia. subst x. rewrite Z.bits_m1 in L3 by lia. discriminate.
    - left. destruct L as (L1 & _). rewrite promote_wide in L1 by exact N. lia.
  Qed.

  Lemma cntl1_wide t x : (il <= lg t)%nat -> is_val t x -> has_builtin il bi t = false ->
    exists c, cntl1 il md bi t x = Ok c /\ leading true t x c.
  Proof.
    intros N V HB. unfold cntl1, clrsb. rewrite HB, promote_wide by exact N.
    destruct (clz_lemma t (cpl t x) (conv_val _ _)) as (c & E & L1 & L2 & L3). exists c. split; [exact E|].
    split; [lia|]. split.
    - intros i Hi. specialize (L2 i Hi). rewrite cpl_bits in L2 by lia. now apply negb_false_iff.
    - intros Hc. specialize (L3 Hc). rewrite cpl_bits in L3 by lia. cbn [negb] in *. now apply negb_true_iff.
  Qed.
End B.
