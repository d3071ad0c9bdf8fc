(** Proofs about shifting, rotating, single bits, bit ranges and rightmost bits. *)
From Coq Require Import List Arith ZArith Bool Lia.
From Verif Require Import Base BitModel BitSpec BitProof.
Import ListNotations.
Open Scope Z_scope.

Lemma has_bits_unique t r r' f : has_bits t r f -> has_bits t r' f -> r = r'.
Proof.
  intros [V H] [V' H']. apply (val_ext t); auto. intros i Hi. specialize (H i Hi). specialize (H' i Hi).
  destruct (Z.testbit r i), (Z.testbit r' i); auto; [symmetry; apply H'; now apply H|apply H; now apply H'].
Qed.

(** ** Bits of x + 1, x - 1 and -x *)
Fixpoint allb (b : bool) (x : Z) (n : nat) : bool :=
  match n with O => true | S n => Bool.eqb (Z.testbit x (Z.of_nat n)) b && allb b x n end.
Lemma allb_iff b x n : allb b x n = true <-> below b x (Z.of_nat n).
Proof.
  induction n as [|n IH]; cbn [allb].
  - split; [intros _ j; lia|reflexivity].
  - rewrite andb_true_iff, IH, Bool.eqb_true_iff. split.
    + intros [H1 H2] j Hj. destruct (Z.eq_dec j (Z.of_nat n)) as [->|]; [exact H1|apply H2; lia].
    + intros H. split; [apply H; lia|intros j Hj; apply H; lia].
Qed.
Definition blw b x i := allb b x (Z.to_nat i).
Lemma blw_iff b x i : 0 <= i -> blw b x i = true <-> below b x i.
Proof. intros H. unfold blw. rewrite allb_iff. now rewrite Z2Nat.id by lia. Qed.
Lemma blw_false b x i : 0 <= i -> blw b x i = false <-> ~ below b x i.
Proof. intros H. rewrite <- (blw_iff b x i H). destruct (blw b x i); split; congruence. Qed.

Lemma allb_lnot b x n : allb b (Z.lnot x) n = allb (negb b) x n.
Proof.
  induction n as [|n IH]; [reflexivity|]. cbn [allb]. rewrite IH, Z.lnot_spec by lia. destruct (Z.testbit x _), b; reflexivity.
Qed.
Lemma d2_bits x i : 0 <= i -> Z.testbit (Z.div2 x) i = Z.testbit x (Z.succ i).
Proof. intros H. rewrite Z.div2_div. now apply Z.div2_bits. Qed.
Lemma allb_div2 b x n : allb b x (S n) = Bool.eqb (Z.odd x) b && allb b (Z.div2 x) n.
Proof.
  induction n as [|n IH].
  - cbn [allb]. cbn [Z.of_nat]. now rewrite Z.bit0_odd.
  - cbn [allb] in *. rewrite IH. rewrite d2_bits by lia. rewrite Nat2Z.inj_succ.
    destruct (Bool.eqb (Z.testbit x (Z.succ (Z.of_nat n))) b), (Bool.eqb (Z.odd x) b); reflexivity.
Qed.

Lemma add1_bits_nat : forall n x, Z.testbit (x + 1) (Z.of_nat n) = xorb (Z.testbit x (Z.of_nat n)) (allb true x n).
Proof.
  induction n as [|n IH]; intros x.
  - cbn [allb Z.of_nat]. rewrite !Z.bit0_odd. apply Z.odd_add.
  - rewrite Nat2Z.inj_succ. rewrite <- !d2_bits by lia. rewrite allb_div2. pose proof (Z.div2_odd x) as E.
    destruct (Z.odd x) eqn:O; cbn [Z.b2z] in E; cbn [Bool.eqb andb].
    + replace (Z.div2 (x + 1)) with (Z.div2 x + 1); [apply IH|]. rewrite !Z.div2_div in *.
      replace (x + 1) with ((x / 2 + 1) * 2) by lia. now rewrite Z.div_mul by lia.
    + rewrite xorb_false_r. f_equal. rewrite !Z.div2_div in *.
      replace (x + 1) with (1 + (x / 2) * 2) by lia. rewrite Z.div_add by lia. reflexivity.
Qed.
Lemma add1_bits x i : 0 <= i -> Z.testbit (x + 1) i = xorb (Z.testbit x i) (blw true x i).
Proof. intros H. rewrite <- (Z2Nat.id i H) at 1 2. apply add1_bits_nat. Qed.
Lemma sub1_bits x i : 0 <= i -> Z.testbit (x - 1) i = xorb (Z.testbit x i) (blw false x i).
Proof.
  intros H. replace (x - 1) with (Z.lnot (Z.lnot x + 1)) by (unfold Z.lnot; lia).
  rewrite Z.lnot_spec, add1_bits, Z.lnot_spec by lia. unfold blw. rewrite allb_lnot. cbn [negb].
  destruct (Z.testbit x i), (allb _ _ _); reflexivity.
Qed.
Lemma opp_bits x i : 0 <= i -> Z.testbit (- x) i = xorb (negb (Z.testbit x i)) (blw false x i).
Proof.
  intros H. replace (- x) with (Z.lnot (x - 1)) by (unfold Z.lnot; lia). rewrite Z.lnot_spec, sub1_bits by lia.
  destruct (Z.testbit x i), (blw _ _ _); reflexivity.
Qed.

(** ** Functions *)
Section B.
  Variable il : nat.
  Variable md : bool.
  Notation promote := (promote il).

  Lemma bits_intro t z f : (forall i, 0 <= i < wid t -> (Z.testbit z i = true <-> f i)) -> has_bits t (conv t z) f.
  Proof. intros H. split; [apply conv_val|]. intros i Hi. rewrite conv_bits by exact Hi. auto. Qed.

  (** shifts *)
  Lemma shift_correct_lemma t x s : is_val t x -> 0 <= s < wid t ->
    (exists r, shll il md t x s = Ok r /\ shal il md t x s = Ok r /\ has_bits t r (fun i => s <= i /\ Z.testbit x (i - s) = true)) /\
    (exists r, shlr il t x s = Ok r /\ has_bits t r (fun i => i + s < wid t /\ Z.testbit x (i + s) = true)) /\
    (exists r, shar il t x s = Ok r /\ has_bits t r (fun i => Z.testbit x (Z.min (i + s) (wid t - 1)) = true)).
  Proof.
    intros V Hs. pose proof (promote_wid il t). split; [|split].
    - destruct (shll_spec il md t x s) as (r & E & Vr & B); try lia. exists r. split; [exact E|]. split; [exact E|]. split; [exact Vr|].
      intros i Hi. rewrite B, andb_true_iff, Z.leb_le by exact Hi. reflexivity.
    - destruct (shlr_spec il t x s) as (r & E & Vr & B); try lia. exists r. split; [exact E|]. split; [exact Vr|].
      intros i Hi. rewrite B, andb_true_iff, Z.ltb_lt by exact Hi. reflexivity.
    - destruct (shar_spec il t x s V) as (r & E & Vr & B); try lia. exists r. split; [exact E|]. split; [exact Vr|].
      intros i Hi. rewrite B by exact Hi. destruct (Z.ltb_spec (i + s) (wid t)); [rewrite Z.min_l by lia|rewrite Z.min_r by lia]; reflexivity.
  Qed.

  (** rotations *)
  Notation shl_defined := (shl_defined il md).

  Lemma shl_promote t x s : is_val t x -> 0 <= s <= wid t -> s < wid (promote t) -> shl_defined t x s ->
    shl md (promote t) x s = Ok (conv (promote t) (x * 2 ^ s)).
  Proof.
    intros V Hs Hp D. apply shl_ok; [lia|]. destruct D as [D|[D|D]]; auto.
    destruct (Nat.lt_ge_cases (lg t) il) as [L|L]; [|rewrite promote_wide by exact L; auto].
    right. right. destruct (promote_narrow il t L) as [_ Hw]. revert V. unfold is_val. rewrite D. intros [V1 V2]. split; [exact V1|].
    apply Z.lt_le_trans with (2 ^ wid t * 2 ^ s); [apply Z.mul_lt_mono_pos_r; [apply pow_pos; lia|exact V2]|].
    rewrite <- Z.pow_add_r by (pose proof (wid_ge t); lia). apply pow_mono. pose proof (wid_ge t). lia.
  Qed.

  Lemma rotl_lemma t x s : is_val t x -> 0 < s < wid t -> shl_defined t x s ->
    exists r, rotl il md t x s = Ok r /\ has_bits t r (fun i => Z.testbit x ((i - s) mod wid t) = true).
  Proof.
    intros V Hs D. pose proof (promote_wid il t) as PW. unfold rotl. rewrite shl_promote by (auto; lia). cbn [bind].
    destruct (shlr_spec il t x (wid t - s)) as (b & -> & _ & B); [lia|]. cbn [bind]. eexists. split; [reflexivity|].
    apply bits_intro. intros i Hi. rewrite Z.lor_spec, conv_bits, mul_bits, B by lia.
    destruct (Z.leb_spec s i), (Z.ltb_spec (i + (wid t - s)) (wid t)); try lia; cbn [andb orb].
    - rewrite orb_false_r, Z.mod_small by lia. reflexivity.
    - replace ((i - s) mod wid t) with (i + (wid t - s)); [reflexivity|].
      rewrite <- (Z.mod_add (i - s) 1) by lia. rewrite Z.mod_small by lia. lia.
  Qed.
  Lemma rotr_lemma t x s : is_val t x -> 0 < s < wid t -> shl_defined t x (wid t - s) ->
    exists r, rotr il md t x s = Ok r /\ has_bits t r (fun i => Z.testbit x ((i + s) mod wid t) = true).
  Proof.
    intros V Hs D. pose proof (promote_wid il t) as PW. unfold rotr.
    destruct (shlr_spec il t x s) as (b & -> & _ & B); [lia|]. cbn [bind]. rewrite shl_promote by (auto; lia). cbn [bind]. eexists. split; [reflexivity|].
    apply bits_intro. intros i Hi. rewrite Z.lor_spec, conv_bits, mul_bits, B by lia.
    destruct (Z.leb_spec (wid t - s) i), (Z.ltb_spec (i + s) (wid t)); try lia; cbn [andb orb].
    - replace ((i + s) mod wid t) with (i - (wid t - s)); [reflexivity|].
      rewrite <- (Z.mod_add (i + s) (-1)) by lia. rewrite Z.mod_small by lia. lia.
    - rewrite orb_false_r, Z.mod_small by lia. reflexivity.
  Qed.

  (** shift by zero *)
  Lemma rot0_narrow t x : is_val t x -> (lg t < il)%nat -> shl_defined t x 0 -> shl_defined t x (wid t) ->
    rotl il md t x 0 = Ok x /\ rotr il md t x 0 = Ok x.
  Proof.
    intros V L D D'. destruct (promote_narrow il t L) as [_ Hw]. pose proof (wid_ge t). split.
    - unfold rotl. rewrite shl_promote by (auto; lia). cbn [bind].
      destruct (shlr_spec il t x (wid t - 0)) as (b & -> & _ & B); [lia|]. cbn [bind]. f_equal.
      apply (val_ext t); [apply conv_val|exact V|]. intros i Hi. rewrite conv_bits, Z.lor_spec, conv_bits, mul_bits, B by lia.
      destruct (Z.leb_spec 0 i), (Z.ltb_spec (i + (wid t - 0)) (wid t)); try lia. cbn [andb]. rewrite orb_false_r. f_equal. lia.
    - unfold rotr. destruct (shlr_spec il t x 0) as (b & -> & _ & B); [lia|]. cbn [bind].
      rewrite Z.sub_0_r. rewrite shl_promote by (auto; lia). cbn [bind]. f_equal.
      apply (val_ext t); [apply conv_val|exact V|]. intros i Hi. rewrite conv_bits, Z.lor_spec, conv_bits, mul_bits, B by lia.
      destruct (Z.leb_spec (wid t) i), (Z.ltb_spec (i + 0) (wid t)); try lia. cbn [andb]. rewrite orb_false_r. f_equal. lia.
  Qed.
  Lemma rot0_wide t x : (il <= lg t)%nat -> rotl il md t x 0 = UB /\ rotr il md t x 0 = UB.
  Proof.
    intros L. split.
    - unfold rotl. rewrite shlr_ub by (rewrite promote_wide by exact L; lia). unfold shl.
      destruct (_ && _); [|reflexivity]. destruct (_ && _); reflexivity.
    - unfold rotr. rewrite Z.sub_0_r. rewrite shl_ub by (rewrite promote_wide by exact L; lia).
      destruct (shlr il t x 0) eqn:E; try reflexivity.
      pose proof (shlr_spec il t x 0) as H. rewrite promote_wide in H by exact L. destruct H as (r & E' & _); [pose proof (wid_ge t); lia|]. congruence.
  Qed.

  Lemma rot_inverse_lemma t x s : (sgn t = false \/ md = true) -> is_val t x -> 0 < s < wid t ->
    (exists y, rotl il md t x s = Ok y /\ rotr il md t y s = Ok x) /\
    (exists y, rotr il md t x s = Ok y /\ rotl il md t y s = Ok x).
  Proof.
    intros D V Hs.
    assert (SD : forall y u, shl_defined t y u) by (intros; unfold BitSpec.shl_defined; tauto).
    split.
    - destruct (rotl_lemma t x s V Hs (SD _ _)) as (y & E & Vy & B). exists y. split; [exact E|].
      destruct (rotr_lemma t y s Vy Hs (SD _ _)) as (z & E' & Vz & B'). rewrite E'. f_equal.
      apply (val_ext t); auto. intros i Hi. specialize (B' i Hi). pose proof (Z.mod_pos_bound (i + s) (wid t) ltac:(lia)) as M.
      specialize (B _ M). rewrite Zminus_mod_idemp_l in B. replace (i + s - s) with i in B by lia. rewrite (Z.mod_small i) in B by lia.
      destruct (Z.testbit z i), (Z.testbit x i), (Z.testbit y ((i + s) mod wid t)); intuition congruence.
    - destruct (rotr_lemma t x s V Hs (SD _ _)) as (y & E & Vy & B). exists y. split; [exact E|].
      destruct (rotl_lemma t y s Vy Hs (SD _ _)) as (z & E' & Vz & B'). rewrite E'. f_equal.
      apply (val_ext t); auto. intros i Hi. specialize (B' i Hi). pose proof (Z.mod_pos_bound (i - s) (wid t) ltac:(lia)) as M.
      specialize (B _ M). rewrite Zplus_mod_idemp_l in B. replace (i - s + s) with i in B by lia. rewrite (Z.mod_small i) in B by lia.
      destruct (Z.testbit z i), (Z.testbit x i), (Z.testbit y ((i - s) mod wid t)); intuition congruence.
  Qed.

  (** single bits *)
  Lemma shl1 t b : 0 <= b < wid (promote t) -> shl md (promote t) 1 b = Ok (conv (promote t) (2 ^ b)).
  Proof.
    intros Hb. rewrite shl_ok; [now rewrite Z.mul_1_l|exact Hb|]. right. right. split; [lia|]. rewrite Z.mul_1_l. apply pow_strict. lia.
  Qed.
  Lemma bit_bits b i : 0 <= b -> 0 <= i -> Z.testbit (2 ^ b) i = (i =? b).
  Proof. intros Hb Hi. rewrite Z.pow2_bits_eqb by exact Hb. apply Z.eqb_sym. Qed.

  Lemma single_bit_lemma t x b : is_val t x -> 0 <= b < wid t ->
    (exists r, setbit il md t x b = Ok r /\ has_bits t r (fun i => Z.testbit x i = true \/ i = b)) /\
    (exists r, rstbit il md t x b = Ok r /\ has_bits t r (fun i => Z.testbit x i = true /\ i <> b)) /\
    (exists r, flipbit il md t x b = Ok r /\ has_bits t r (fun i => if i =? b then Z.testbit x i = false else Z.testbit x i = true)) /\
    testbit il md t x b = Ok (Z.testbit x b).
  Proof.
    intros V Hb. pose proof (promote_wid il t) as PW.
    unfold setbit, rstbit, flipbit, testbit. rewrite shl1 by lia. cbn [bind]. split; [|split; [|split]].
    - eexists. split; [reflexivity|]. apply bits_intro. intros i Hi. rewrite Z.lor_spec, conv_bits, bit_bits by lia.
      rewrite orb_true_iff, Z.eqb_eq. reflexivity.
    - eexists. split; [reflexivity|]. apply bits_intro. intros i Hi. rewrite Z.land_spec, cpl_bits, conv_bits, bit_bits by lia.
      rewrite andb_true_iff, negb_true_iff, Z.eqb_neq. reflexivity.
    - eexists. split; [reflexivity|]. apply bits_intro. intros i Hi. rewrite Z.lxor_spec, conv_bits, bit_bits by lia.
      destruct (i =? b), (Z.testbit x i); cbn; split; congruence.
    - f_equal. destruct (Z.testbit x b) eqn:E.
      + apply negb_true_iff, Z.eqb_neq. intros F. apply (f_equal (fun z => Z.testbit z b)) in F.
        rewrite Z.land_spec, conv_bits, bit_bits, E, Z.eqb_refl, Z.bits_0 in F by lia. discriminate.
      + apply negb_false_iff, Z.eqb_eq. assert (Vp := promote_val il t x V).
        destruct (Z.eq_dec b (wid (promote t) - 1)) as [Eb|Nb].
        * assert (Vl : is_val (promote t) (Z.land x (conv (promote t) (2 ^ b)))).
          { assert (G : Z.land x (conv (promote t) (2 ^ b)) = conv (promote t) (Z.land x (2 ^ b))).
            { destruct (sgn (promote t)) eqn:Es.
              - pose proof Vp as Vx. unfold is_val in Vx. rewrite Es in Vx.
                assert (C : conv (promote t) (2 ^ b) = - 2 ^ b).
                { unfold conv. rewrite Es, Eb. pose proof (wid_half (promote t)). pose proof (half_pos (promote t)).
                  rewrite Z.mod_small by lia. cbn [andb]. rewrite Z.leb_refl. lia. }
                assert (X0 : 0 <= x).
                { destruct (Z_lt_ge_dec x 0) as [N|]; [|lia]. exfalso. rewrite Eb in E.
                  rewrite Z.bits_above_log2_neg in E; [discriminate|exact N|].
                  destruct (Z.eq_dec (Z.pred (- x)) 0) as [E0|E0]; [rewrite E0; change (Z.log2 0) with 0; pose proof (wid_ge (promote t)); lia|]. apply Z.log2_lt_pow2; lia. }
                rewrite C. transitivity 0; [|symmetry].
                + apply Z.bits_inj'. intros i Hi. rewrite Z.land_spec, Z.bits_0.
                  destruct (Z_lt_ge_dec i b) as [Li|Li].
                  * rewrite opp_bits by lia. rewrite bit_bits by lia. assert (Nib : (i =? b) = false) by (apply Z.eqb_neq; lia). rewrite Nib. cbn [negb].
                    assert (BL : blw false (2 ^ b) i = true).
                    { apply blw_iff; [lia|]. intros j Hj. rewrite bit_bits by lia. apply Z.eqb_neq. lia. }
                    rewrite BL. cbn. apply andb_false_r.
                  * replace (Z.testbit x i) with false; [reflexivity|]. symmetry. destruct (Z.eq_dec x 0) as [->|]; [apply Z.bits_0|].
                    apply Z.bits_above_log2; [lia|]. apply Z.lt_le_trans with b; [|lia]. apply Z.log2_lt_pow2; [lia|]. rewrite Eb. lia.
                + replace (Z.land x (2 ^ b)) with 0; [apply conv_id, val_0|]. symmetry. apply Z.bits_inj'. intros i Hi.
                  rewrite Z.land_spec, bit_bits, Z.bits_0 by lia. destruct (Z.eqb_spec i b) as [->|]; [now rewrite E|apply andb_false_r].
              - rewrite conv_id.
                + symmetry. apply conv_id. unfold is_val in *. rewrite Es in *. split; [apply Z.land_nonneg; lia|].
                  replace (Z.land x (2 ^ b)) with 0; [apply pow_pos; lia|]. symmetry. apply Z.bits_inj'. intros i Hi.
                  rewrite Z.land_spec, bit_bits, Z.bits_0 by lia. destruct (Z.eqb_spec i b) as [->|]; [now rewrite E|apply andb_false_r].
                + unfold is_val. rewrite Es. pose proof (pow_pos b ltac:(lia)). pose proof (pow_strict b (wid (promote t)) ltac:(lia)). lia. }
            rewrite G. apply conv_val. }
          apply (val_ext (promote t)); [exact Vl|apply val_0|]. intros i Hi. rewrite Z.land_spec, conv_bits, bit_bits, Z.bits_0 by lia.
          destruct (Z.eqb_spec i b) as [->|]; [now rewrite E|apply andb_false_r].
        * rewrite conv_id.
          -- apply Z.bits_inj'. intros i Hi. rewrite Z.land_spec, bit_bits, Z.bits_0 by lia. destruct (Z.eqb_spec i b) as [->|]; [now rewrite E|apply andb_false_r].
          -- apply val_small. pose proof (pow_pos b ltac:(lia)). pose proof (pow_strict b (wid (promote t) - 1) ltac:(lia)). lia.
  Qed.

  (** bit ranges *)
  Lemma ones_below_ok t b : 0 <= b < digits (promote t) -> ones_below il md t b = Ok (Z.ones b).
  Proof.
    intros Hb. unfold ones_below. pose proof (wid_ge (promote t)) as W8.
    assert (Hw : b < wid (promote t)) by (unfold digits in Hb; destruct (sgn (promote t)); lia).
    rewrite shl1 by lia. cbn [bind]. pose proof (pow_pos b ltac:(lia)).
    assert (V : is_val (promote t) (2 ^ b)).
    { unfold is_val, digits in *. pose proof (half_pos (promote t)). destruct (sgn (promote t)).
      - pose proof (pow_strict b (wid (promote t) - 1) ltac:(lia)). lia.
      - pose proof (pow_strict b (wid (promote t)) ltac:(lia)). lia. }
    rewrite conv_id by exact V. rewrite Z.ones_equiv. apply arith_ok. revert V. unfold is_val. pose proof (half_pos (promote t)). destruct (sgn _); lia.
  Qed.
  Lemma ones_below_ub t b : digits (promote t) <= b -> ones_below il md t b = UB.
  Proof.
    intros Hb. unfold ones_below, digits in *. pose proof (wid_ge (promote t)) as W8. destruct (sgn (promote t)) eqn:E.
    - destruct (Z.eq_dec b (wid (promote t) - 1)) as [->|N]; [|rewrite shl_ub by lia; reflexivity].
      rewrite shl1 by lia. cbn [bind]. apply arith_ub; [exact E|]. unfold conv, is_val. rewrite E.
      pose proof (half_pos (promote t)). pose proof (wid_half (promote t)). rewrite Z.mod_small by lia. cbn [andb]. rewrite Z.leb_refl. lia.
    - rewrite shl_ub by lia. reflexivity.
  Qed.
  Lemma ones_bits b i : 0 <= b -> 0 <= i -> Z.testbit (Z.ones b) i = (i <? b).
  Proof.
    intros Hb Hi. destruct (Z.ltb_spec i b); [apply Z.ones_spec_low; lia|apply Z.ones_spec_high; lia].
  Qed.

  Lemma bit_ge_lemma t x b : is_val t x -> 0 <= b < wid t -> b < digits (promote t) ->
    (exists r, setbitsge il md t x b = Ok r /\ has_bits t r (fun i => Z.testbit x i = true \/ b <= i)) /\
    (exists r, rstbitsge il md t x b = Ok r /\ has_bits t r (fun i => Z.testbit x i = true /\ i < b)) /\
    (exists r, flipbitsge il md t x b = Ok r /\ has_bits t r (fun i => if b <=? i then Z.testbit x i = false else Z.testbit x i = true)).
  Proof.
    intros V Hb Hd. pose proof (promote_wid il t) as PW.
    unfold setbitsge, rstbitsge, flipbitsge. rewrite ones_below_ok by lia. cbn [bind]. split; [|split].
    - eexists. split; [reflexivity|]. apply bits_intro. intros i Hi. rewrite Z.lor_spec, cpl_bits, ones_bits by lia.
      rewrite orb_true_iff, negb_true_iff, Z.ltb_ge. reflexivity.
    - eexists. split; [reflexivity|]. apply bits_intro. intros i Hi. rewrite Z.land_spec, ones_bits by lia.
      rewrite andb_true_iff, Z.ltb_lt. reflexivity.
    - eexists. split; [reflexivity|]. apply bits_intro. intros i Hi. rewrite Z.lxor_spec, cpl_bits, ones_bits by lia.
      destruct (Z.leb_spec b i), (Z.ltb_spec i b), (Z.testbit x i); try lia; cbn; split; congruence.
  Qed.
  Lemma bit_ge_ub t x b : digits (promote t) <= b ->
    setbitsge il md t x b = UB /\ rstbitsge il md t x b = UB /\ flipbitsge il md t x b = UB.
  Proof. intros H. unfold setbitsge, rstbitsge, flipbitsge. rewrite ones_below_ub by exact H. auto. Qed.

  Lemma bit_le_lemma t x b : is_val t x -> 0 <= b < wid t -> b + 1 < digits (promote t) ->
    (exists r, setbitsle il md t x b = Ok r /\ has_bits t r (fun i => Z.testbit x i = true \/ i <= b)) /\
    (exists r, rstbitsle il md t x b = Ok r /\ has_bits t r (fun i => Z.testbit x i = true /\ b < i)) /\
    (exists r, flipbitsle il md t x b = Ok r /\ has_bits t r (fun i => if i <=? b then Z.testbit x i = false else Z.testbit x i = true)).
  Proof.
    intros V Hb Hd. pose proof (promote_wid il t) as PW.
    unfold setbitsle, rstbitsle, flipbitsle. rewrite ones_below_ok by lia. cbn [bind]. split; [|split].
    - eexists. split; [reflexivity|]. apply bits_intro. intros i Hi. rewrite Z.lor_spec, ones_bits by lia.
      rewrite orb_true_iff, Z.ltb_lt. split; (intros [H|H]; [left; exact H|right; lia]).
    - eexists. split; [reflexivity|]. apply bits_intro. intros i Hi. rewrite Z.land_spec, cpl_bits, ones_bits by lia.
      rewrite andb_true_iff, negb_true_iff, Z.ltb_ge. split; (intros [H H']; split; [exact H|lia]).
    - eexists. split; [reflexivity|]. apply bits_intro. intros i Hi. rewrite Z.lxor_spec, ones_bits by lia.
      destruct (Z.leb_spec i b), (Z.ltb_spec i (b + 1)), (Z.testbit x i); try lia; cbn; split; congruence.
  Qed.
  Lemma bit_le_ub t x b : digits (promote t) <= b + 1 ->
    setbitsle il md t x b = UB /\ rstbitsle il md t x b = UB /\ flipbitsle il md t x b = UB.
  Proof. intros H. unfold setbitsle, rstbitsle, flipbitsle. rewrite ones_below_ub by exact H. auto. Qed.

  Lemma narrow_digits t b : (lg t < il)%nat -> b < wid t -> b + 1 < digits (promote t).
  Proof.
    intros L H. destruct (promote_narrow il t L) as [E Hw]. unfold digits. rewrite E in *. cbn [sgn int_t]. pose proof (wid_ge t). lia.
  Qed.

  (** ** Rightmost bits *)
  Lemma prm_arith t z : (sgn (promote t) = true -> is_val (promote t) z) ->
    exists r, arith (promote t) z = Ok r /\ forall i, 0 <= i < wid t -> Z.testbit r i = Z.testbit z i.
  Proof.
    intros H. pose proof (promote_wid il t). destruct (arith_cases (promote t) z) as [(r & E & _ & B)|(E & S & N)].
    - exists r. split; [exact E|]. intros i Hi. apply B. lia.
    - exfalso. auto.
  Qed.

  Notation no_overflow := (no_overflow il).
  Lemma no_overflow_prm t x z : is_val t x -> no_overflow t z -> (z = x + 1 \/ z = x - 1 \/ z = - x) ->
    sgn (promote t) = true -> is_val (promote t) z.
  Proof.
    intros V N Z1 S. destruct (Nat.lt_ge_cases (lg t) il) as [L|L].
    - destruct (promote_narrow il t L) as [E Hw]. pose proof (wid_ge t). unfold is_val. rewrite S.
      pose proof (pow_mono (wid t + 1) (wid (promote t) - 1) ltac:(lia)) as PM. pose proof (wid_half t). pose proof (half_pos t).
      rewrite Z.pow_add_r in PM by lia. revert V. unfold is_val. destruct (sgn t); intros V; lia.
    - rewrite promote_wide in * by exact L. destruct N as [N|[N|N]]; [congruence|lia|exact N].
  Qed.

  Lemma rightmost1_lemma t x : is_val t x -> no_overflow t (x - 1) ->
    (exists r, rstls1b il t x = Ok r /\ has_bits t r (fun i => Z.testbit x i = true /\ ~ below false x i)) /\
    (exists r, sett0 il t x = Ok r /\ has_bits t r (fun i => Z.testbit x i = true \/ below false x i)) /\
    (exists r, maskt0 il t x = Ok r /\ has_bits t r (fun i => below false x (i + 1))) /\
    (exists r, maskt0ls1b il t x = Ok r /\ has_bits t r (fun i => below false x i)).
  Proof.
    intros V N. pose proof (promote_wid il t) as PW.
    destruct (prm_arith t (x - 1)) as (r & E & B). { apply (no_overflow_prm t x); auto. }
    assert (BL : forall i, 0 <= i -> blw false x (i + 1) = negb (Z.testbit x i) && blw false x i).
    { intros i Hi. unfold blw. rewrite Z.add_1_r, Z2Nat.inj_succ by lia. cbn [allb]. rewrite Z2Nat.id by lia. destruct (Z.testbit x i); reflexivity. }
    unfold rstls1b, sett0, maskt0, maskt0ls1b. rewrite E. cbn [bind].
    split; [|split; [|split]]; (eexists; split; [reflexivity|]; apply bits_intro; intros i Hi).
    - rewrite Z.land_spec, B, sub1_bits by lia. rewrite <- blw_false by lia. destruct (Z.testbit x i), (blw false x i); cbn; intuition congruence.
    - rewrite Z.lor_spec, B, sub1_bits by lia. rewrite <- blw_iff by lia. destruct (Z.testbit x i), (blw false x i); cbn; intuition congruence.
    - rewrite Z.land_spec, cpl_bits, B, sub1_bits by lia. rewrite <- blw_iff, BL by lia. destruct (Z.testbit x i), (blw false x i); cbn; intuition congruence.
    - rewrite Z.lxor_spec, B, sub1_bits by lia. rewrite <- blw_iff by lia. destruct (Z.testbit x i), (blw false x i); cbn; intuition congruence.
  Qed.
  Lemma rightmost0_lemma t x : is_val t x -> no_overflow t (x + 1) ->
    (exists r, isols0b il t x = Ok r /\ has_bits t r (fun i => Z.testbit x i = false /\ below true x i)) /\
    (exists r, setls0b il t x = Ok r /\ has_bits t r (fun i => Z.testbit x i = true \/ below true x i)) /\
    (exists r, rstt1 il t x = Ok r /\ has_bits t r (fun i => Z.testbit x i = true /\ ~ below true x i)) /\
    (exists r, maskt1 il t x = Ok r /\ has_bits t r (fun i => below true x (i + 1))) /\
    (exists r, maskt1ls0b il t x = Ok r /\ has_bits t r (fun i => below true x i)).
  Proof.
    intros V N. pose proof (promote_wid il t) as PW.
    destruct (prm_arith t (x + 1)) as (r & E & B). { apply (no_overflow_prm t x); auto. }
    assert (BL : forall i, 0 <= i -> blw true x (i + 1) = Z.testbit x i && blw true x i).
    { intros i Hi. unfold blw. rewrite Z.add_1_r, Z2Nat.inj_succ by lia. cbn [allb]. rewrite Z2Nat.id by lia. destruct (Z.testbit x i); reflexivity. }
    unfold isols0b, setls0b, rstt1, maskt1, maskt1ls0b. rewrite E. cbn [bind].
    split; [|split; [|split; [|split]]]; (eexists; split; [reflexivity|]; apply bits_intro; intros i Hi).
    - rewrite Z.land_spec, cpl_bits, B, add1_bits by lia. rewrite <- blw_iff by lia. destruct (Z.testbit x i), (blw true x i); cbn; intuition congruence.
    - rewrite Z.lor_spec, B, add1_bits by lia. rewrite <- blw_iff by lia. destruct (Z.testbit x i), (blw true x i); cbn; intuition congruence.
    - rewrite Z.land_spec, B, add1_bits by lia. rewrite <- blw_false by lia. destruct (Z.testbit x i), (blw true x i); cbn; intuition congruence.
    - rewrite cpl_bits, Z.lor_spec, cpl_bits, B, add1_bits by lia. rewrite <- blw_iff, BL by lia. destruct (Z.testbit x i), (blw true x i); cbn; intuition congruence.
    - rewrite Z.lxor_spec, B, add1_bits by lia. rewrite <- blw_iff by lia. destruct (Z.testbit x i), (blw true x i); cbn; intuition congruence.
  Qed.
  Lemma isols1b_lemma t x : is_val t x -> no_overflow t (- x) ->
    exists r, isols1b il t x = Ok r /\ has_bits t r (fun i => Z.testbit x i = true /\ below false x i).
  Proof.
    intros V N. pose proof (promote_wid il t) as PW.
    destruct (prm_arith t (- x)) as (r & E & B). { apply (no_overflow_prm t x); auto. }
    unfold isols1b. rewrite E. cbn [bind]. eexists; split; [reflexivity|]; apply bits_intro; intros i Hi.
    rewrite Z.land_spec, B, opp_bits by lia. rewrite <- blw_iff by lia. destruct (Z.testbit x i), (blw false x i); cbn; intuition congruence.
  Qed.
End B.
