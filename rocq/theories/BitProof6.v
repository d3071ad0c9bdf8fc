(** The bit theorems put together as they are stated in BitProps.v. *)
From Coq Require Import List Arith ZArith Bool Lia.
From Verif Require Import Base BitModel BitSpec BitProof BitProof2 BitProof3 BitProof4 BitProof5.
Import ListNotations.
Open Scope Z_scope.

Lemma zeros_lemma il md bi t x : is_val t x ->
  (exists c, clz il md bi t x = Ok c /\ cntl0 il md bi t x = Ok c /\ leading false t x c) /\
  (exists c, ctz il bi t x = Ok c /\ cntt0 il bi t x = Ok c /\ trailing false t x c).
Proof.
  intros V. split.
  - destruct (clz_lemma il md bi t x V) as (c & E & L). exists c. auto.
  - destruct (ctz_lemma il bi t x V) as (c & E & L). exists c. auto.
Qed.

Lemma leading_ones_upto t x c : wid t = Z.of_nat (Z.to_nat (wid t)) -> lead true x (widn t) = c -> leading true t x c.
Proof. intros _ <-. apply lead_leading. Qed.

Lemma cntl1_refuted_lemma :
  cntl1 2 false true (Ity false 2) 0 = Ok 31 /\ leading true (Ity false 2) 0 0 /\
  cntl1 2 false false (Ity false 0) 255 = Ok 0 /\ leading true (Ity false 0) 255 8 /\
  cntl1 2 false false (Ity true 0) (-1) = Ok 32 /\ leading true (Ity true 0) (-1) 8.
Proof.
  split; [vm_compute; reflexivity|]. split; [apply leading_ones_upto; vm_compute; reflexivity|].
  split; [vm_compute; reflexivity|]. split; [apply leading_ones_upto; vm_compute; reflexivity|].
  split; [vm_compute; reflexivity|]. apply leading_ones_upto; vm_compute; reflexivity.
Qed.

Lemma cntl1_partial_lemma il md bi t x : is_val t x ->
  exists c z, leading true t x c /\ leading false t x z /\
    cntl1 il md bi t x =
      Ok (if Nat.ltb (lg t) il then
            (if sgn t then (if x <? 0 then c + (wid (int_t il) - wid t) else c) else 0)
          else if has_builtin il bi t then
            (if Z.testbit x (wid t - 1) then c - 1 else z - 1)
          else c).
Proof.
  intros V. cut (exists c, leading true t x c /\ cntl1 il md bi t x =
      Ok (if Nat.ltb (lg t) il then (if sgn t then (if x <? 0 then c + (wid (int_t il) - wid t) else c) else 0)
          else if has_builtin il bi t then (if Z.testbit x (wid t - 1) then c - 1 else lead false x (widn t) - 1) else c)).
  { intros (c & H1 & H2). exists c, (lead false x (widn t)). split; [exact H1|]. split; [apply lead_leading|exact H2]. }
  destruct (Nat.ltb_spec (lg t) il) as [L|L].
  - destruct (sgn t) eqn:S; [now apply cntl1_narrow_signed|]. exists (lead true x (widn t)). split; [apply lead_leading|].
    now apply cntl1_narrow_unsigned.
  - destruct (has_builtin il bi t) eqn:HB.
    + exists (lead true x (widn t)). split; [apply lead_leading|]. unfold cntl1, clrsb. rewrite HB. unfold builtin_clrsb.
      destruct (Z.testbit x (wid t - 1)); reflexivity.
    + destruct (cntl1_wide il md bi t x L V HB) as (c & E & H). eauto.
Qed.

Lemma cntt1_refuted_lemma : cntt1 2 true (Ity true 0) (-1) = Ok 32 /\ trailing true (Ity true 0) (-1) 8.
Proof.
  split; [vm_compute; reflexivity|]. replace 8 with (trail true (-1) 0 (widn (Ity true 0))) by (vm_compute; reflexivity). apply trail_trailing.
Qed.

Lemma trailing_unique b t x c c' : trailing b t x c -> trailing b t x c' -> c = c'.
Proof.
  intros (H1 & H2 & H3) (H1' & H2' & H3'). destruct (Z.lt_trichotomy c c') as [L|[L|L]]; [exfalso|exact L|exfalso].
  - specialize (H3 ltac:(lia)). rewrite H2' in H3 by lia. now destruct b.
  - specialize (H3' ltac:(lia)). rewrite H2 in H3' by lia. now destruct b.
Qed.

Lemma cntt1_partial_lemma il bi t x : is_val t x ->
  exists c, trailing true t x c /\
    cntt1 il bi t x = Ok (if Nat.ltb (lg t) il && sgn t && (x =? -1) then wid (int_t il) else c).
Proof.
  intros V. destruct (cntt1_lemma il bi t x V) as (c & E & T & C). exists (Z.min c (wid t)). split; [exact T|]. rewrite E. f_equal.
  destruct C as [C|(C1 & C2 & C3 & C4)].
  - rewrite Z.min_l in * by exact C. destruct (Nat.ltb_spec (lg t) il) as [L|L]; [|reflexivity]. destruct (sgn t) eqn:S; [|reflexivity].
    destruct (Z.eqb_spec x (-1)) as [->|]; [|reflexivity]. cbn [andb]. exfalso.
    (* then the complement is 0 and the count the width of int *)
    unfold cntt1 in E. destruct (promote_narrow il t L) as [EP Hw]. rewrite EP in *.
    assert (Z0 : cpl (int_t il) (-1) = 0) by (unfold cpl; change (Z.lnot (-1)) with 0; apply conv_id, val_0).
    rewrite Z0 in E. unfold ctz in E. cbn [Z.eqb] in E. change (0 =? 0) with true in E. cbv iota in E. injection E as E. pose proof (wid_ge t). lia.
  - rewrite C2, C3. rewrite (proj2 (Nat.ltb_lt _ _) C1). cbn. exact C4.
Qed.

Lemma rot_refuted_lemma :
  rotl 2 true (Ity false 2) 5 0 = UB /\ rotr 2 true (Ity false 2) 5 0 = UB /\ rotl 2 false (Ity true 2) (-1) 1 = UB.
Proof. repeat split; vm_compute; reflexivity. Qed.

Lemma rot_partial_lemma il md t x s : is_val t x ->
  (0 < s < wid t -> shl_defined il md t x s ->
    exists r, rotl il md t x s = Ok r /\ has_bits t r (fun i => Z.testbit x ((i - s) mod wid t) = true)) /\
  (0 < s < wid t -> shl_defined il md t x (wid t - s) ->
    exists r, rotr il md t x s = Ok r /\ has_bits t r (fun i => Z.testbit x ((i + s) mod wid t) = true)) /\
  (0 < s < wid t -> sgn t = false \/ md = true ->
    (exists y, rotl il md t x s = Ok y /\ rotr il md t y s = Ok x) /\
    (exists y, rotr il md t x s = Ok y /\ rotl il md t y s = Ok x)) /\
  ((il <= lg t)%nat -> rotl il md t x 0 = UB /\ rotr il md t x 0 = UB) /\
  ((lg t < il)%nat -> shl_defined il md t x 0 -> shl_defined il md t x (wid t) ->
    rotl il md t x 0 = Ok x /\ rotr il md t x 0 = Ok x).
Proof.
  intros V. repeat split; intros.
  - now apply rotl_lemma.
  - now apply rotr_lemma.
  - now apply rot_inverse_lemma.
  - now apply rot_inverse_lemma.
  - now apply rot0_wide.
  - now apply rot0_wide.
  - now apply rot0_narrow.
  - now apply rot0_narrow.
Qed.

Lemma bit_range_refuted_lemma :
  setbitsle 2 false (Ity false 2) 0 31 = UB /\ rstbitsle 2 false (Ity true 2) 7 30 = UB /\
  flipbitsge 2 false (Ity true 2) 0 31 = UB.
Proof. repeat split; vm_compute; reflexivity. Qed.

Lemma bit_range_partial_lemma il md t x b : is_val t x -> 0 <= b < wid t ->
  (if b <? digits (promote il t) then
    (exists r, setbitsge il md t x b = Ok r /\ has_bits t r (fun i => Z.testbit x i = true \/ b <= i)) /\
    (exists r, rstbitsge il md t x b = Ok r /\ has_bits t r (fun i => Z.testbit x i = true /\ i < b)) /\
    (exists r, flipbitsge il md t x b = Ok r /\
       has_bits t r (fun i => if b <=? i then Z.testbit x i = false else Z.testbit x i = true))
   else setbitsge il md t x b = UB /\ rstbitsge il md t x b = UB /\ flipbitsge il md t x b = UB) /\
  (if b + 1 <? digits (promote il t) then
    (exists r, setbitsle il md t x b = Ok r /\ has_bits t r (fun i => Z.testbit x i = true \/ i <= b)) /\
    (exists r, rstbitsle il md t x b = Ok r /\ has_bits t r (fun i => Z.testbit x i = true /\ b < i)) /\
    (exists r, flipbitsle il md t x b = Ok r /\
       has_bits t r (fun i => if i <=? b then Z.testbit x i = false else Z.testbit x i = true))
   else setbitsle il md t x b = UB /\ rstbitsle il md t x b = UB /\ flipbitsle il md t x b = UB) /\
  ((lg t < il)%nat -> b + 1 < digits (promote il t)).
Proof.
  intros V Hb. split; [|split].
  - destruct (Z.ltb_spec b (digits (promote il t))); [now apply bit_ge_lemma|now apply bit_ge_ub].
  - destruct (Z.ltb_spec (b + 1) (digits (promote il t))); [now apply bit_le_lemma|now apply bit_le_ub].
  - intros L. apply narrow_digits; [exact L|lia].
Qed.

Lemma rightmost_lemma il t x : is_val t x ->
  (no_overflow il t (x - 1) ->
    (exists r, rstls1b il t x = Ok r /\ has_bits t r (fun i => Z.testbit x i = true /\ ~ below false x i)) /\
    (exists r, sett0 il t x = Ok r /\ has_bits t r (fun i => Z.testbit x i = true \/ below false x i)) /\
    (exists r, maskt0 il t x = Ok r /\ has_bits t r (fun i => below false x (i + 1))) /\
    (exists r, maskt0ls1b il t x = Ok r /\ has_bits t r (fun i => below false x i))) /\
  (no_overflow il t (x + 1) ->
    (exists r, isols0b il t x = Ok r /\ has_bits t r (fun i => Z.testbit x i = false /\ below true x i)) /\
    (exists r, setls0b il t x = Ok r /\ has_bits t r (fun i => Z.testbit x i = true \/ below true x i)) /\
    (exists r, rstt1 il t x = Ok r /\ has_bits t r (fun i => Z.testbit x i = true /\ ~ below true x i)) /\
    (exists r, maskt1 il t x = Ok r /\ has_bits t r (fun i => below true x (i + 1))) /\
    (exists r, maskt1ls0b il t x = Ok r /\ has_bits t r (fun i => below true x i))) /\
  (no_overflow il t (- x) ->
    exists r, isols1b il t x = Ok r /\ has_bits t r (fun i => Z.testbit x i = true /\ below false x i)).
Proof.
  intros V. split; [|split]; intros H.
  - now apply rightmost1_lemma.
  - now apply rightmost0_lemma.
  - now apply isols1b_lemma.
Qed.

Lemma carry_refuted_lemma : carry_to_exp2 2 true true (Ity true 2) 33 (-1342177280) = UB.
Proof. vm_compute. reflexivity. Qed.
