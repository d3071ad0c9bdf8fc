(** Proofs about the sum and xor checksums. *)
From Coq Require Import List Arith ZArith Bool Lia.
From Verif Require Import Base ListFacts SearchSpec SearchProof BitModel NumModel NumProof ShaSpec ShaProof ShaProof2 SumModel SumSpec.
Import ListNotations.
Open Scope Z_scope.

Lemma conv_uns t z : sgn t = false -> conv t z = z mod 2 ^ wid t.
Proof. intros H. unfold conv. now rewrite H. Qed.

Lemma wid_pos t : 0 < wid t.
Proof. unfold wid, bytes. assert (0 < 2 ^ Z.of_nat (lg t)) by (apply Z.pow_pos_nonneg; lia). lia. Qed.

Lemma depth_bound_mono m n : (m <= n)%nat -> (depth_bound m <= depth_bound n)%nat.
Proof. intros H. unfold depth_bound. assert (L := Nat.log2_le_mono _ _ H). lia. Qed.

Lemma accum_all {A B} c d (l : list A) (init : B) op : (depth_bound (length l) <= d)%nat ->
  accumulate c d l 0 (length l) init op = Ok (fold_left op l init).
Proof.
  intros H. rewrite accumulate_correct_lemma; [|split; lia|now rewrite Nat.sub_0_r].
  now rewrite slice_full.
Qed.

Section S.
  Variables (st vt : ity) (c : bool) (d : nat).
  Hypothesis Hs : sgn st = false.
  Hypothesis Hv : sgn vt = false.
  Hypothesis Hw : wid vt <= wid st.

  Definition splus (s x : Z) : Z := conv st (s + x).

  Lemma pow_nz t : 2 ^ wid t <> 0.
  Proof. apply Z.pow_nonzero; [lia|]. assert (H := wid_pos t). lia. Qed.

  Lemma fold_splus l : forall s, fold_left splus l s mod 2 ^ wid st = (s + total l) mod 2 ^ wid st.
  Proof.
    induction l as [|x l IH]; intros s; cbn [fold_left total fold_right]; [now rewrite Z.add_0_r|].
    rewrite IH. unfold splus. rewrite conv_uns by exact Hs. rewrite Z.add_mod_idemp_l by apply pow_nz.
    unfold total. f_equal. lia.
  Qed.

  Lemma fold_splus_range l : forall s, 0 <= s < 2 ^ wid st -> 0 <= fold_left splus l s < 2 ^ wid st.
  Proof.
    induction l as [|x l IH]; intros s H; [exact H|]. cbn [fold_left]. apply IH. unfold splus. rewrite conv_uns by exact Hs.
    apply Z.mod_pos_bound. apply Z.pow_pos_nonneg; [lia|]. assert (P := wid_pos st). lia.
  Qed.

  Lemma checksum_mod s : sum_checksum vt s = s mod 2 ^ wid vt.
  Proof.
    unfold sum_checksum, tmax. rewrite Hv. assert (P := wid_pos vt).
    change (2 ^ wid vt - 1) with (Z.pred (2 ^ wid vt)). rewrite <- Z.ones_equiv, Z.land_ones by lia.
    rewrite conv_uns by exact Hv. apply Z.mod_mod, pow_nz.
  Qed.

  Lemma mod_narrow s : s mod 2 ^ wid st mod 2 ^ wid vt = s mod 2 ^ wid vt.
  Proof.
    assert (P := wid_pos vt). assert (P' := wid_pos st).
    replace (2 ^ wid st) with (2 ^ wid vt * 2 ^ (wid st - wid vt)) by (rewrite <- Z.pow_add_r by lia; f_equal; lia).
    symmetry. apply Znumtheory.Zmod_div_mod.
    - apply Z.pow_pos_nonneg; lia.
    - apply Z.mul_pos_pos; apply Z.pow_pos_nonneg; lia.
    - now exists (2 ^ (wid st - wid vt)); rewrite Z.mul_comm.
  Qed.

  Theorem sum_pieces_ok : forall s0 ps, 0 <= s0 < 2 ^ wid st -> (depth_bound (length (concat (map sum_piece_bytes ps))) <= d)%nat ->
    exists s, feed_all (sum_feed_piece st c d) s0 ps = Ok s /\
      s = (s0 + total (concat (map sum_piece_bytes ps))) mod 2 ^ wid st /\
      sum_c_process_block st c d s0 (concat (map sum_piece_bytes ps)) = Ok s /\
      sum_checksum vt s = (s0 + total (concat (map sum_piece_bytes ps))) mod 2 ^ wid vt.
  Proof.
    intros s0 ps H0 H. exists (fold_left splus (concat (map sum_piece_bytes ps)) s0).
    assert (G : forall ps s0, (depth_bound (length (concat (map sum_piece_bytes ps))) <= d)%nat ->
      feed_all (sum_feed_piece st c d) s0 ps = Ok (fold_left splus (concat (map sum_piece_bytes ps)) s0)).
    { clear. induction ps as [|p ps IH]; intros s0 H; [reflexivity|]. cbn [map concat] in H |- *. rewrite app_length in H.
      assert (D1 : (depth_bound (length (sum_piece_bytes p)) <= d)%nat).
      { eapply Nat.le_trans; [apply depth_bound_mono with (n := (length (sum_piece_bytes p) + length (concat (map sum_piece_bytes ps)))%nat); lia|exact H]. }
      assert (D2 : (depth_bound (length (concat (map sum_piece_bytes ps))) <= d)%nat).
      { eapply Nat.le_trans; [apply depth_bound_mono with (n := (length (sum_piece_bytes p) + length (concat (map sum_piece_bytes ps)))%nat); lia|exact H]. }
      rewrite fold_left_app. cbn [feed_all].
      assert (F : sum_feed_piece st c d s0 p = Ok (fold_left splus (sum_piece_bytes p) s0)).
      { destruct p; try reflexivity; cbn [sum_feed_piece sum_piece_bytes] in *;
          unfold sum_c_process_block, sum_process_block, calc_sum; now rewrite accum_all by exact D1. }
      rewrite F. cbn [bind]. now apply IH. }
    split; [now apply G|]. split.
    - rewrite <- fold_splus. symmetry. apply Z.mod_small. apply fold_splus_range. exact H0.
    - split; [unfold sum_c_process_block, calc_sum; now rewrite accum_all by exact H|].
      rewrite checksum_mod, <- mod_narrow, fold_splus, mod_narrow. reflexivity.
  Qed.

  Theorem make_sum_ok : forall bytes, (depth_bound (length bytes) <= d)%nat ->
    make_sum st vt c d bytes = Ok (total bytes mod 2 ^ wid vt).
  Proof.
    intros bytes H. unfold make_sum, sum_c_process_block, calc_sum. rewrite accum_all by exact H. cbn [bind].
    rewrite checksum_mod, <- mod_narrow. fold splus. rewrite fold_splus, mod_narrow. reflexivity.
  Qed.

End S.

Section X.
  Variables (st : ity) (c : bool) (d : nat).
  Hypothesis Hs : sgn st = false.

  Definition sxor (s x : Z) : Z := conv st (Z.lxor s x).

  Lemma fold_sxor l i : 0 <= i < wid st -> forall s,
    Z.testbit (fold_left sxor l s) i = xorb (Z.testbit s i) (odd_bit l i).
  Proof.
    intros Hi. induction l as [|x l IH]; intros s; cbn [fold_left].
    - unfold odd_bit. cbn. now rewrite xorb_false_r.
    - rewrite IH. unfold sxor. rewrite conv_uns by exact Hs. rewrite Z.mod_pow2_bits_low, Z.lxor_spec by lia.
      unfold odd_bit. cbn [filter]. destruct (Z.testbit x i); cbn [length].
      + rewrite Nat.odd_succ, <- Nat.negb_odd. now destruct (Z.testbit s i), (Nat.odd _).
      + now rewrite xorb_false_r.
  Qed.

  Lemma xor_checksum_bits s : 0 <= xor_checksum s < 256 /\ forall i, 0 <= i < 8 -> Z.testbit (xor_checksum s) i = Z.testbit s i.
  Proof.
    unfold xor_checksum. rewrite conv_uns by reflexivity. change (wid (Ity false 0)) with 8. change (2 ^ 8) with 256.
    split; [apply Z.mod_pos_bound; lia|]. intros i Hi. change 256 with (2 ^ 8). rewrite Z.mod_pow2_bits_low by lia.
    change 255 with (Z.ones 8). rewrite Z.land_ones, Z.mod_pow2_bits_low by lia. reflexivity.
  Qed.

  Theorem xor_pieces_ok : forall s0 ps, (depth_bound (length (concat (map sum_piece_bytes ps))) <= d)%nat ->
    exists s, feed_all (xor_feed_piece st c d) s0 ps = Ok s /\
      xor_c_process_block st c d s0 (concat (map sum_piece_bytes ps)) = Ok s /\
      0 <= xor_checksum s < 256 /\
      forall i, 0 <= i < 8 -> Z.testbit (xor_checksum s) i = xorb (Z.testbit s0 i) (odd_bit (concat (map sum_piece_bytes ps)) i).
  Proof.
    intros s0 ps H. exists (fold_left sxor (concat (map sum_piece_bytes ps)) s0).
    assert (G : forall ps s0, (depth_bound (length (concat (map sum_piece_bytes ps))) <= d)%nat ->
      feed_all (xor_feed_piece st c d) s0 ps = Ok (fold_left sxor (concat (map sum_piece_bytes ps)) s0)).
    { clear. induction ps as [|p ps IH]; intros s0 H; [reflexivity|]. cbn [map concat] in H |- *. rewrite app_length in H.
      assert (D1 : (depth_bound (length (sum_piece_bytes p)) <= d)%nat).
      { eapply Nat.le_trans; [apply depth_bound_mono with (n := (length (sum_piece_bytes p) + length (concat (map sum_piece_bytes ps)))%nat); lia|exact H]. }
      assert (D2 : (depth_bound (length (concat (map sum_piece_bytes ps))) <= d)%nat).
      { eapply Nat.le_trans; [apply depth_bound_mono with (n := (length (sum_piece_bytes p) + length (concat (map sum_piece_bytes ps)))%nat); lia|exact H]. }
      rewrite fold_left_app. cbn [feed_all].
      assert (F : xor_feed_piece st c d s0 p = Ok (fold_left sxor (sum_piece_bytes p) s0)).
      { destruct p; try reflexivity; cbn [xor_feed_piece sum_piece_bytes] in *;
          unfold xor_c_process_block, xor_process_block, xor_calc; now rewrite accum_all by exact D1. }
      rewrite F. cbn [bind]. now apply IH. }
    split; [now apply G|]. split; [unfold xor_c_process_block, xor_calc; now rewrite accum_all by exact H|].
    split; [apply xor_checksum_bits|]. intros i Hi. rewrite (proj2 (xor_checksum_bits _)) by exact Hi.
    apply fold_sxor. assert (P := wid_pos st). unfold wid, bytes in *.
    assert (1 <= 2 ^ Z.of_nat (lg st)) by (apply (Z.pow_le_mono_r 2 0); lia). lia.
  Qed.

  Theorem make_xor8_ok : forall bytes, (depth_bound (length bytes) <= d)%nat ->
    exists v, make_xor8 st c d bytes = Ok v /\ 0 <= v < 256 /\ forall i, 0 <= i < 8 -> Z.testbit v i = odd_bit bytes i.
  Proof.
    intros bytes H. destruct (xor_pieces_ok 0 [SCBlock bytes]) as (s & E & _ & B & T).
    - cbn [map concat sum_piece_bytes]. now rewrite app_nil_r.
    - exists (xor_checksum s). split; [|split; [exact B|]].
      + unfold make_xor8. cbn [feed_all xor_feed_piece] in E. destruct (xor_c_process_block st c d 0 bytes); cbn [bind] in *; congruence.
      + intros i Hi. rewrite T by exact Hi. cbn [map concat sum_piece_bytes]. rewrite app_nil_r. now rewrite Z.bits_0, xorb_false_l.
  Qed.
End X.
