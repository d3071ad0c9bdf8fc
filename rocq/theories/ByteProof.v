(** Proofs about endian_traits and bytes_iterator. *)
From Coq Require Import List Arith ZArith Bool Lia.
From Verif Require Import Base BitModel BitSpec BitProof ShaModel ShaProof ByteModel ByteSpec.
Import ListNotations.
Open Scope Z_scope.

Lemma byte_no_bits k x j : 0 <= k -> 0 <= j -> Z.testbit (byte_no k x) j = (j <? 8) && Z.testbit x (j + 8 * k).
Proof.
  intros Hk Hj. unfold byte_no. change 256 with (2 ^ 8). destruct (Z.ltb_spec j 8) as [L|L]; cbn [andb].
  - rewrite Z.mod_pow2_bits_low, Z.div_pow2_bits by lia. reflexivity.
  - now rewrite Z.mod_pow2_bits_high by lia.
Qed.

Lemma byte_bits_eq a b : 0 <= a < 256 -> 0 <= b < 256 -> (forall j, 0 <= j < 8 -> Z.testbit a j = Z.testbit b j) -> a = b.
Proof.
  intros Ha Hb H. apply Z.bits_inj'. intros n Hn. destruct (Z.ltb_spec n 8) as [L|L]; [apply H; lia|].
  rewrite <- (Z.mod_small a (2 ^ 8)), <- (Z.mod_small b (2 ^ 8)) by (change (2 ^ 8) with 256; lia).
  now rewrite !Z.mod_pow2_bits_high by lia.
Qed.

Lemma byte_no_range k x : 0 <= byte_no k x < 256.
Proof. apply Z.mod_pos_bound. lia. Qed.

Lemma bits255 n : 0 <= n -> Z.testbit 255 n = (n <? 8).
Proof. intros H. change 255 with (Z.ones 8). destruct (Z.ltb_spec n 8); [apply Z.ones_spec_low|apply Z.ones_spec_high]; lia. Qed.

Section E.
  Variables (il : nat) (md be : bool) (t : ity).
  Hypothesis Hil : (il <= 3)%nat.
  Hypothesis Ht : (lg t <= il)%nat.

  Lemma wid_le : wid t <= wid (Ity true il).
  Proof. unfold wid, bytes. cbn [lg]. assert (2 ^ Z.of_nat (lg t) <= 2 ^ Z.of_nat il) by (apply Z.pow_le_mono_r; lia). lia. Qed.

  Lemma wid_promote : wid (promote il t) = wid (Ity true il).
  Proof.
    unfold promote, int_t. destruct (Nat.ltb_spec (lg t) il); [reflexivity|].
    replace il with (lg t) by lia. reflexivity.
  Qed.

  Lemma place_range i : 0 <= i < bytes t -> 0 <= place be t i < bytes t.
  Proof. unfold place. destruct be; lia. Qed.

  Lemma eshift_eq i : 0 <= i < bytes t -> eshift be t i = 8 * place be t i.
  Proof.
    intros H. assert (B : bytes t <= 8).
    { unfold bytes. change 8 with (2 ^ 3). apply Z.pow_le_mono_r; lia. }
    unfold eshift, place, esize. destruct be; rewrite conv_u64, Z.mod_small by lia; lia.
  Qed.

  Lemma shl_byte v s : 0 <= v < 256 -> 0 <= s -> s + 8 <= wid t -> shl md (Ity true il) v s = Ok (conv (Ity true il) (v * 2 ^ s)).
  Proof.
    intros Hv H1 H2. assert (W := wid_le). unfold shl.
    replace ((0 <=? s) && (s <? wid (Ity true il))) with true by lia. cbn [sgn andb].
    assert (P : v * 2 ^ s < 2 ^ wid (Ity true il)).
    { apply Z.lt_le_trans with (2 ^ (8 + s)); [|apply Z.pow_le_mono_r; lia].
      rewrite Z.pow_add_r by lia. apply Z.mul_lt_mono_pos_r; [apply Z.pow_pos_nonneg; lia|]. change (2 ^ 8) with 256. lia. }
    replace ((v <? 0) || (2 ^ wid (Ity true il) <=? v * 2 ^ s)) with false; [now rewrite andb_false_r|].
    symmetry. apply orb_false_intro; [lia|]. now apply Z.leb_gt.
  Qed.

  Theorem get_byte_ok x i : 0 <= i < bytes t -> get_byte il md be t x i = Ok (byte_no (place be t i) x).
  Proof.
    intros Hi. assert (B := bytes_pos t). assert (R := place_range i Hi). assert (W := wid_le). assert (WP := wid_promote).
    unfold get_byte, esize. destruct (Z.eqb_spec (bytes t) 1) as [E|N].
    - rewrite conv_u8. unfold byte_no. replace (place be t i) with 0 by lia. now rewrite Z.mul_0_r, Z.div_1_r.
    - rewrite eshift_eq by exact Hi. set (k := place be t i) in *.
      assert (HS : 8 * k + 8 <= wid t) by (unfold wid; lia).
      rewrite shl_byte by lia. cbn [bind]. unfold shr.
      replace ((0 <=? 8 * k) && (8 * k <? wid (promote il t))) with true by lia. cbn [bind]. f_equal.
      apply byte_bits_eq; [rewrite conv_u8; apply Z.mod_pos_bound; lia|apply byte_no_range|].
      intros j Hj. rewrite conv_bits by (change (wid u8) with 8; lia).
      rewrite Z.shiftr_spec, Z.land_spec, !conv_bits by lia.
      rewrite Z.mul_pow2_bits by lia. replace (j + 8 * k - 8 * k) with j by lia.
      rewrite bits255, byte_no_bits by lia. replace (j <? 8) with true by lia. now rewrite andb_true_r.
  Qed.

  Theorem set_byte_ok x i v : is_val t x -> 0 <= i < bytes t -> 0 <= v < 256 ->
    exists y, set_byte il md be t x i v = Ok y /\ is_val t y /\ byte_no (place be t i) y = v /\
      forall j, 0 <= j < bytes t -> j <> i -> byte_no (place be t j) y = byte_no (place be t j) x.
  Proof.
    intros Hx Hi Hv. assert (B := bytes_pos t). assert (R := place_range i Hi). assert (W := wid_le). assert (WP := wid_promote).
    unfold set_byte, esize. destruct (Z.eqb_spec (bytes t) 1) as [E|N].
    - eexists. split; [reflexivity|]. split; [apply conv_val|]. split; [|intros j Hj NJ; lia].
      replace (place be t i) with 0 by lia. apply byte_bits_eq; [apply byte_no_range|exact Hv|].
      intros j Hj. rewrite byte_no_bits by lia. replace (j <? 8) with true by lia. rewrite Z.mul_0_r, Z.add_0_r.
      rewrite conv_bits by (unfold wid; lia). reflexivity.
    - rewrite eshift_eq by exact Hi. assert (HS : 8 * place be t i + 8 <= wid t) by (unfold wid; lia).
      rewrite !shl_byte by lia. cbn [bind]. cbv zeta. eexists. split; [reflexivity|]. split; [apply conv_val|].
      set (k := place be t i) in *.
      assert (G : forall n, 0 <= n < wid t ->
        Z.testbit (conv t (Z.lor (conv t (Z.land x (conv (promote il t) (cpl (Ity true il) (conv (Ity true il) (255 * 2 ^ (8 * k)))))))
          (conv (promote il t) (conv (Ity true il) (v * 2 ^ (8 * k)))))) n =
        (if (8 * k <=? n) && (n <? 8 * k + 8) then Z.testbit v (n - 8 * k) else Z.testbit x n)).
      { intros n Hn. unfold cpl. rewrite conv_bits, Z.lor_spec, conv_bits, Z.land_spec by lia. rewrite !conv_bits by lia.
        rewrite Z.lnot_spec by lia. rewrite conv_bits by lia. rewrite !Z.mul_pow2_bits by lia.
        destruct (Z.leb_spec (8 * k) n) as [C|C]; cbn [andb].
        - rewrite bits255 by lia. destruct (Z.ltb_spec n (8 * k + 8)) as [D|D].
          + replace (n - 8 * k <? 8) with true by lia. cbn [negb]. now rewrite andb_false_r.
          + replace (n - 8 * k <? 8) with false by lia. cbn [negb]. rewrite andb_true_r.
            rewrite <- (Z.mod_small v (2 ^ 8)) by (change (2 ^ 8) with 256; lia).
            rewrite Z.mod_pow2_bits_high by lia. apply orb_false_r.
        - rewrite !(Z.testbit_neg_r _ (n - 8 * k)) by lia. cbn [negb]. now rewrite andb_true_r, orb_false_r. }
      split.
      + apply byte_bits_eq; [apply byte_no_range|exact Hv|]. intros j Hj. rewrite byte_no_bits by lia.
        replace (j <? 8) with true by lia. cbn [andb]. rewrite G by lia.
        replace ((8 * k <=? j + 8 * k) && (j + 8 * k <? 8 * k + 8)) with true by lia. f_equal. lia.
      + intros j Hj NJ. assert (RJ := place_range j Hj). assert (NK : place be t j <> k) by (unfold k, place; destruct be; lia).
        apply byte_bits_eq; try apply byte_no_range. intros n Hn. rewrite !byte_no_bits by lia.
        replace (n <? 8) with true by lia. cbn [andb]. rewrite G by (unfold wid; lia).
        replace ((8 * k <=? n + 8 * place be t j) && (n + 8 * place be t j <? 8 * k + 8)) with false; [reflexivity|].
        symmetry. apply andb_false_iff. destruct (Z.lt_ge_cases (place be t j) k); [left; apply Z.leb_gt|right; apply Z.ltb_ge]; lia.
  Qed.
End E.

(** Types wider than int: the mask [UCHAR_MAX << n] is undefined for the bytes beyond the width of int. *)
Theorem get_byte_wide il md be t x i : (il < lg t)%nat -> (lg t <= 3)%nat -> 0 <= i < bytes t ->
  wid (Ity true il) <= 8 * place be t i -> get_byte il md be t x i = UB.
Proof.
  intros H1 H2 Hi Hp. assert (B : bytes t <= 8).
  { unfold bytes. change 8 with (2 ^ 3). apply Z.pow_le_mono_r; lia. }
  assert (S : eshift be t i = 8 * place be t i).
  { unfold eshift, place, esize in *. destruct be; rewrite conv_u64, Z.mod_small by lia; lia. }
  unfold get_byte, esize. assert (B1 : 1 < bytes t).
  { unfold bytes. apply Z.pow_gt_1; lia. }
  replace (bytes t =? 1) with false by lia. rewrite S. unfold shl.
  replace (8 * place be t i <? wid (Ity true il)) with false by lia. now rewrite andb_false_r.
Qed.

(** ** bytes_iterator *)
Definition at_ (sz n : Z) : biter := BIter (n / sz) (n mod sz).

Section B.
  Variables sz N : Z.
  Hypothesis Hsz : 0 < sz.
  Hypothesis HN : 0 <= N.
  Hypothesis Hmax : N * sz < 2 ^ 63.
  Hypothesis Hs2 : sz < 2 ^ 63.

  Lemma conv_i64_id z : 0 <= z < 2 ^ 63 -> conv i64 z = z.
  Proof. intros H. apply conv_id. unfold is_val. cbn [sgn i64]. change (wid i64 - 1) with 63. lia. Qed.
  Lemma conv_u64_id z : 0 <= z < 2 ^ 64 -> conv u64 z = z.
  Proof. intros H. now rewrite conv_u64, Z.mod_small. Qed.

  Lemma HN2 : N < 2 ^ 63.
  Proof. nia. Qed.

  Lemma at_bounds n : 0 <= n <= N * sz -> 0 <= n / sz <= N /\ 0 <= n mod sz < sz /\ n = sz * (n / sz) + n mod sz.
  Proof.
    intros H. split; [|split; [apply Z.mod_pos_bound; lia|apply Z.div_mod; lia]].
    split; [apply Z.div_pos; lia|]. rewrite <- (Z.div_mul N sz) by lia. apply Z.div_le_mono; lia.
  Qed.

  Lemma move_ok it n : 0 <= it -> 0 <= n < 2 ^ 63 -> it + n <= N -> move N it n = Ok (it + n).
  Proof. intros H1 H2 H3. unfold move. rewrite conv_i64_id by lia. now replace ((0 <=? it + n) && (it + n <=? N)) with true by lia. Qed.

  Theorem biter_plus_ok n k : 0 <= n -> 0 <= n mod sz + k -> n + k <= N * sz ->
    biter_plus sz N (at_ sz n) k = Ok (at_ sz (n + k)).
  Proof.
    intros Hn H0 Hk. assert (D := Z.div_mod n sz ltac:(lia)). assert (M := Z.mod_pos_bound n sz ltac:(lia)).
    assert (Q : 0 <= n / sz) by (apply Z.div_pos; lia).
    assert (NK : 0 <= n + k) by nia.
    unfold biter_plus, biter_ra_tag, at_. cbn [it_ i_]. replace (0 <=? n mod sz + k) with true by lia.
    assert (F : n mod sz + k < 2 ^ 63) by nia.
    assert (E : n + k = (n mod sz + k) + (n / sz) * sz) by lia.
    destruct (at_bounds (n + k)) as (B1 & B2 & _); [lia|].
    assert (E1 : (n + k) / sz = n / sz + (n mod sz + k) / sz) by (rewrite E, Z.div_add by lia; lia).
    assert (E2 : (n + k) mod sz = (n mod sz + k) mod sz) by (rewrite E, Z.mod_add by lia; reflexivity).
    unfold udiv, umod. rewrite conv_u64_id by lia.
    assert (G : 0 <= (n mod sz + k) / sz) by (apply Z.div_pos; lia).
    assert (G2 := HN2). rewrite move_ok by lia. cbn [bind]. rewrite conv_i64_id by lia. now rewrite E1, E2.
  Qed.

  Theorem biter_next_ok n : 0 <= n < N * sz -> biter_next sz N (at_ sz n) = Ok (at_ sz (n + 1)).
  Proof.
    intros Hn. assert (D := Z.div_mod n sz ltac:(lia)). assert (M := Z.mod_pos_bound n sz ltac:(lia)).
    rewrite <- biter_plus_ok by lia. unfold biter_next, biter_plus, biter_next_tag, biter_ra_tag. cbn [at_ it_ i_].
    replace (0 <=? n mod sz + 1) with true by lia. unfold udiv. rewrite conv_u64_id by lia.
    destruct (Z.eq_dec (n mod sz + 1) sz) as [E|E].
    - rewrite E, Z.div_same by lia. reflexivity.
    - rewrite Z.div_small by lia. change (0 =? 0) with true. cbv iota. unfold move. change (conv i64 0) with 0.
      destruct (at_bounds n) as (B1 & _); [lia|]. rewrite Z.add_0_r.
      now replace ((0 <=? n / sz) && (n / sz <=? N)) with true by lia.
  Qed.

  Theorem biter_minus_ok n k : 0 <= n <= N * sz -> 0 <= k <= n mod sz -> biter_minus sz N (at_ sz n) k = Ok (at_ sz (n - k)).
  Proof.
    intros Hn Hk. change (biter_minus sz N (at_ sz n) k) with (biter_plus sz N (at_ sz n) (- k)).
    rewrite biter_plus_ok by lia. reflexivity.
  Qed.

  Theorem biter_diff_ok m n : 0 <= m <= N * sz -> 0 <= n <= N * sz -> biter_diff sz (at_ sz m) (at_ sz n) = m - n.
  Proof.
    intros Hm Hn. unfold biter_diff, at_. cbn [it_ i_].
    rewrite !conv_u64, Z.add_mod_idemp_l by discriminate.
    assert (D := Z.div_mod n sz ltac:(lia)). assert (D' := Z.div_mod m sz ltac:(lia)).
    replace ((m / sz - n / sz) * sz + (m mod sz - n mod sz)) with (m - n) by lia.
    transitivity (conv i64 (m - n)).
    - apply conv_of_mod. change (wid i64) with 64. apply Z.mod_mod. discriminate.
    - apply conv_id. unfold is_val. cbn [sgn i64]. change (wid i64 - 1) with 63. lia.
  Qed.

  Theorem biter_cmp_ok m n : 0 <= m -> 0 <= n ->
    biter_eq (at_ sz m) (at_ sz n) = (m =? n) /\ biter_lt (at_ sz m) (at_ sz n) = (m <? n).
  Proof.
    intros Hm Hn. unfold biter_eq, biter_lt, at_. cbn [it_ i_].
    assert (D := Z.div_mod n sz ltac:(lia)). assert (D' := Z.div_mod m sz ltac:(lia)).
    assert (M := Z.mod_pos_bound n sz ltac:(lia)). assert (M' := Z.mod_pos_bound m sz ltac:(lia)).
    split; apply eq_true_iff_eq.
    - rewrite andb_true_iff, !Z.eqb_eq. split; [intros (E1 & E2); congruence|intros ->; auto].
    - rewrite orb_true_iff, andb_true_iff, !Z.ltb_lt, Z.eqb_eq. split.
      + intros [L|(E & L)]; nia.
      + intros L. assert (m / sz <= n / sz) by (apply Z.div_le_mono; lia).
        destruct (Z.eq_dec (m / sz) (n / sz)) as [E|E]; [right; split; [exact E|]; rewrite E in D'; lia|left; lia].
  Qed.
End B.

(** ** Walking over a sequence *)
Theorem biter_get_ok il md be t l n : (il <= 3)%nat -> (lg t <= il)%nat -> (n < length (all_bytes be t l))%nat ->
  exists x, biter_get il md be t l (at_ (bytes t) (Z.of_nat n)) = Ok x /\ nth_error (all_bytes be t l) n = Some x.
Proof.
  intros Hil Ht. assert (B := bytes_pos t). revert n.
  assert (L : forall x, length (bytes_of be t x) = Z.to_nat (bytes t)) by (intros; unfold bytes_of; now rewrite map_length, seq_length).
  induction l as [|x l IH]; intros n Hn; [cbn in Hn; lia|].
  change (all_bytes be t (x :: l)) with (bytes_of be t x ++ all_bytes be t l) in *.
  destruct (Nat.lt_ge_cases n (Z.to_nat (bytes t))) as [C|C].
  - exists (byte_no (place be t (Z.of_nat n)) x). unfold biter_get, at_. cbn [it_ i_].
    rewrite Z.div_small, Z.mod_small by lia. cbn [Z.to_nat rd nth_error bind]. split; [apply get_byte_ok; auto; lia|].
    rewrite nth_error_app1 by (rewrite L; exact C). unfold bytes_of.
    rewrite nth_error_map, nth_error_nth' with (d := 0%nat) by (now rewrite seq_length).
    rewrite seq_nth by exact C. reflexivity.
  - rewrite app_length, L in Hn. destruct (IH (n - Z.to_nat (bytes t))%nat) as (y & E1 & E2); [lia|].
    exists y. split; [|rewrite nth_error_app2, L by (rewrite L; exact C); exact E2].
    rewrite <- E1. unfold biter_get, at_. cbn [it_ i_].
    assert (E : Z.of_nat n = Z.of_nat (n - Z.to_nat (bytes t)) + 1 * bytes t) by lia.
    rewrite E. rewrite Z.div_add, Z.mod_add by lia.
    assert (Q : 0 <= Z.of_nat (n - Z.to_nat (bytes t)) / bytes t) by (apply Z.div_pos; lia).
    replace (Z.to_nat (Z.of_nat (n - Z.to_nat (bytes t)) / bytes t + 1)) with (S (Z.to_nat (Z.of_nat (n - Z.to_nat (bytes t)) / bytes t))) by lia.
    reflexivity.
Qed.

Lemma all_bytes_length be t l : length (all_bytes be t l) = (length l * Z.to_nat (bytes t))%nat.
Proof.
  induction l as [|x l IH]; [reflexivity|]. change (all_bytes be t (x :: l)) with (bytes_of be t x ++ all_bytes be t l).
  rewrite app_length, IH. unfold bytes_of. rewrite map_length, seq_length. reflexivity.
Qed.

Theorem biter_walk_ok il md be t l n : (il <= 3)%nat -> (lg t <= il)%nat ->
  Z.of_nat (length l) * bytes t < 2 ^ 63 -> (n <= length (all_bytes be t l))%nat ->
  exists b, biter_nexts (bytes t) (Z.of_nat (length l)) n (biter_make 0) = Ok b /\
    biter_plus (bytes t) (Z.of_nat (length l)) (biter_make 0) (Z.of_nat n) = Ok b /\
    biter_diff (bytes t) b (biter_make 0) = Z.of_nat n /\
    (biter_eq b (biter_make (Z.of_nat (length l))) = true <-> n = length (all_bytes be t l)) /\
    ((n < length (all_bytes be t l))%nat -> exists x, biter_get il md be t l b = Ok x /\ nth_error (all_bytes be t l) n = Some x).
Proof.
  intros Hil Ht Hm Hn. assert (B := bytes_pos t). rewrite all_bytes_length in Hn.
  assert (B8 : bytes t <= 8).
  { unfold bytes. change 8 with (2 ^ 3). apply Z.pow_le_mono_r; lia. }
  assert (S2 : bytes t < 2 ^ 63) by lia.
  assert (M0 : biter_make 0 = at_ (bytes t) 0) by (unfold at_; now rewrite Z.div_0_l, Z.mod_0_l by lia).
  assert (ME : biter_make (Z.of_nat (length l)) = at_ (bytes t) (Z.of_nat (length l) * bytes t))
    by (unfold at_; now rewrite Z.div_mul, Z.mod_mul by lia).
  exists (at_ (bytes t) (Z.of_nat n)).
  assert (W : forall m k, (m + k <= length l * Z.to_nat (bytes t))%nat ->
    biter_nexts (bytes t) (Z.of_nat (length l)) k (at_ (bytes t) (Z.of_nat m)) = Ok (at_ (bytes t) (Z.of_nat (m + k)))).
  { intros m k. revert m. induction k as [|k IH]; intros m Hk; [now rewrite Nat.add_0_r|]. cbn [biter_nexts].
    rewrite biter_next_ok by nia. cbn [bind]. replace (Z.of_nat m + 1) with (Z.of_nat (S m)) by lia.
    rewrite IH by lia. now replace (S m + k)%nat with (m + S k)%nat by lia. }
  split; [rewrite M0; apply (W 0%nat n); lia|].
  split; [rewrite M0; rewrite biter_plus_ok; [reflexivity|try rewrite Z.mod_0_l; try nia..]|].
  split; [rewrite M0; rewrite biter_diff_ok with (N := Z.of_nat (length l)) by nia; lia|].
  split; [|intros L; now apply biter_get_ok].
  rewrite ME. rewrite (proj1 (biter_cmp_ok (bytes t) ltac:(lia) (Z.of_nat n) (Z.of_nat (length l) * bytes t) ltac:(lia) ltac:(lia))).
  rewrite Z.eqb_eq, all_bytes_length. nia.
Qed.

(** Going back yields an index outside the element. *)
Theorem biter_prev_bad sz N b b' : 0 < sz < 2 ^ 62 -> biter_prev sz N b = Ok b' -> sz <= i_ b'.
Proof.
  intros Hs H. unfold biter_prev, biter_prev_tag in H. destruct (if _ : bool then _ else _); cbn [bind] in H; try discriminate.
  injection H as <-. cbn [i_]. unfold umod. assert (M := Z.mod_pos_bound (conv u64 (i_ b - 1)) sz ltac:(lia)).
  rewrite conv_u64_id, conv_i64_id by lia. lia.
Qed.

Theorem biter_minus_bad sz N b n b' : 0 < sz < 2 ^ 62 -> i_ b < n -> biter_minus sz N b n = Ok b' -> sz <= i_ b'.
Proof.
  intros Hs Hn H. unfold biter_minus, biter_ra_tag in H.
  replace (0 <=? i_ b - n) with false in H by (symmetry; apply Z.leb_gt; lia).
  destruct (move _ _ _); cbn [bind] in H; try discriminate. injection H as <-. cbn [i_].
  unfold umod. assert (M := Z.mod_pos_bound (conv u64 (i_ b - n)) sz ltac:(lia)).
  rewrite conv_u64_id, conv_i64_id by lia. lia.
Qed.

Theorem biter_back_never sz N it i : 0 < sz < 2 ^ 62 -> 0 <= i < sz ->
  (forall b, biter_next sz N (BIter it i) = Ok b -> biter_prev sz N b <> Ok (BIter it i)) /\
  (forall b n, biter_plus sz N (BIter it i) n = Ok b -> i_ b < n -> biter_minus sz N b n <> Ok (BIter it i)).
Proof.
  intros Hs Hi. split.
  - intros b _ H. apply biter_prev_bad in H; [|exact Hs]. cbn [i_] in H. lia.
  - intros b n _ L H. apply biter_minus_bad in H; [|exact Hs|exact L]. cbn [i_] in H. lia.
Qed.

Theorem biter_minus_same sz N it i n : 0 < sz < 2 ^ 62 -> 0 <= it <= N -> 0 <= n <= i -> i < sz ->
  biter_minus sz N (BIter it i) n = Ok (BIter it (i - n)).
Proof.
  intros Hs Hit Hn Hi. unfold biter_minus, biter_ra_tag. cbn [it_ i_]. replace (0 <=? i - n) with true by lia.
  unfold udiv, umod. rewrite conv_u64_id by lia. rewrite Z.div_small, Z.mod_small by lia.
  unfold move. change (conv i64 0) with 0. rewrite Z.add_0_r. replace ((0 <=? it) && (it <=? N)) with true by lia.
  cbn [bind]. now rewrite conv_i64_id by lia.
Qed.
