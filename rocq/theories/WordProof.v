From Coq Require Import ZArith Bool List Lia ZifyBool ZifyNat.
From Verif Require Import Base BitModel BitSpec BitProof ByteSpec ByteProof WordModel WordSpec.
Import ListNotations.
Open Scope Z_scope.

Lemma pow_lt_256 n : (n <= 7)%nat -> 2 ^ Z.of_nat n <= 128.
Proof. intros H. apply (Z.pow_le_mono_r 2 (Z.of_nat n) 7); lia. Qed.

Lemma word_bytes t : word t -> exists h, bytes t = 2 * h /\ 1 <= h <= 64.
Proof.
  intros [_ H]. exists (2 ^ (Z.of_nat (lg t) - 1)). unfold bytes.
  replace (Z.of_nat (lg t)) with (Z.succ (Z.of_nat (lg t) - 1)) at 1 by lia. rewrite Z.pow_succ_r by lia. split; [reflexivity|].
  split; [apply (Z.pow_le_mono_r 2 0); lia|apply (Z.pow_le_mono_r 2 _ 6); lia].
Qed.

Lemma u8_id z : 0 <= z < 256 -> conv u8 z = z.
Proof. intros H. unfold conv, u8. cbn [sgn andb]. change (2 ^ wid (Ity false 0)) with 256. apply Z.mod_small. lia. Qed.

Lemma word_ext n a b : 0 <= n -> 0 <= a < 2 ^ (8 * n) -> 0 <= b < 2 ^ (8 * n) ->
  (forall i, 0 <= i < n -> byte_no i a = byte_no i b) -> a = b.
Proof.
  intros Hn Ha Hb H. rewrite <- (Z.mod_small a (2 ^ (8 * n))), <- (Z.mod_small b (2 ^ (8 * n))) by assumption.
  apply bits_mod; [lia|]. intros j Hj.
  pose proof (Z.div_mod j 8 ltac:(lia)) as E. pose proof (Z.mod_pos_bound j 8 ltac:(lia)) as B.
  assert (0 <= j / 8 < n) as Q by lia.
  pose proof (f_equal (fun z => Z.testbit z (j mod 8)) (H (j / 8) Q)) as K. cbn beta in K.
  rewrite !byte_no_bits in K by lia. replace (j mod 8 <? 8) with true in K by lia. cbn [andb] in K.
  replace (j mod 8 + 8 * (j / 8)) with j in K by lia. exact K.
Qed.

Section N.
  Variables (il : nat) (md : bool) (t : ity).
  Hypothesis Hu : sgn t = false.

  Let p := promote il t.

  Lemma uval x : is_val t x <-> 0 <= x < 2 ^ wid t.
  Proof. destruct t as [s l]. cbn [sgn] in Hu. subst s. apply (uns_val (Ity false l)). Qed.

  Lemma uhigh x i : is_val t x -> wid t <= i -> Z.testbit x i = false.
  Proof. destruct t as [s l]. cbn [sgn] in Hu. subst s. apply (uns_high (Ity false l)). Qed.

  Lemma conv_small b : 0 <= b < 256 -> conv t b = b.
  Proof.
    intros H. apply conv_id, uval. pose proof (wid_ge t). pose proof (pow_mono 8 (wid t) ltac:(lia)). change (2 ^ 8) with 256 in *. lia.
  Qed.

  Lemma lshift_ok b n : 0 <= b < 256 -> 0 <= n < bytes t ->
    exists r, lshift_by il md t b n = Ok r /\ is_val t r /\
      forall i, 0 <= i < wid t -> Z.testbit r i = (8 * n <=? i) && Z.testbit b (i - 8 * n).
  Proof.
    intros Hb Hn. unfold lshift_by. pose proof (promote_wid il t) as W. assert (wid t = 8 * bytes t) as Wt by reflexivity.
    rewrite shl_ok.
    - cbn [bind]. eexists. split; [reflexivity|]. split; [apply conv_val|]. intros i Hi.
      rewrite !conv_bits by lia. replace (n * 8) with (8 * n) by lia. apply mul_bits; lia.
    - lia.
    - right. right. split; [lia|]. assert (b * 2 ^ (n * 8) < 2 ^ 8 * 2 ^ (n * 8)) as L.
      { apply Z.mul_lt_mono_pos_r; [apply pow_pos; lia|change (2 ^ 8) with 256; lia]. }
      rewrite <- Z.pow_add_r in L by lia. eapply Z.lt_le_trans; [exact L|]. apply pow_mono. lia.
  Qed.

  Lemma mask_ok n : 0 <= n < bytes t ->
    exists r, mask_at il md t n = Ok r /\ is_val t r /\
      forall i, 0 <= i < wid t -> Z.testbit r i = (8 * n <=? i) && (i <? 8 * n + 8).
  Proof.
    intros Hn. unfold mask_at. rewrite conv_small by lia.
    destruct (lshift_ok 255 n ltac:(lia) Hn) as (r & E & V & B). exists r. split; [exact E|]. split; [exact V|].
    intros i Hi. rewrite (B i Hi). destruct (Z.leb_spec (8 * n) i); [|reflexivity]. cbn [andb]. rewrite bits255 by lia. lia.
  Qed.

  Lemma byte_at_ok x n : is_val t x -> 0 <= n < bytes t -> byte_at il md t x n = Ok (byte_no n x).
  Proof.
    intros Hx Hn. unfold byte_at. destruct (mask_ok n Hn) as (m & E & V & B). rewrite E. cbn [bind].
    assert (wid t = 8 * bytes t) as Wt by reflexivity. pose proof (promote_wid il t) as W.
    assert (promote il (promote il t) = promote il t) as PP.
    { unfold promote. destruct (Nat.ltb (lg t) il) eqn:Q; [|now rewrite Q]. cbn [lg int_t]. now rewrite Nat.ltb_irrefl. }
    unfold rshift_by. rewrite PP. rewrite shr_ok by lia. cbn [bind]. f_equal.
    apply byte_bits_eq; [|apply byte_no_range|].
    { exact (conv_val u8 _). }
    intros j Hj. rewrite byte_no_bits by lia. replace (j <? 8) with true by lia. cbn [andb].
    rewrite conv_bits by (change (wid u8) with 8; lia). rewrite conv_bits by lia.
    rewrite Z.shiftr_spec by lia. rewrite Z.land_spec, B by lia.
    replace ((8 * n <=? j + n * 8) && (j + n * 8 <? 8 * n + 8)) with true by lia. rewrite andb_true_r. f_equal. lia.
  Qed.

  Lemma replace_ok x b n : is_val t x -> 0 <= b < 256 -> 0 <= n < bytes t ->
    exists r, replace_at il md t x b n = Ok r /\ is_val t r /\
      forall i, 0 <= i < bytes t -> byte_no i r = if i =? n then b else byte_no i x.
  Proof.
    intros Hx Hb Hn. unfold replace_at. destruct (mask_ok n Hn) as (m & E & V & B). rewrite E. cbn [bind].
    rewrite conv_small by assumption. destruct (lshift_ok b n Hb Hn) as (s & E' & V' & B'). rewrite E'. cbn [bind].
    eexists. split; [reflexivity|]. split; [apply conv_val|]. intros i Hi.
    assert (wid t = 8 * bytes t) as Wt by reflexivity. pose proof (promote_wid il t) as W.
    assert (forall j, 0 <= j < 8 -> Z.testbit (byte_no i (conv t (Z.lor (Z.land x (cpl (promote il t) m)) s))) j =
      if i =? n then Z.testbit b j else Z.testbit (byte_no i x) j) as K.
    { intros j Hj. rewrite !byte_no_bits by lia. replace (j <? 8) with true by lia. cbn [andb].
      rewrite conv_bits by lia. rewrite Z.lor_spec, Z.land_spec, cpl_bits, B, B' by lia.
      destruct (i =? n) eqn:Ei.
      - replace ((8 * n <=? j + 8 * i) && (j + 8 * i <? 8 * n + 8)) with true by lia. cbn [negb]. rewrite andb_false_r. cbn [orb].
        replace (8 * n <=? j + 8 * i) with true by lia. cbn [andb]. f_equal. lia.
      - replace ((8 * n <=? j + 8 * i) && (j + 8 * i <? 8 * n + 8)) with false by lia. cbn [negb]. rewrite andb_true_r.
        destruct (8 * n <=? j + 8 * i) eqn:L; cbn [andb]; [|now rewrite orb_false_r].
        replace (Z.testbit b (j + 8 * i - 8 * n)) with false; [now rewrite orb_false_r|].
        symmetry. rewrite <- (Z.mod_small b (2 ^ 8)) by (change (2 ^ 8) with 256; lia). apply Z.mod_pow2_bits_high. lia. }
    destruct (i =? n); apply byte_bits_eq; try apply byte_no_range; try assumption.
  Qed.

  Lemma swap_ok x n1 n2 : is_val t x -> 0 <= n1 < bytes t -> 0 <= n2 < bytes t ->
    exists r, swap il md t x n1 n2 = Ok r /\ is_val t r /\
      forall i, 0 <= i < bytes t -> byte_no i r = if i =? n1 then byte_no n2 x else if i =? n2 then byte_no n1 x else byte_no i x.
  Proof.
    intros Hx H1 H2. unfold swap, copy. rewrite !byte_at_ok by assumption. cbn [bind].
    destruct (replace_ok x (byte_no n1 x) n2 Hx (byte_no_range _ _) H2) as (c & E & V & B). rewrite E. cbn [bind].
    destruct (replace_ok c (byte_no n2 x) n1 V (byte_no_range _ _) H1) as (r & E' & V' & B').
    exists r. split; [exact E'|]. split; [exact V'|]. intros i Hi. rewrite (B' i Hi), (B i Hi). reflexivity.
  Qed.

  Hypothesis Hlg : (1 <= lg t <= 7)%nat.

  Lemma reverse_impl_ok : forall k d x lo hi, (k < d)%nat -> is_val t x -> 0 <= lo -> hi = lo + 2 * Z.of_nat k - 1 -> hi < bytes t -> 0 < lo + Z.of_nat k ->
    exists r, reverse_impl il md d t x lo hi = Ok r /\ is_val t r /\
      forall i, 0 <= i < bytes t -> byte_no i r = if (lo <=? i) && (i <=? hi) then byte_no (lo + hi - i) x else byte_no i x.
  Proof.
    destruct (word_bytes t (conj Hu Hlg)) as (h & Eh & Hh).
    induction k as [|k IH]; intros d x lo hi Hd Hx Hlo Hhi Hb Hp; (destruct d as [|d]; [lia|]); cbn [reverse_impl].
    - replace (hi <? lo) with true by lia. exists x. split; [reflexivity|]. split; [assumption|].
      intros i Hi. replace ((lo <=? i) && (i <=? hi)) with false by lia. reflexivity.
    - replace (hi <? lo) with false by lia.
      destruct (swap_ok x lo hi Hx ltac:(lia) ltac:(lia)) as (v & E & V & B). rewrite E. cbn [bind].
      rewrite !u8_id by lia.
      destruct (IH d v (lo + 1) (hi - 1) ltac:(lia) V ltac:(lia) ltac:(lia) ltac:(lia) ltac:(lia)) as (r & E' & V' & B').
      exists r. split; [exact E'|]. split; [exact V'|]. intros i Hi. rewrite (B' i Hi).
      destruct ((lo + 1 <=? i) && (i <=? hi - 1)) eqn:Q.
      + rewrite B by lia. replace (lo + 1 + (hi - 1) - i =? lo) with false by lia. replace (lo + 1 + (hi - 1) - i =? hi) with false by lia.
        replace ((lo <=? i) && (i <=? hi)) with true by lia. f_equal. lia.
      + rewrite B by lia. destruct (i =? lo) eqn:Q1.
        { replace ((lo <=? i) && (i <=? hi)) with true by lia. f_equal. lia. }
        destruct (i =? hi) eqn:Q2.
        { replace ((lo <=? i) && (i <=? hi)) with true by lia. f_equal. lia. }
        replace ((lo <=? i) && (i <=? hi)) with false by lia. reflexivity.
  Qed.

  Lemma reverse_ok d x : bytes t < 2 * Z.of_nat d -> is_val t x ->
    exists r, reverse il md d t x = Ok r /\ is_val t r /\
      forall i, 0 <= i < bytes t -> byte_no i r = byte_no (bytes t - 1 - i) x.
  Proof.
    intros Hd Hx. destruct (word_bytes t (conj Hu Hlg)) as (h & Eh & Hh). unfold reverse. rewrite u8_id by lia.
    destruct (reverse_impl_ok (Z.to_nat h) d x 0 (bytes t - 1) ltac:(lia) Hx ltac:(lia) ltac:(lia) ltac:(lia) ltac:(lia)) as (r & E & V & B).
    exists r. split; [exact E|]. split; [exact V|]. intros i Hi. rewrite (B i Hi).
    replace ((0 <=? i) && (i <=? bytes t - 1)) with true by lia. f_equal.
  Qed.

  Definition other (i : Z) : Z := if Z.even i then i + 1 else i - 1.

  Lemma reverse_words_impl_ok : forall k d x n, (k < d)%nat -> is_val t x -> n = 2 * Z.of_nat k -> n <= bytes t ->
    exists r, reverse_words_impl il md d t x n = Ok r /\ is_val t r /\
      forall i, 0 <= i < bytes t -> byte_no i r = if i <? n then byte_no (other i) x else byte_no i x.
  Proof.
    destruct (word_bytes t (conj Hu Hlg)) as (h & Eh & Hh).
    induction k as [|k IH]; intros d x n Hd Hx Hn Hb; (destruct d as [|d]; [lia|]); cbn [reverse_words_impl].
    - replace (n =? 0) with true by lia. exists x. split; [reflexivity|]. split; [assumption|]. intros i Hi.
      now replace (i <? n) with false by lia.
    - replace (n =? 0) with false by lia. rewrite !u8_id by lia.
      destruct (swap_ok x (n - 1) (n - 2) Hx ltac:(lia) ltac:(lia)) as (v & E & V & B). rewrite E. cbn [bind].
      destruct (IH d v (n - 2) ltac:(lia) V ltac:(lia) ltac:(lia)) as (r & E' & V' & B').
      exists r. split; [exact E'|]. split; [exact V'|]. intros i Hi. rewrite (B' i Hi).
      assert (forall j, Z.even j = true <-> exists m, j = 2 * m) as Ev by (intros j; apply Z.even_spec).
      destruct (i <? n - 2) eqn:Q.
      + replace (i <? n) with true by lia.
        assert (0 <= other i < n - 2) as O.
        { unfold other. destruct (Z.even i) eqn:Ee; [apply Ev in Ee; destruct Ee; lia|].
          assert (i <> 0) by (intros ->; discriminate). lia. }
        rewrite B by lia. replace (other i =? n - 1) with false by lia. now replace (other i =? n - 2) with false by lia.
      + rewrite B by lia. destruct (i =? n - 1) eqn:Q1.
        { replace (i <? n) with true by lia. f_equal. unfold other. destruct (Z.even i) eqn:Ee; [apply Ev in Ee; destruct Ee; lia|lia]. }
        destruct (i =? n - 2) eqn:Q2.
        { replace (i <? n) with true by lia. f_equal. unfold other. destruct (Z.even i) eqn:Ee; [lia|].
          assert (Z.even i = true); [apply Ev; exists (Z.of_nat k); lia|congruence]. }
        now replace (i <? n) with false by lia.
  Qed.

  Lemma reverse_words_ok d x : bytes t < 2 * Z.of_nat d -> is_val t x ->
    exists r, reverse_words il md d t x = Ok r /\ is_val t r /\
      forall i, 0 <= i < bytes t -> byte_no i r = byte_no (other i) x.
  Proof.
    intros Hd Hx. destruct (word_bytes t (conj Hu Hlg)) as (h & Eh & Hh). unfold reverse_words. rewrite u8_id by lia.
    destruct (reverse_words_impl_ok (Z.to_nat h) d x (bytes t) ltac:(lia) Hx ltac:(lia) ltac:(lia)) as (r & E & V & B).
    exists r. split; [exact E|]. split; [exact V|]. intros i Hi. rewrite (B i Hi). now replace (i <? bytes t) with true by lia.
  Qed.

  Lemma other_even i : Z.even (other i) = negb (Z.even i).
  Proof. unfold other. destruct (Z.even i) eqn:E; rewrite ?Z.even_add, ?Z.even_sub, E; reflexivity. Qed.
  Lemma other_other i : other (other i) = i.
  Proof. unfold other at 1. rewrite other_even. unfold other. destruct (Z.even i); cbn [negb]; lia. Qed.
  Lemma other_range i : 0 <= i < bytes t -> 0 <= other i < bytes t.
  Proof.
    destruct (word_bytes t (conj Hu Hlg)) as (h & Eh & Hh). intros H. unfold other. destruct (Z.even i) eqn:E.
    - apply Z.even_spec in E. destruct E. lia.
    - assert (i <> 0) by (intros ->; discriminate). lia.
  Qed.

  Lemma hton_exists e d x : bytes t < 2 * Z.of_nat d -> is_val t x ->
    exists r, hton il md e d t x = Ok r /\ is_val t r /\
      forall a, 0 <= a < bytes t -> byte_no (lies e (bytes t) a) r = byte_no (bytes t - 1 - a) x.
  Proof.
    intros Hd Hx. destruct e; cbn [hton lies].
    - exists x. auto.
    - destruct (reverse_ok d x Hd Hx) as (r & E & V & B). exists r. auto.
    - destruct (reverse_words_ok d x Hd Hx) as (r & E & V & B). exists r. split; [exact E|]. split; [exact V|]. intros a Ha.
      destruct (word_bytes t (conj Hu Hlg)) as (h & Eh & Hh).
      destruct (Z.even a) eqn:Ee.
      + assert (exists m, a = 2 * m) as [m ->] by (apply Z.even_spec; exact Ee). rewrite B by lia. f_equal. unfold other.
        replace (bytes t - 2 - 2 * m) with (2 * (h - 1 - m)) by lia. rewrite Z.even_mul. cbn [Z.even orb]. lia.
      + assert (exists m, a = 2 * m + 1) as [m ->] by (apply Z.odd_spec; rewrite <- Z.negb_even, Ee; reflexivity). rewrite B by lia. f_equal.
        unfold other. replace (bytes t - (2 * m + 1)) with (2 * (h - m - 1) + 1) by lia.
        rewrite Z.even_add, Z.even_mul. cbn [Z.even orb Bool.eqb]. lia.
  Qed.

  Lemma hton_memory_lemma e d x : bytes t < 2 * Z.of_nat d -> is_val t x ->
    exists r, hton il md e d t x = Ok r /\ is_val t r /\ memory e (bytes t) r = memory Big (bytes t) x.
  Proof.
    intros Hd Hx. destruct (hton_exists e d x Hd Hx) as (r & E & V & B). exists r. split; [exact E|]. split; [exact V|].
    unfold memory. apply map_ext_in. intros a Ha. apply in_seq in Ha. cbn [lies]. apply B. lia.
  Qed.

  Lemma ntoh_memory_lemma e d x : bytes t < 2 * Z.of_nat d -> is_val t x -> e <> Pdp ->
    exists r, ntoh il md e d t x = Ok r /\ is_val t r /\ memory Big (bytes t) r = memory e (bytes t) x.
  Proof.
    intros Hd Hx He. destruct e; [| |congruence]; cbn [ntoh].
    - exists x. auto.
    - destruct (reverse_ok d x Hd Hx) as (r & E & V & B). exists r. split; [exact E|]. split; [exact V|].
      unfold memory. apply map_ext_in. intros a Ha. apply in_seq in Ha. cbn [lies]. rewrite B by lia. f_equal. lia.
  Qed.

  Lemma memory_inj_big a b : is_val t a -> is_val t b -> memory Big (bytes t) a = memory Big (bytes t) b -> a = b.
  Proof.
    intros Ha Hb H. destruct (word_bytes t (conj Hu Hlg)) as (h & Eh & Hh). apply uval in Ha. apply uval in Hb.
    apply (word_ext (bytes t)); [lia|exact Ha|exact Hb|]. intros i Hi.
    pose proof (f_equal (fun l => nth_error l (Z.to_nat (bytes t - 1 - i))) H) as K. cbn beta in K. unfold memory in K.
    rewrite !nth_error_map in K.
    assert (nth_error (seq 0 (Z.to_nat (bytes t))) (Z.to_nat (bytes t - 1 - i)) = Some (Z.to_nat (bytes t - 1 - i))) as Q.
    { rewrite nth_error_nth' with (d := O) by (rewrite seq_length; lia). rewrite seq_nth by lia. reflexivity. }
    rewrite Q in K. cbn [option_map lies] in K. replace (bytes t - 1 - Z.of_nat (Z.to_nat (bytes t - 1 - i))) with i in K by lia. congruence.
  Qed.

  Lemma round_trip_lemma e d x : bytes t < 2 * Z.of_nat d -> is_val t x -> e <> Pdp ->
    (r <- hton il md e d t x ;; ntoh il md e d t r) = Ok x /\ (r <- ntoh il md e d t x ;; hton il md e d t r) = Ok x.
  Proof.
    intros Hd Hx He.
    destruct (hton_memory_lemma e d x Hd Hx) as (r & E & V & M). destruct (ntoh_memory_lemma e d r Hd V He) as (q & E' & V' & M').
    assert ((r <- hton il md e d t x ;; ntoh il md e d t r) = Ok x) as R.
    { rewrite E. cbn [bind]. rewrite E'. f_equal. apply memory_inj_big; [assumption..|congruence]. }
    split; [exact R|]. destruct e; [reflexivity|exact R|congruence].
  Qed.
End N.

Lemma byte_refuted_lemma il md d x : (1 <= il <= 7)%nat -> is_val u8 x -> (2 <= d)%nat ->
  hton il md Little d u8 x = UB.
Proof.
  intros Hil Hx Hd. destruct d as [|[|d]]; try lia. unfold hton, reverse. change (conv u8 (bytes u8 - 1)) with 0. cbn [reverse_impl].
  change (0 <? 0) with false. cbn iota.
  destruct (swap_ok il md u8 eq_refl x 0 0 Hx ltac:(cbn; lia) ltac:(cbn; lia)) as (v & E & V & _). rewrite E. cbn [bind].
  change (conv u8 (0 + 1)) with 1. change (conv u8 (0 - 1)) with 255. change (255 <? 1) with false. cbn iota.
  enough (swap il md u8 v 1 255 = UB) as -> by reflexivity. unfold swap, copy.
  assert (promote il u8 = int_t il) as P. { unfold promote. cbn [lg u8]. destruct il; [lia|reflexivity]. }
  assert (16 <= wid (int_t il) <= 1024) as W.
  { unfold wid, bytes. cbn [lg int_t]. split; [pose proof (Z.pow_le_mono_r 2 1 (Z.of_nat il)); lia|pose proof (Z.pow_le_mono_r 2 (Z.of_nat il) 7); lia]. }
  assert (mask_at il md u8 255 = UB) as M.
  { unfold mask_at, lshift_by. rewrite P. rewrite shl_ub by lia. reflexivity. }
  unfold replace_at. rewrite M. destruct (byte_at il md u8 v 1) eqn:Q; [reflexivity|reflexivity|].
  exfalso. revert Q. unfold byte_at, mask_at, lshift_by, rshift_by. rewrite P. change (conv u8 255) with 255.
  assert (promote il (int_t il) = int_t il) as P2. { unfold promote. cbn [lg int_t]. now rewrite Nat.ltb_irrefl. }
  rewrite P2. unfold shl, shr. repeat (match goal with |- context [if ?b then _ else _] => destruct b end; cbn [bind]); discriminate.
Qed.

Lemma named_lemma : forall il md e d x, (is_val (Ity false 2) x -> (3 <= d)%nat ->
    (exists r, htonl il md e d x = Ok r /\ is_val (Ity false 2) r /\ memory e 4 r = memory Big 4 x) /\
    (e <> Pdp -> exists r, ntohl il md e d x = Ok r /\ is_val (Ity false 2) r /\ memory Big 4 r = memory e 4 x)) /\
  (is_val (Ity false 1) x -> (2 <= d)%nat ->
    (exists r, htons il md e d x = Ok r /\ is_val (Ity false 1) r /\ memory e 2 r = memory Big 2 x) /\
    (e <> Pdp -> exists r, ntohs il md e d x = Ok r /\ is_val (Ity false 1) r /\ memory Big 2 r = memory e 2 x)).
Proof.
  intros il md e d x. split; intros Hx Hd; split.
  - apply (hton_memory_lemma il md (Ity false 2) eq_refl ltac:(cbn; lia) e d x); [change (bytes (Ity false 2)) with 4; lia|exact Hx].
  - apply (ntoh_memory_lemma il md (Ity false 2) eq_refl ltac:(cbn; lia) e d x); [change (bytes (Ity false 2)) with 4; lia|exact Hx].
  - apply (hton_memory_lemma il md (Ity false 1) eq_refl ltac:(cbn; lia) e d x); [change (bytes (Ity false 1)) with 2; lia|exact Hx].
  - apply (ntoh_memory_lemma il md (Ity false 1) eq_refl ltac:(cbn; lia) e d x); [change (bytes (Ity false 1)) with 2; lia|exact Hx].
Qed.
