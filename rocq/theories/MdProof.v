(** MD5: the rounds, words and bits. *)
From Coq Require Import List Arith ZArith Bool Lia.
From Verif Require Import Base BitModel ShaModel ShaSpec SearchProof ShaProof ShaProof2 MdModel MdSpec.
Import ListNotations.
Open Scope Z_scope.

Definition mwords (v : Z * Z * Z * Z) : Prop :=
  let '(a, b, c, d) := v in is_word a /\ is_word b /\ is_word c /\ is_word d.
Definition list4 (v : Z * Z * Z * Z) : list Z := let '(a, b, c, d) := v in [a; b; c; d].

(** ** The rounds *)

(** what the registers of the model are called in the specification before operation [i] *)
Definition view (i : nat) (v : Z * Z * Z * Z) : Z * Z * Z * Z :=
  let '(a, b, c, d) := v in
  if (i mod 4 =? 0)%nat then (a, b, c, d)
  else if (i mod 4 =? 1)%nat then (d, a, b, c)
  else if (i mod 4 =? 2)%nat then (c, d, a, b)
  else (b, c, d, a).

Lemma round_op_ok md f a b c d x t s : 0 < s < 32 ->
  round_op md f a b c d x t s = Ok (plus32 b (rol32 s (plus32 (plus32 (plus32 a (f b c d)) x) t))).
Proof.
  intros H. unfold round_op. rewrite !add32_eq, rotl32_ok by (auto using plus32_word). reflexivity.
Qed.

Definition table_ok (n : nat) (f : Z -> Z -> Z -> Z) (tb : list nat * list Z * list Z) : Prop :=
  let '(xis, ts, ss) := tb in
  (forall i, (i < 16)%nat -> rd xis i = Ok (md_g (16 * n + i)) /\ rd ts i = Ok (nth (16 * n + i) md_t 0) /\
    rd ss i = Ok (md_s (16 * n + i)) /\ (md_g (16 * n + i) < 16)%nat /\ 0 < md_s (16 * n + i) < 32) /\
  (forall i x y z, (i < 16)%nat -> is_word x -> is_word y -> is_word z -> f x y z = md_f (16 * n + i) x y z).

Lemma view_words i v : mwords (view i v) -> mwords v.
Proof.
  destruct v as [[[a b] c] d]. unfold view.
  destruct (_ =? 0)%nat; [auto|]. destruct (_ =? 1)%nat; [cbn; tauto|]. destruct (_ =? 2)%nat; cbn; tauto.
Qed.
Lemma words_view i v : mwords v -> mwords (view i v).
Proof.
  destruct v as [[[a b] c] d]. unfold view.
  destruct (_ =? 0)%nat; [auto|]. destruct (_ =? 1)%nat; [cbn; tauto|]. destruct (_ =? 2)%nat; cbn; tauto.
Qed.

Lemma mod4_cases i : (i mod 4 = 0 \/ i mod 4 = 1 \/ i mod 4 = 2 \/ i mod 4 = 3)%nat.
Proof. pose proof (Nat.mod_upper_bound i 4 ltac:(lia)). lia. Qed.
Lemma mod4_S i : ((i + 1) mod 4 = (i mod 4 + 1) mod 4)%nat.
Proof. now rewrite Nat.add_mod_idemp_l by lia. Qed.
Lemma mod4_off n i : ((16 * n + i) mod 4 = i mod 4)%nat.
Proof. replace (16 * n + i)%nat with (i + (4 * n) * 4)%nat by lia. apply Nat.mod_add. lia. Qed.

Lemma round_x_impl_ok md n f tb x m : table_ok n f tb -> length x = 16%nat ->
  forall i v, (i + m = 16)%nat -> mwords v ->
  exists v', round_x_impl md (S m) f tb (fst (fst (fst v))) (snd (fst (fst v))) (snd (fst v)) (snd v) x i = Ok (list4 v') /\
    mwords v' /\ v' = fold_left (md_step x) (seq (16 * n + i) m) (view i v).
Proof.
  intros T Lx. induction m as [|m IH]; intros i [[[a b] c] d] Hi Hv; cbn [fst snd].
  - replace i with 16%nat by lia. exists (a, b, c, d). repeat split; try apply Hv.
  - remember (S m) as m1. cbn [round_x_impl]. subst m1.
    destruct (Nat.eqb_spec i 16) as [E|N]; [lia|].
    destruct tb as [[xis ts] ss]. destruct T as (T1 & T2). destruct (T1 i ltac:(lia)) as (E1 & E2 & E3 & G & S1).
    rewrite E1. cbn [bind]. rewrite rd_nth_d by lia. cbn [bind]. rewrite E2, E3. cbn [bind].
    pose proof Hv as (Ha & Hb & Hc & Hd).
    set (X := nth (md_g (16 * n + i)) x 0) in *. set (TT := nth (16 * n + i) md_t 0) in *.
    cbn [seq fold_left].
    assert (ST : forall p q r s, is_word p -> is_word q -> is_word r -> is_word s ->
      md_step x (p, q, r, s) (16 * n + i) =
        (s, plus32 q (rol32 (md_s (16 * n + i)) (plus32 (plus32 (plus32 p (f q r s)) X) TT)), q, r)).
    { intros p q r s Hp Hq Hr Hs. unfold md_step. now rewrite <- (T2 i) by (auto; lia). }
    replace (S (16 * n + i)) with (16 * n + (i + 1))%nat by lia.
    destruct (mod4_cases i) as [M|[M|[M|M]]]; rewrite M; cbn [Nat.eqb];
      rewrite round_op_ok by exact S1; cbn [bind];
      unfold view at 1; rewrite M; cbn [Nat.eqb]; rewrite ST by assumption;
      match goal with |- context [plus32 ?q ?w] => set (new := plus32 q w) in * end;
      assert (Hnew : is_word new) by apply plus32_word.
    + destruct (IH (i + 1)%nat (new, b, c, d) ltac:(lia) ltac:(unfold mwords; tauto)) as (v' & E' & W' & V').
      exists v'. split; [exact E'|]. split; [exact W'|]. rewrite V'. unfold view. now rewrite mod4_S, M.
    + destruct (IH (i + 1)%nat (a, b, c, new) ltac:(lia) ltac:(unfold mwords; tauto)) as (v' & E' & W' & V').
      exists v'. split; [exact E'|]. split; [exact W'|]. rewrite V'. unfold view. now rewrite mod4_S, M.
    + destruct (IH (i + 1)%nat (a, b, new, d) ltac:(lia) ltac:(unfold mwords; tauto)) as (v' & E' & W' & V').
      exists v'. split; [exact E'|]. split; [exact W'|]. rewrite V'. unfold view. now rewrite mod4_S, M.
    + destruct (IH (i + 1)%nat (a, new, c, d) ltac:(lia) ltac:(unfold mwords; tauto)) as (v' & E' & W' & V').
      exists v'. split; [exact E'|]. split; [exact W'|]. rewrite V'. unfold view. now rewrite mod4_S, M.
Qed.

Ltac each16 i := do 16 (destruct i as [|i]; [|]); [..|exfalso; lia].

Lemma lt16 (P : nat -> Prop) : P 0%nat -> P 1%nat -> P 2%nat -> P 3%nat -> P 4%nat -> P 5%nat -> P 6%nat -> P 7%nat ->
  P 8%nat -> P 9%nat -> P 10%nat -> P 11%nat -> P 12%nat -> P 13%nat -> P 14%nat -> P 15%nat ->
  forall i, (i < 16)%nat -> P i.
Proof. intros. do 16 (destruct i as [|i]; [assumption|]). lia. Qed.

Lemma table1_ok : table_ok 0 func_f table1.
Proof.
  split.
  - apply lt16; repeat split; cbv; lia || reflexivity.
  - intros i x y z Hi Hx Hy Hz. unfold func_f, md_f. rewrite cpl32 by exact Hx.
    replace (16 * 0 + i <? 16)%nat with true by (symmetry; apply Nat.ltb_lt; lia). reflexivity.
Qed.
Lemma table2_ok : table_ok 1 func_g table2.
Proof.
  split.
  - apply lt16; repeat split; cbv; lia || reflexivity.
  - intros i x y z Hi Hx Hy Hz. unfold func_g, md_f. rewrite cpl32 by exact Hz.
    replace (16 * 1 + i <? 16)%nat with false by (symmetry; apply Nat.ltb_ge; lia).
    replace (16 * 1 + i <? 32)%nat with true by (symmetry; apply Nat.ltb_lt; lia). reflexivity.
Qed.
Lemma table3_ok : table_ok 2 func_h table3.
Proof.
  split.
  - apply lt16; repeat split; cbv; lia || reflexivity.
  - intros i x y z Hi Hx Hy Hz. unfold func_h, md_f.
    replace (16 * 2 + i <? 16)%nat with false by (symmetry; apply Nat.ltb_ge; lia).
    replace (16 * 2 + i <? 32)%nat with false by (symmetry; apply Nat.ltb_ge; lia).
    replace (16 * 2 + i <? 48)%nat with true by (symmetry; apply Nat.ltb_lt; lia). reflexivity.
Qed.
Lemma table4_ok : table_ok 3 func_i table4.
Proof.
  split.
  - apply lt16; repeat split; cbv; lia || reflexivity.
  - intros i x y z Hi Hx Hy Hz. unfold func_i, md_f. rewrite cpl32 by exact Hz.
    replace (16 * 3 + i <? 16)%nat with false by (symmetry; apply Nat.ltb_ge; lia).
    replace (16 * 3 + i <? 32)%nat with false by (symmetry; apply Nat.ltb_ge; lia).
    replace (16 * 3 + i <? 48)%nat with false by (symmetry; apply Nat.ltb_ge; lia). reflexivity.
Qed.

Lemma round_x_ok md n f tb x v : table_ok n f tb -> length x = 16%nat -> mwords v ->
  round_x md f tb (list4 v) x = Ok (list4 (fold_left (md_step x) (seq (16 * n) 16) v)) /\
  mwords (fold_left (md_step x) (seq (16 * n) 16) v).
Proof.
  intros T Lx Hv. unfold round_x. destruct v as [[[a b] c] d]. cbn [list4 rd nth_error bind].
  destruct (round_x_impl_ok md n f tb x 16 T Lx 0 (a, b, c, d) eq_refl Hv) as (v' & E & W & V).
  cbn [fst snd] in E. change (view 0 (a, b, c, d)) with (a, b, c, d) in V. rewrite Nat.add_0_r in V.
  rewrite E. subst v'. split; [reflexivity|exact W].
Qed.

Lemma round_all_ok md v x : length x = 16%nat -> mwords v ->
  round_all md (list4 v) x = Ok (list4 (fold_left (md_step x) (seq 0 64) v)).
Proof.
  intros Lx Hv. unfold round_all.
  destruct (round_x_ok md 0 _ _ x v table1_ok Lx Hv) as (E1 & W1). rewrite E1. cbn [bind].
  destruct (round_x_ok md 1 _ _ x _ table2_ok Lx W1) as (E2 & W2). rewrite E2. cbn [bind].
  destruct (round_x_ok md 2 _ _ x _ table3_ok Lx W2) as (E3 & W3). rewrite E3. cbn [bind].
  destruct (round_x_ok md 3 _ _ x _ table4_ok Lx W3) as (E4 & W4). rewrite E4.
  rewrite <- !fold_left_app. reflexivity.
Qed.

(** [x] is the block *)
Definition madd (v w : Z * Z * Z * Z) : Z * Z * Z * Z :=
  let '(a0, b0, c0, d0) := v in let '(a, b, c, d) := w in (plus32 a0 a, plus32 b0 b, plus32 c0 c, plus32 d0 d).
Definition compress_words (v : Z * Z * Z * Z) (x : list Z) : Z * Z * Z * Z :=
  madd v (fold_left (md_step x) (seq 0 64) v).

Lemma md_compress_eq v chunk : md_compress v chunk = compress_words v (bits_words chunk).
Proof. unfold md_compress, compress_words, madd. destruct v as [[[a b] c] d]. destruct (fold_left _ _ _) as [[[e f] g] h]. reflexivity. Qed.

Lemma madd_words v w : mwords (madd v w).
Proof. destruct v as [[[a b] c] d], w as [[[e f] g] h]. repeat split; apply plus32_word || apply (plus32_word _ _). Qed.

Lemma process_block_k_ok md v x bc : length x = 16%nat -> mwords v ->
  process_block_k md (Md5 (list4 v) x bc) = Ok (Md5 (list4 (compress_words v x)) (repeat 0 16) bc).
Proof.
  intros Lx Hv. unfold process_block_k. cbn [k_ mblock_ mbit_count_]. rewrite round_all_ok by assumption. cbn [bind].
  unfold compress_words. destruct (fold_left _ _ _) as [[[e f] g] h]. destruct v as [[[a b] c] d]. reflexivity.
Qed.

Lemma m_process_block_k_ok md v x bc : length x = 16%nat -> mwords v ->
  m_process_block_k md (Md5 (list4 v) x bc) = Ok (Md5 (list4 (compress_words v x)) (repeat 0 16) bc).
Proof.
  intros Lx Hv. unfold m_process_block_k. cbn [k_ mblock_ mbit_count_]. rewrite round_all_ok by assumption. cbn [bind].
  unfold compress_words. rewrite Lx. destruct (fold_left _ _ _) as [[[e f] g] h]. destruct v as [[[a b] c] d]. reflexivity.
Qed.

(** ** Bits of words *)
Definition bpos (o : nat) : nat := (o / 8 * 8 + (7 - o mod 8))%nat.

Lemma testbit_of_le_cons b a p : is_byte b -> 0 <= p ->
  Z.testbit (b + 2 ^ 8 * a) p = if p <? 8 then Z.testbit b p else Z.testbit a (p - 8).
Proof.
  intros Hb Hp. rewrite Z.add_comm, Z.mul_comm, <- lor_add by (unfold is_byte in Hb; lia).
  rewrite Z.lor_spec. destruct (Z.ltb_spec p 8) as [C|C].
  - now rewrite Z.mul_pow2_bits_low by lia.
  - rewrite Z.mul_pow2_bits by lia. rewrite <- (Z.mod_small b (2 ^ 8)) by exact Hb.
    rewrite Z.mod_pow2_bits_high by lia. apply orb_false_r.
Qed.

Lemma of_le_testbit bs : Forall is_byte bs -> forall p, (p < 8 * length bs)%nat ->
  Z.testbit (of_le bs) (Z.of_nat p) = Z.testbit (nth (p / 8) bs 0) (Z.of_nat (p mod 8)).
Proof.
  induction 1 as [|b t Hb Ht IH]; intros p Hp; cbn [length] in Hp; [lia|].
  unfold of_le. cbn [fold_right]. fold (of_le t). rewrite testbit_of_le_cons by (auto; lia).
  destruct (Z.ltb_spec (Z.of_nat p) 8) as [C|C].
  - rewrite Nat.div_small, Nat.mod_small by lia. reflexivity.
  - replace (Z.of_nat p - 8) with (Z.of_nat (p - 8)) by lia. rewrite IH by lia.
    replace p with (p - 8 + 1 * 8)%nat at 3 4 by lia.
    rewrite Nat.div_add, Nat.mod_add by lia. replace ((p - 8) / 8 + 1)%nat with (S ((p - 8) / 8)) by lia. reflexivity.
Qed.

Lemma of_le_range bs : Forall is_byte bs -> 0 <= of_le bs < 2 ^ (8 * Z.of_nat (length bs)).
Proof.
  induction 1 as [|b t Hb Ht IH]; [cbn; lia|]. unfold of_le. cbn [fold_right length]. fold (of_le t).
  unfold is_byte in Hb. rewrite Nat2Z.inj_succ. replace (8 * Z.succ (Z.of_nat (length t))) with (8 + 8 * Z.of_nat (length t)) by lia.
  rewrite Z.pow_add_r by lia. nia.
Qed.

Lemma bits_byte_8 l : length l = 8%nat -> is_byte (bits_byte l) /\
  forall q, (q < 8)%nat -> Z.testbit (bits_byte l) (Z.of_nat q) = nth (7 - q) l false.
Proof.
  intros H. do 8 (destruct l as [|? l]; [discriminate|]). destruct l; [|discriminate].
  split.
  - destruct b, b0, b1, b2, b3, b4, b5, b6; unfold is_byte; cbn; lia.
  - intros q Hq. do 8 (destruct q as [|q]; [destruct b, b0, b1, b2, b3, b4, b5, b6; reflexivity|]). lia.
Qed.

Lemma block_of_length {A} n (l : list A) i : (n * i + n <= length l)%nat -> length (block_of n l i) = n.
Proof. intros H. unfold block_of. rewrite firstn_length, skipn_length. lia. Qed.

Lemma nth_firstn {A} (l : list A) n i d : (i < n)%nat -> nth i (firstn n l) d = nth i l d.
Proof.
  revert n i. induction l as [|x t IH]; intros [|n] [|i] H; cbn; auto; try lia. apply IH. lia.
Qed.
Lemma nth_skipn {A} (l : list A) n i d : nth i (skipn n l) d = nth (n + i) l d.
Proof.
  revert n. induction l as [|x t IH]; intros [|n]; cbn [skipn Nat.add]; auto; [now destruct i|]. apply IH.
Qed.

Lemma block_of_nth {A} n (l : list A) i j d : (j < n)%nat -> nth j (block_of n l i) d = nth (n * i + j) l d.
Proof. intros H. unfold block_of. now rewrite nth_firstn, nth_skipn by exact H. Qed.

Lemma blocks_nth {A} n (l : list A) i : (i < length l / n)%nat -> nth i (blocks n l) [] = block_of n l i.
Proof.
  intros H. unfold blocks.
  rewrite nth_indep with (d' := block_of n l 0) by (rewrite map_length, seq_length; exact H).
  rewrite map_nth with (f := block_of n l) (d := 0%nat). now rewrite seq_nth by exact H.
Qed.

Lemma blocks_length {A} n (l : list A) : length (blocks n l) = (length l / n)%nat.
Proof. unfold blocks. now rewrite map_length, seq_length. Qed.

Lemma bits_word_spec l : length l = 32%nat -> is_word (bits_word l) /\
  forall p, (p < 32)%nat -> Z.testbit (bits_word l) (Z.of_nat p) = nth (bpos p) l false.
Proof.
  intros H. unfold bits_word.
  assert (LB : length (map bits_byte (blocks 8 l)) = 4%nat) by (now rewrite map_length, blocks_length, H).
  assert (F : Forall is_byte (map bits_byte (blocks 8 l))).
  { apply Forall_forall. intros x Hx. apply in_map_iff in Hx. destruct Hx as (b & <- & Hb).
    unfold blocks in Hb. apply in_map_iff in Hb. destruct Hb as (i & <- & Hi). apply in_seq in Hi. rewrite H in Hi.
    change (32 / 8)%nat with 4%nat in Hi.
    apply bits_byte_8, block_of_length. lia. }
  split.
  - pose proof (of_le_range _ F) as R. rewrite LB in R. exact R.
  - intros p Hp. rewrite of_le_testbit by (auto; rewrite LB; lia).
    assert (P8 : (p / 8 < 4)%nat) by (apply Nat.div_lt_upper_bound; lia).
    assert (M8 : (p mod 8 < 8)%nat) by (apply Nat.mod_upper_bound; lia).
    rewrite nth_indep with (d' := bits_byte []) by (rewrite LB; exact P8).
    rewrite map_nth, blocks_nth by (rewrite H; exact P8).
    destruct (bits_byte_8 (block_of 8 l (p / 8))) as (_ & B); [apply block_of_length; lia|].
    rewrite B by exact M8. rewrite block_of_nth by lia. unfold bpos. f_equal. lia.
Qed.

Lemma bpos_lt o : (o < 32)%nat -> (bpos o < 32)%nat.
Proof.
  intros H. unfold bpos. assert (o / 8 < 4)%nat by (apply Nat.div_lt_upper_bound; lia). lia.
Qed.
Lemma bpos_inv o : bpos (bpos o) = o.
Proof.
  unfold bpos. assert (M := Nat.mod_upper_bound o 8 ltac:(lia)). assert (D := Nat.div_mod o 8 ltac:(lia)).
  set (q := (o / 8)%nat) in *. set (m := (o mod 8)%nat) in *.
  assert (Q : ((q * 8 + (7 - m)) / 8 = q)%nat) by (symmetry; apply Nat.div_unique with (7 - m)%nat; lia).
  assert (R : ((q * 8 + (7 - m)) mod 8 = 7 - m)%nat) by (symmetry; apply Nat.mod_unique with q; lia).
  rewrite Q, R.
  lia.
Qed.

Lemma upd_nth_eq' {A} (l : list A) i x d : (i < length l)%nat -> nth i (upd l i x) d = x.
Proof. revert i. induction l as [|y t IH]; intros [|i] H; cbn in *; try lia; auto. apply IH. lia. Qed.
Lemma upd_nth_neq' {A} (l : list A) i j x d : i <> j -> nth j (upd l i x) d = nth j l d.
Proof. revert i j. induction l as [|y t IH]; intros [|i] [|j] H; cbn; auto; try lia. Qed.

Lemma word_ext x y : is_word x -> is_word y ->
  (forall p, (p < 32)%nat -> Z.testbit x (Z.of_nat p) = Z.testbit y (Z.of_nat p)) -> x = y.
Proof.
  intros Hx Hy H. apply Z.bits_inj'. intros i Hi. destruct (Z.lt_ge_cases i 32) as [C|C].
  - rewrite <- (Z2Nat.id i) by lia. apply H. lia.
  - rewrite <- (word_mod x Hx), <- (word_mod y Hy). now rewrite !Z.mod_pow2_bits_high by lia.
Qed.

Lemma bit_pow_word (b : bool) p : (p < 32)%nat -> is_word (Z.b2z b * 2 ^ Z.of_nat p).
Proof.
  intros H. unfold is_word. assert (0 < 2 ^ Z.of_nat p) by (apply Z.pow_pos_nonneg; lia).
  assert (2 ^ Z.of_nat p < 2 ^ 32) by (apply Z.pow_lt_mono_r; lia). destruct b; cbn [Z.b2z]; lia.
Qed.

Lemma set_bit l o b : length l = 32%nat -> (o < 32)%nat -> nth o l false = false ->
  Z.lor (bits_word l) (Z.b2z b * 2 ^ Z.of_nat (bpos o)) = bits_word (upd l o b).
Proof.
  intros L Ho N. assert (B := bpos_lt o Ho).
  destruct (bits_word_spec l L) as (W1 & T1). destruct (bits_word_spec (upd l o b)) as (W2 & T2); [now rewrite upd_length'|].
  apply word_ext; [apply lor_word; [exact W1|now apply bit_pow_word]|exact W2|].
  intros p Hp. rewrite Z.lor_spec, T1, T2 by exact Hp.
  destruct (Nat.eq_dec p (bpos o)) as [->|NE].
  - rewrite bpos_inv, N, upd_nth_eq' by lia. cbn [orb]. rewrite Z.mul_pow2_bits by lia. rewrite Z.sub_diag. now destruct b.
  - rewrite upd_nth_neq' by (intros E; apply NE; rewrite E; now rewrite bpos_inv).
    replace (Z.testbit (Z.b2z b * 2 ^ Z.of_nat (bpos o)) (Z.of_nat p)) with false; [apply orb_false_r|].
    symmetry. destruct b; cbn [Z.b2z]; [|now rewrite Z.mul_0_l, Z.bits_0].
    rewrite Z.mul_1_l. apply Z.pow2_bits_false. lia.
Qed.
